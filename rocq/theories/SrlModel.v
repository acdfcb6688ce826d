(** Model of a design of experiments run in one process: openmdao/drivers/
    predeterminedruns_driver.py _setup_communicators (lines 130-132), add_response (336-355),
    get_responses (357-372), _setup (391-406), run (408-429, serial case), _save_case (439),
    _prep_case (441-449), _try_case (451-477), _run_serial (479-500), with
    InMemoryRecorder.reset and record_iteration (openmdao/recorders/inmem_recorder.py 46-90) and
    create_local_meta (openmdao/util/record_util.py 8-41).
    The vectors of the model are of any type.  Setting a design variable, solving, and what a
    recorder selects from the vectors (C17) are arguments.  A message is kept as whether there
    is one.  Recorders other than the one of the responses are left out. *)
From Verif Require Import Base ExprModel LcnModel.
Local Open Scope list_scope.

(** root.solve_nonlinear: it returns, raises AnalysisError, or another exception *)
Inductive outcome := Done | Analysis | Other (e : pyerr).
Record entry (S : Type) := mkE { e_sel : S; e_iter : nat; e_success : bool; e_msg : bool }.
Arguments mkE {S}. Arguments e_sel {S}. Arguments e_iter {S}. Arguments e_success {S}. Arguments e_msg {S}.

Section Doe.
  Context {V X S : Type}.
  Variable set_desvar : V -> txt -> X -> V.
  Variable solve : V -> V * outcome.
  (** what a recorder with these includes selects *)
  Variable select : list txt -> V -> S.
  Definition case := list (txt * X).
  (** recorders: includes and iterations, the newest last *)
  Record driver := mkD { d_resp : list txt; d_recs : list (list txt * list (entry S)); d_rec : option nat; d_load : bool; d_iter : nat }.

  (** add_response: names are added one by one *)
  Fixpoint add_response (d : driver) (names : list txt) : driver * option pyerr :=
    match names with
    | [] => (d, None)
    | n :: r => if existsb (teqb n) (d_resp d) then (d, Some RuntimeError)
                else add_response (mkD (d_resp d ++ [n]) (d_recs d) (d_rec d) (d_load d) (d_iter d)) r
    end.
  (** _setup and _setup_communicators *)
  Definition setup (d : driver) : driver :=
    match d_resp d with
    | [] => mkD (d_resp d) (d_recs d) (d_rec d) false (d_iter d)
    | _ => mkD (d_resp d) (d_recs d ++ [(d_resp d, [])]) (Some (length (d_recs d))) false (d_iter d)
    end.
  Definition prep (v : V) (c : case) : V := fold_left (fun v e => set_desvar v (fst e) (snd e)) c v.
  (** record_iteration of all recorders *)
  Definition save (d : driver) (v : V) (ok msg : bool) : driver :=
    mkD (d_resp d) (map (fun r => (fst r, snd r ++ [mkE (select (fst r) v) (d_iter d) ok msg])) (d_recs d)) (d_rec d) (d_load d) (d_iter d).
  Definition next (d : driver) : driver := mkD (d_resp d) (d_recs d) (d_rec d) (d_load d) (d_iter d + 1).
  Fixpoint run_serial (d : driver) (v : V) (cases : list case) : driver * V * option pyerr :=
    match cases with
    | [] => (d, v, None)
    | c :: r =>
        let (v, o) := solve (prep v c) in
        match o with
        | Done => run_serial (next (save d v true false)) v r
        | Analysis => run_serial (next (save d v false true)) v r
        | Other e => if d_load d then run_serial (next (save d v false true)) v r else (d, v, Some e)
        end
    end.
  Fixpoint reset_at (n : nat) (l : list (list txt * list (entry S))) : list (list txt * list (entry S)) :=
    match n, l with _, [] => [] | O, r :: l => (fst r, []) :: l | Datatypes.S n, r :: l => r :: reset_at n l end.
  Definition run (d : driver) (v : V) (cases : list case) : driver * V * option pyerr :=
    run_serial (mkD (d_resp d) (match d_rec d with Some n => reset_at n (d_recs d) | None => d_recs d end) (d_rec d) (d_load d) 0) v cases.
  Definition get_responses (d : driver) : list (entry S) :=
    match d_rec d with None => [] | Some n => match nth_error (d_recs d) n with Some r => snd r | None => [] end end.
End Doe.
Arguments driver : clear implicits.

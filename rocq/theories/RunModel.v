(** Model of running a system tree: Component._sys_solve_nonlinear and
    _sys_apply_nonlinear (core/component.py 535-608), Group.children_solve_nonlinear
    and apply_nonlinear (core/group.py 741-819), ParallelGroup's versions
    (core/parallel_group.py 50-91), RunOnce.solve (solvers/run_once.py 32-54), and
    the marking of components executed out of order (core/problem.py 401-437 and
    628-631).

    Simplifications: variables are named by their absolute path, each holds one
    value (storage in vectors is the subject of C23, C24 and C78; the conversion
    and selection done by a connection is the function [k_conv]); one process;
    every system is active; recording and metadata are dropped; a component that
    raises ends the run.  A transfer reads unknowns and writes parameters only, so
    the order of its copies does not matter. *)
From Verif Require VecModel SolveModel.
From Verif Require Import Base.
Local Open Scope string_scope.
Local Open Scope nat_scope.
Local Open Scope list_scope.

Definition smem (x : string) (l : list string) : bool := existsb (String.eqb x) l.

Section Run.
  Context {V : Type} (vadd vsub : V -> V -> V) (vopp : V -> V).
  Local Notation env := (string -> V).

  (** params, unknowns and resids of the root *)
  Record st : Type := mkS { pv : env; uv : env; rv : env }.

  (** A component: names of its parameters and unknowns; [c_states]: it declares a
      state (component.py 242); [c_solve]: solve_nonlinear, from the values of
      parameters and unknowns to new unknowns; [c_resid]: an overridden
      apply_nonlinear, giving residuals; [c_scale]: multiplication by
      1/resid_scaler (vec_wrapper.py 981-992). *)
  Record comp : Type := mkC {
    c_name : string; c_params : list string; c_unks : list string; c_states : bool;
    c_solve : list V -> list V -> res (list V);
    c_resid : option (list V -> list V -> res (list V));
    c_scale : string -> V -> V }.

  (** an entry of the connections dictionary *)
  Record conn : Type := mkK { k_tgt : string; k_src : string; k_conv : V -> V }.

  (** [nl]: nl_solver.solve, given children_solve_nonlinear and apply_nonlinear of
      the group *)
  Definition solver : Type := (st -> res st) -> (st -> res st) -> st -> res st.
  Inductive sys : Type :=
  | Comp (c : comp)
  | Grp (par : bool) (nl : solver) (subs : list sys).

  Fixpoint comps (t : sys) : list comp :=
    match t with Comp c => [c] | Grp _ _ subs => flat_map comps subs end.
  Definition sys_params (t : sys) : list string := flat_map c_params (comps t).
  Definition sys_unks (t : sys) : list string := flat_map c_unks (comps t).

  (** run_once.py 51 *)
  Definition run_once : solver := fun children _ s => children s.

  Definition read (e : env) (l : list string) : list V := map e l.
  (** unknowns[name] = value for the names of a component *)
  Fixpoint write (e : env) (names : list string) (vals : list V) : env :=
    match names, vals with
    | n :: ns, x :: xs => fun v => if String.eqb v n then x else write e ns xs v
    | _, _ => e
    end.

  (** ** transfers: group.py 753 and 813 (to one subsystem), parallel_group.py 70
      and 83 (to all).  A group moves the connections of which it is the closest
      common ancestor: source and target in different subsystems. *)
  Definition moves (all : list string) (sub : sys) (k : conn) : bool :=
    smem (k_tgt k) (sys_params sub) && smem (k_src k) all && negb (smem (k_src k) (sys_unks sub)).
  Definition deliver (ks : list conn) (s : st) : st :=
    mkS (fun t => match find (fun k => String.eqb (k_tgt k) t) ks with
                  | Some k => k_conv k (uv s (k_src k))
                  | None => pv s t
                  end) (uv s) (rv s).
  Definition transfer (conns : list conn) (all : list string) (sub : sys) (s : st) : st :=
    deliver (filter (moves all sub) conns) s.
  Definition transfer_all (conns : list conn) (all : list string) (subs : list sys) (s : st) : st :=
    deliver (filter (fun k => existsb (fun sub => moves all sub k) subs) conns) s.

  (** ** components *)
  (** component.py 593-608; _scale_values does nothing to unknowns *)
  Definition run_comp (c : comp) (s : st) : res st :=
    let! us := c_solve c (read (pv s) (c_params c)) (read (uv s) (c_unks c)) in
    if length us =? length (c_unks c) then Ok (mkS (pv s) (write (uv s) (c_unks c) us) (rv s)) else Err ValueError.

  Fixpoint vzip (f : V -> V -> V) (a b : list V) : list V :=
    match a, b with x :: a', y :: b' => f x y :: vzip f a' b' | _, _ => [] end.

  (** component.py 551-591: resids = -unknowns; run; resids += unknowns; unknowns
      -= resids; then the scaling of line 552 unless called by a ParallelGroup *)
  Definition apply_comp (scaled : bool) (c : comp) (s : st) : res st :=
    let scale r := if scaled then fun v => if smem v (c_unks c) then c_scale c v (r v) else r v else r in
    match c_resid c with
    | Some f =>
        let! rs := f (read (pv s) (c_params c)) (read (uv s) (c_unks c)) in
        if length rs =? length (c_unks c) then Ok (mkS (pv s) (uv s) (scale (write (rv s) (c_unks c) rs))) else Err ValueError
    | None =>
        let old := map vopp (read (uv s) (c_unks c)) in
        let! s1 := run_comp c s in
        let r := vzip vadd old (read (uv s1) (c_unks c)) in
        let u := vzip vsub (read (uv s1) (c_unks c)) r in
        Ok (mkS (pv s1) (write (uv s1) (c_unks c) u) (scale (write (rv s1) (c_unks c) r)))
    end.

  Section Tree.
    Context (conns : list conn) (marked : list string).

    (** _run_apply: component.py 88 and 242, group.py 89, problem.py 631 *)
    Definition run_apply (t : sys) : bool :=
      match t with Comp c => c_states c || smem (c_name c) marked | Grp _ _ _ => true end.

    (** group.py 782-819; parallel_group.py 50-77 *)
    Fixpoint apply_sys (scaled : bool) (t : sys) (s : st) {struct t} : res st :=
      match t with
      | Comp c => apply_comp scaled c s
      | Grp par _ subs =>
          let all := flat_map sys_unks subs in
          if par then
            (fix each (l : list sys) (s : st) : res st :=
               match l with [] => Ok s | x :: l' => let! s := apply_sys false x s in each l' s end)
              subs (transfer_all conns all subs s)
          else
            (fix each (l : list sys) (s : st) : res st :=
               match l with
               | [] => Ok s
               | x :: l' =>
                   if run_apply x then let! s := apply_sys true x (transfer conns all x s) in each l' s else each l' s
               end) subs s
      end.

    (** children_solve_nonlinear: group.py 741-759; parallel_group.py 79-91.  The
        solver of a group is group.py 716-739. *)
    Fixpoint run_sys (t : sys) (s : st) {struct t} : res st :=
      match t with
      | Comp c => run_comp c s
      | Grp par nl subs =>
          let all := flat_map sys_unks subs in
          let children s :=
            if par then
              (fix each (l : list sys) (s : st) : res st :=
                 match l with [] => Ok s | x :: l' => let! s := run_sys x s in each l' s end)
                subs (transfer_all conns all subs s)
            else
              (fix each (l : list sys) (s : st) : res st :=
                 match l with
                 | [] => Ok s
                 | x :: l' => let! s := run_sys x (transfer conns all x s) in each l' s
                 end) subs s in
          nl children (apply_sys true (Grp par nl subs)) s
      end.
  End Tree.

  (** ** Problem._get_ubc_vars, problem.py 401-437: components run before the
      source of one of their parameters.  The systems which contain a variable are
      found by membership instead of by peeling names off the path. *)
  Fixpoint position (p : comp -> bool) (l : list comp) : option nat :=
    match l with
    | [] => None
    | c :: l' => if p c then Some 0 else option_map S (position p l')
    end.
  Definition out_of_order (root : sys) (k : conn) : res (option string) :=
    let order := comps root in
    match find (fun c => smem (k_tgt k) (c_params c)) order, position (fun c => smem (k_tgt k) (c_params c)) order,
          position (fun c => smem (k_src k) (c_unks c)) order with
    | Some c, Some t, Some s => Ok (if t <? s then Some (c_name c) else None)
    | _, _, _ => Err RuntimeError
    end.
  Fixpoint get_ubc (root : sys) (conns : list conn) : res (list string) :=
    match conns with
    | [] => Ok []
    | k :: ks => let! o := out_of_order root k in
                 let! r := get_ubc root ks in
                 Ok (match o with Some n => n :: r | None => r end)
    end.

  (** the root is run with the components marked by setup *)
  Definition run_model (root : sys) (conns : list conn) (s : st) : res st :=
    let! m := get_ubc root conns in run_sys conns m root s.
  Definition apply_model (root : sys) (conns : list conn) (s : st) : res st :=
    let! m := get_ubc root conns in apply_sys conns m true root s.

  (** ** NLGaussSeidel as the solver of a group: SolveModel.nlgs on the state of
      this file.  [names] are the unknowns of the group, [to_q] and [of_q] turn
      values into the numbers of that model, the norms are arguments there too. *)
  Definition lift (f : st -> res st) (s : st) : SolveModel.call st :=
    match f s with Ok s' => (s', None) | Err e => (s, Some e) end.
  Definition gs_run (names : list string) (to_q : V -> Q) (of_q : Q -> V) (rnorm : st -> VecModel.fl) (vnorm : list Q -> VecModel.fl)
      (o : SolveModel.gsopts) (mem : SolveModel.aitken) (ch ap : st -> res st) (s : st) : SolveModel.gsrun * SolveModel.ending :=
    SolveModel.nlgs (SolveModel.mkSys (lift ch) (lift ap) (fun s => map (fun v => to_q (uv s v)) names)
                       (fun s l => mkS (pv s) (write (uv s) names (map of_q l)) (rv s)) rnorm vnorm) o mem s.
  Definition gs_solver names to_q of_q rnorm vnorm o mem : solver := fun ch ap s =>
    match gs_run names to_q of_q rnorm vnorm o mem ch ap s with
    | (r, SolveModel.Quiet) | (r, SolveModel.Reported _) => Ok (SolveModel.r_st r)
    | (_, SolveModel.Raised e) => Err e
    | (_, _) => Err RuntimeError
    end.
  (** NLGaussSeidel.solve on the root group; children_solve_nonlinear is a run with RunOnce *)
  Definition gs_model names to_q of_q rnorm vnorm o mem (subs : list sys) (conns : list conn) (s : st) :
      res (SolveModel.gsrun * SolveModel.ending) :=
    let! m := get_ubc (Grp false run_once subs) conns in
    Ok (gs_run names to_q of_q rnorm vnorm o mem (run_sys conns m (Grp false run_once subs))
          (apply_sys conns m true (Grp false run_once subs)) s).
End Run.
Arguments st : clear implicits.
Arguments comp : clear implicits.
Arguments conn : clear implicits.
Arguments solver : clear implicits.
Arguments sys : clear implicits.

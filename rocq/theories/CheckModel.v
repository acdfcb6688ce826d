(** Model of the checks of derivatives: /repo/openmdao/core/problem.py
    check_partial_derivatives 1814-2120 and _assemble_deriv_data 2488-2703, with the
    option overrides of System.fd_jacobian (core/system.py 578-586) and
    Component.complex_step_jacobian (core/component.py 878-886).

    Components and their vectors are those of LinModel.v: c_params are the connected
    params in dparams that are not passed by object, c_unks the unknowns.  The vectors
    dunknowns are not scaled (vec_wrapper.py 1004-1008), so _scale_derivatives acts on
    dresids only.  comp.apply_linear is an argument; the default one is apply_jac.
    Not modelled: text output except its columns and flags, MPI. *)
From Verif Require Import Base LinModel FdModel.
Local Open Scope nat_scope.
Local Open Scope list_scope.

(** for x in l: s = f(x, s), an exception stops the loop *)
Fixpoint for_each {A S : Type} (f : A -> S -> res S) (l : list A) (s : S) : res S :=
  match l with [] => Ok s | a :: r => let! s := f a s in for_each f r s end.

Section Partials.
  Context {F : Type} (F0 F1 : F) (fadd fmul : F -> F -> F).
  Notation state := (state (F:=F)).
  Notation mat := (mat (F:=F)).
  Variable op : bool -> state -> res state.
  Variable c : comp (F:=F).

  (** param_list, lines 2004-2007 *)
  Definition input_names : list string := map p_name (c_params c) ++ map u_name (filter u_state (c_unks c)).
  (** dinputs = dunknowns if p_name in states else dparams, and the place of p_name in it *)
  Definition where_is (n : string) : option (bool * nat * nat) :=
    match find (fun x => String.eqb (u_name x) n && u_state x) (c_unks c) with
    | Some x => Some (true, u_off x, u_size x)
    | None => match find_p c n with Some p => Some (false, p_off p, p_size p) | None => None end
    end.

  (** jac_fwd and jac_rev: dictionaries of arrays *)
  Definition jacs : Type := string -> string -> option mat.
  Definition jset (J : jacs) (u p : string) (m : mat) : jacs := fun a b => if String.eqb a u && String.eqb b p then Some m else J a b.
  (** J[(u, p)][i, :] = v and J[(u, p)][:, j] = v *)
  Definition put_row (u p : string) (i : nat) (v : nat -> F) (J : jacs) : res jacs :=
    match J u p with None => Err KeyError | Some m => Ok (jset J u p (mkM (m_rows m) (m_cols m) (fun k j => if k =? i then v j else m_at m k j))) end.
  Definition put_col (u p : string) (j : nat) (v : nat -> F) (J : jacs) : res jacs :=
    match J u p with None => Err KeyError | Some m => Ok (jset J u p (mkM (m_rows m) (m_cols m) (fun i k => if k =? j then v i else m_at m i k))) end.

  Definition cached (u p : string) : option mat :=
    match c_jac c with None => None | Some l => option_map snd (find (fun k : string * string * mat => String.eqb (fst (fst k)) u && String.eqb (snd (fst k)) p) l) end.
  (** lines 2010-2040: the shape of the Jacobian supplied is checked *)
  Definition alloc_one (pu : string * uvar (F:=F)) (J : jacs) : res jacs :=
    let '(n, u) := pu in
    match where_is n with
    | None => Err KeyError
    | Some (_, _, ps) =>
        let! _ := (match cached (u_name u) n with
                   | Some m => if (m_rows m =? u_size u) && (m_cols m =? ps) then Ok tt else Err ValueError
                   | None => Ok tt
                   end) in
        Ok (jset J (u_name u) n (mkM (u_size u) ps (fun _ _ => F0)))
    end.
  Definition allocate : res jacs :=
    for_each alloc_one (flat_map (fun n => map (pair n) (c_unks c)) input_names) (fun _ _ => None).

  (** dresids.vec[:] = 0.0; root.clear_dparams(); dunknowns.vec[:] = 0.0 *)
  Definition cleared (s : state) : state := mkS (zero_us F0 (c_unks c) (du s)) (zero_us F0 (c_unks c) (dr s)) (zero_ps F0 (c_params c) (dp s)).
  (** lines 2042-2060: one row *)
  Definition rev_row (ui : uvar (F:=F) * nat) (sj : state * jacs) : res (state * jacs) :=
    let '(u, idx) := ui in
    let s := cleared (fst sj) in
    let s := scale_derivs fmul c (mkS (du s) (set (dr s) (u_off u + idx) F1) (dp s)) in
    let! s := op false s in
    let s := unit_derivs fmul c s in
    let! J := for_each (fun n J => match where_is n with
                                   | None => Err KeyError
                                   | Some (st, off, _) => put_row (u_name u) n idx (fun j => (if st then du s else dp s) (off + j)) J
                                   end) input_names (snd sj) in
    Ok (s, J).
  (** lines 2063-2080: one column *)
  Definition fwd_col (ni : string * nat) (sj : state * jacs) : res (state * jacs) :=
    let '(n, idx) := ni in
    let s := cleared (fst sj) in
    match where_is n with
    | None => Err KeyError
    | Some (st, off, _) =>
        let s := if st then mkS (set (du s) (off + idx) F1) (dr s) (dp s) else mkS (du s) (dr s) (set (dp s) (off + idx) F1) in
        let s := unit_derivs fmul c s in
        let! s := op true s in
        let s := scale_derivs fmul c s in
        let! J := for_each (fun u J => put_col (u_name u) n idx (fun i => dr s (u_off u + i)) J) (c_unks c) (snd sj) in
        Ok (s, J)
    end.
  (** the forward and the reverse Jacobians of a component whose derivatives are its own *)
  Definition check_comp (s : state) : res (jacs * jacs) :=
    let! J0 := allocate in
    let! r := for_each rev_row (flat_map (fun u => map (pair u) (seq 0 (u_size u))) (c_unks c)) (s, J0) in
    let! f := for_each fwd_col (flat_map (fun n => map (pair n) (seq 0 (match where_is n with Some (_, _, k) => k | None => 0 end))) input_names) (fst r, J0) in
    Ok (snd f, snd r).
End Partials.

(** ** what is reported for one pair of variables, lines 2502-2573 *)
Section Report.
  Local Open Scope Q_scope.
  (** np.linalg.norm of an array and the difference of two arrays are arguments *)
  Context {M : Type} (norm : M -> Q) (minus : M -> M -> M).
  (** a dictionary that is empty (or None) is not used: if jac_fwd: *)
  Definition jdict : Type := list (string * string * M).
  Definition jget (J : jdict) (u p : string) : option M := option_map snd (find (fun k : string * string * M => String.eqb (fst (fst k)) u && String.eqb (snd (fst k)) p) J).
  (** None is nan *)
  Definition num : Type := option Q.
  Record ldata := mkLD { magnitude : option Q * option Q * Q; abs_error : list Q; rel_error : list num }.
  Definition used (J : jdict) (u p : string) : res (option M) :=
    match J with [] => Ok None | _ => match jget J u p with Some m => Ok (Some m) | None => Err KeyError end end.
  Definition somes {A} (l : list (option A)) : list A := flat_map (fun o => match o with Some a => [a] | None => [] end) l.
  Definition both {A B C} (f : A -> B -> C) (a : option A) (b : option B) : option C := match a, b with Some a, Some b => Some (f a b) | _, _ => None end.
  Record errs := mkE { e1 : option Q; e2 : option Q; e3 : option Q; e4 : option Q }.
  Definition abs_errs (fd : M) (f r d : option M) : errs :=
    let dist (a b : M) := norm (minus a b) in
    mkE (option_map (fun f => dist f fd) f) (option_map (fun r => dist r fd) r) (both dist f r) (option_map (fun d => dist d fd) d).
  (** lines 2548-2571: with magfd == 0.0 all four are nan, also those of absent Jacobians *)
  Definition rel_errs (fd : M) (f r d : option M) : list num :=
    if Qeq_bool (norm fd) 0 then [None; None; None; None]
    else let e := abs_errs fd f r d in map (fun q => Some (q / norm fd)) (somes [e1 e; e2 e; e3 e; e4 e]).
  Definition report_one (fd : M) (f r d : option M) : ldata :=
    let e := abs_errs fd f r d in
    mkLD (option_map norm f, option_map norm r, norm fd) (somes [e1 e; e2 e; e3 e; e4 e]) (rel_errs fd f r d).
  (** lines 2497-2573: cdata, for the pairs in jac_fd *)
  Definition assemble (params resids : list string) (jf jr jd jd2 : jdict) : res (list (string * string * ldata)) :=
    for_each (fun pu acc => let '(p, u) := pu in
                match jget jd u p with
                | None => Ok acc
                | Some fd =>
                    let! f := used jf u p in
                    let! r := used jr u p in
                    let! d := used jd2 u p in
                    Ok (acc ++ [(u, p, report_one fd f r d)])
                end) (flat_map (fun p => map (pair p) resids) params) [].

  (** lines 2660-2688: a star is printed beside an absolute error that is not below the
      tolerance, and beside a relative error that is neither nan nor below *)
  Definition abs_flag (tol : Q) (e : Q) : bool := negb (negb (Qle_bool tol e)).
  Definition rel_flag (tol : Q) (e : num) : bool := match e with None => false | Some q => Qle_bool tol q end.

  (** the compact table, lines 2577-2635: the headings and the values below them *)
  Definition rel_of (fd : M) (e : option Q) : option num := if Qeq_bool (norm fd) 0 then Some None else option_map (fun q => Some (q / norm fd)) e.
  Definition compact (fd2_name : string) (fd : M) (f r d : option M) : option (list (string * option num)) :=
    let e := abs_errs fd f r d in
    match f, r, d with
    | Some f, Some r, _ =>
        Some [("fwd mag.", Some (Some (norm f))); ("rev mag.", Some (Some (norm r))); ("check mag.", Some (Some (norm fd)));
              ("a(fwd-chk)", option_map Some (e1 e)); ("a(rev-chk)", option_map Some (e2 e));
              ("r(fwd-rev)", rel_of fd (e1 e)); ("r(rev-chk)", rel_of fd (e2 e))]%string
    | _, _, Some d =>
        Some [((fd2_name ++ " mag.")%string, Some (Some (norm fd))); ("check mag."%string, Some (Some (norm d)));
              (("ab(chk - " ++ fd2_name ++ ")")%string, option_map Some (e4 e)); (("rel(chk - " ++ fd2_name ++ ")")%string, rel_of fd (e4 e))]
    | _, _, _ => None
    end.
End Report.

(** ** which differences are compared *)
Section Options.
  Context {F : Type}.
  (** step_size, form, step_calc, type *)
  Record fdopts := mkOpt { o_step : F; o_form : string; o_calc : string; o_type : string }.
  (** global_options: some of check_step_size, check_form, check_step_calc, check_type *)
  Record overrides := mkOv { v_step : option F; v_form : option string; v_calc : option string; v_type : option string }.
  Definition pick {A} (o : option A) (d : A) : A := match o with Some a => a | None => d end.
  (** option_overrides.get('check_...', ...): problem.py 1942-1946, system.py 578-586 *)
  Definition override (ov : overrides) (o : fdopts) : fdopts := mkOpt (pick (v_step ov) (o_step o)) (pick (v_form ov) (o_form o)) (pick (v_calc ov) (o_calc o)) (pick (v_type ov) (o_type o)).
  (** fd_jacobian and complex_step_jacobian: use_check selects the options, the overrides
      replace them in either case *)
  Definition used_options (own check : fdopts) (ov : overrides) (use_check : bool) : fdopts := override ov (if use_check then check else own).
  (** the two calls, lines 2087-2110: complex_step_jacobian takes the step only; which
      method is called depends on check_type (overridden) and on type (not overridden) *)
  Inductive call := CallCs (step : F) | CallFd (o : fdopts).
  Definition first_call (own check : fdopts) (ov : overrides) : call :=
    if String.eqb (o_type (override ov check)) "cs" then CallCs (o_step (used_options own check ov true)) else CallFd (used_options own check ov true).
  Definition second_call (own check : fdopts) (ov : overrides) : call :=
    if String.eqb (o_type own) "cs" then CallCs (o_step (used_options own check ov false)) else CallFd (used_options own check ov false).
  Variable feqb : F -> F -> bool.
  Definition opt_eqb (a b : fdopts) : bool := feqb (o_step a) (o_step b) && String.eqb (o_form a) (o_form b) && String.eqb (o_calc a) (o_calc b) && String.eqb (o_type a) (o_type b).
  (** lines 1974-1991: Some (own derivatives?) or None if skipped *)
  Definition plan (own check : fdopts) (ov : overrides) : option bool :=
    if String.eqb (o_type own) "user" then Some true
    else if opt_eqb own (override ov check) then None else Some false.
End Options.

(** ** complex step of one parameter (component.py 905-945, vec_wrapper_complex_step.py
    119-127): set_complex_var copies the stored value of the stepped parameter, which is in
    the units of its source; the other parameters are converted when they are read.  A
    conversion is (scale, offset), vec_wrapper.py 207-213. *)
Section ComplexStep.
  Context {F : Type} (F0 : F) (fadd fmul fsub : F -> F -> F) (fopp finv : F -> F).
  Definition convert (o : option (F * F)) (x : F) : F := match o with Some (s, d) => fmul s (fadd x d) | None => x end.
  Fixpoint converted (cs : list (option (F * F))) (l : list F) : list F :=
    match l with [] => [] | x :: r => convert (hd None cs) x :: converted (tl cs) r end.
  Definition complex_step_units (f : list (@cx F) -> list (@cx F)) (units : list (option (F * F))) (a n : nat) (h : F) (s : @st F) : st * list (list F) :=
    let ps := map (cx_of F0) (converted units (s_p s)) in
    let raw := map (cx_of F0) (firstn n (skipn a (s_p s))) in
    let '(s', _, m) := cs_loop F0 fadd fmul fsub fopp finv f (firstn a ps) (skipn (a + n) ps) h raw 0 n s [] in (s', m).
End ComplexStep.

(** ** which components are checked, lines 1899-1932, 1974-2002: the keys of the result *)
Section Select.
  (** a component: pathname, IndepVarComp, skipped because its differences are those of
      the check *)
  Record cinfo := mkCI { ci_name : string; ci_indep : bool; ci_same : bool }.
  Definition select (all : list cinfo) (comps : option (list string)) : res (list cinfo) :=
    match comps with
    | None => Ok all
    | Some l =>
        if existsb (fun n => negb (existsb (fun k => String.eqb (ci_name k) n) all)) l then Err RuntimeError
        else Ok (flat_map (fun n => match find (fun k => String.eqb (ci_name k) n) all with Some k => [k] | None => [] end) l)
    end.
  Definition result_keys (sel : list cinfo) : list string := map ci_name (filter (fun k => negb (ci_indep k) && negb (ci_same k)) sel).
End Select.

(** Model of the vectors of a variable of interest: openmdao/core/vec_wrapper.py
    SrcVecWrapper.setup 810-835 and TgtVecWrapper.setup 1085-1110 (only relevant variables
    are put into the vectors), openmdao/core/group.py _setup_data_transfer 1530-1540 (only
    connections between relevant variables are transferred), openmdao/core/system.py
    _sys_apply_linear 831-834, _apply_linear_jac 983-1021 (what is missing is skipped).

    The systems are those of LinModel.v, positions are those of the full vectors.  A
    variable is relevant or not as a whole; keep_u and keep_p tell it by position. *)
From Verif Require Import Base LinModel.
Local Open Scope nat_scope.
Local Open Scope list_scope.

Section Reduce.
  Context {F : Type}.
  Variables keep_u keep_p : nat -> bool.

  (** a key of the Jacobian of which both variables are in the vectors *)
  Definition kept_key (c : comp (F:=F)) (key : string * string * mat (F:=F)) : bool :=
    let '(un, pn, _) := key in
    match find_u c un with
    | None => false
    | Some u =>
        keep_u (u_off u) &&
        match find (fun v => String.eqb (u_name v) pn && u_state v) (c_unks c) with
        | Some x => keep_u (u_off x)
        | None => match find_p c pn with Some p => keep_p (p_off p) | None => false end
        end
    end.
  (** the component's vectors; its Jacobian has all its keys (view) *)
  Definition view (c : comp (F:=F)) : comp :=
    mkC (filter (fun p => keep_p (p_off p)) (c_params c)) (filter (fun u => keep_u (u_off u)) (c_unks c)) (c_fd c) (c_jac c) (c_solve c).
  (** the same without the keys that are skipped; RedProps.reduced_keys: no difference *)
  Definition reduce_comp (c : comp (F:=F)) : comp :=
    mkC (filter (fun p => keep_p (p_off p)) (c_params c)) (filter (fun u => keep_u (u_off u)) (c_unks c)) (c_fd c)
        (option_map (filter (kept_key c)) (c_jac c)) (c_solve c).
  Definition reduce_conns (ks : list conn) : list conn := filter (fun k => keep_u (k_src k) && keep_p (k_tgt k)) ks.
  (** a system seen through the vectors of the variable of interest.  Components of which
      nothing is relevant stay, with empty vectors *)
  Fixpoint reduce (s : sys (F:=F)) : sys :=
    match s with
    | Comp c => Comp (reduce_comp c)
    | Indep us => Indep (filter (fun u => keep_u (u_off u)) us)
    | FdGroup ks c => FdGroup (reduce_conns ks) (reduce_comp c)
    | Group ns sv ks subs => Group ns sv (reduce_conns ks) (map reduce subs)
    end.
End Reduce.

(** Shapes of derivatives: one row for each entry of the unknown, one column for each entry of
    the variable differentiated with respect to. *)
From Verif Require Import Base LinModel JsModel.
Local Open Scope nat_scope.

Section Spec.
  Context {F : Type}.
  (** the number of entries of the variable [pn] of a component: a state or a param *)
  Inductive argument (c : @comp F) (pn : string) : nat -> Prop :=
  | arg_state : forall x, find (fun v => (u_name v =? pn)%string && u_state v) (c_unks c) = Some x -> argument c pn (u_size x)
  | arg_param : forall p, find (fun v => (u_name v =? pn)%string && u_state v) (c_unks c) = None -> find_p c pn = Some p -> argument c pn (p_size p).
  Definition right_shape (c : @comp F) (un pn : string) (J : @mat F) : Prop :=
    forall u n, find_u c un = Some u -> argument c pn n -> m_rows J = u_size u /\ m_cols J = n.
  (** the variables with which an allocated Jacobian has a block *)
  Definition differentiable (v : var) : Prop := v_pbo v = false /\ v_remote v = false.
  Definition block_for (params unknowns : list var) (u p : var) : Prop :=
    In u unknowns /\ differentiable u /\ differentiable p /\ (In p params \/ (In p unknowns /\ v_state p = true)).
End Spec.

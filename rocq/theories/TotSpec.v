(** Finite difference total derivatives: the difference formulas, and the requests
    for which every name is found. *)
From Verif Require Import Base GradModel LinModel LinSpec GradSpec TotModel.
From Verif Require FdModel FdSpec.
Local Open Scope string_scope.
Local Open Scope nat_scope.
Local Open Scope list_scope.

Section Spec.
  Context {F : Type} (F0 F1 : F) (fadd fmul fsub : F -> F -> F) (fopp : F -> F) (fdiv : F -> F -> F) (flt : F -> F -> bool).
  Notation prob := (prob (F:=F)).
  Notation root := (root (F:=F)).
  Notation settings := (settings (F:=F)).

  (** a vector with entry j moved by d *)
  Definition moved (j : nat) (d : F) (x : list F) : list F := map (fun i => if i =? j then fadd (nth i x F0) d else nth i x F0) (seq 0 (length x)).
  (** the difference quotient of f at x along entry j; cur is the present value *)
  Definition quotient (fm : FdModel.form) (f : list F -> F) (cur : F) (x : list F) (j : nat) (h : F) : F :=
    match fm with
    | FdModel.Forward => fdiv (fsub (f (moved j h x)) cur) h
    | FdModel.Backward => fdiv (fsub cur (f (moved j (fopp h) x))) h
    | FdModel.Central => fdiv (fsub (f (moved j h x)) (f (moved j (fopp h) x))) (fmul (fadd F1 F1) h)
    end.
  (** relative steps are a multiple of the value, but at least the step size *)
  Definition step_at (o : settings) (x : F) : F :=
    if t_relative o then if flt (fmul x (t_step o)) (t_step o) then t_step o else fmul x (t_step o) else t_step o.
  Definition step_ok (o : settings) : Prop := t_step o <> F0 /\ (t_relative o = true -> flt F0 (t_step o) = true).

  (** the source of the independent variable v and the first parameter connected to it:
      the first connection from the source is to tgt, tgt is no source itself, only v is
      promoted from the source, and no parameter is promoted to the name tgt but tgt *)
  Record resolved (r : root) (p : prob) (v src tgt : string) : Prop := {
    rs_abs : sget (r_abs_u r) v = Some src;
    rs_first : exists before after, r_conns r = before ++ (tgt, src) :: after /\ forall c, In c before -> snd c <> src;
    rs_prom : sget (r_prom r) src = Some v;
    rs_src : p_var p src <> None -> src = v;
    rs_end : ~ In tgt (map snd (r_conns r));
    rs_only : forall key q, In (key, q) (r_params r) -> sget (r_prom r) key = Some tgt -> fst (fst q) = tgt }.
  (** the settings for a target: its own if the root has a promoted name like it *)
  Definition settings_of (r : root) (tgt : string) (o : settings) : Prop :=
    match sget (r_abs_p r) tgt with
    | None => o = r_default r
    | Some l => exists a rest, l = a :: rest /\
        t_step o = match w_step (r_own r a) with Some x => x | None => t_step (r_default r) end /\
        t_relative o = match w_relative (r_own r a) with Some x => x | None => t_relative (r_default r) end /\
        t_form o = match w_form (r_own r a) with Some x => x | None => t_form (r_default r) end
    end.
  Definition steps_by (r : root) (p : prob) (v : string) (o : settings) : Prop := exists src tgt, resolved r p v src tgt /\ settings_of r tgt o.

  (** a request: names listed once and found; an unknown that is also an independent
      variable has indices *)
  Definition fd_request (r : root) (p : prob) (indep unknown : list string) : Prop :=
    NoDup (map fst (r_conns r)) /\ NoDup indep /\ NoDup unknown /\ indep <> [] /\
    (forall v, In v indep -> var_ok p (p_poi p) v /\ wanted p (p_poi p) v <> [] /\ exists o, steps_by r p v o /\ step_ok o) /\
    (forall u, In u unknown -> var_ok p (p_qoi p) u) /\
    (forall u, In u unknown -> In u indep -> exists l, sget (p_qoi p) u = Some l /\ NoDup l) /\
    (forall u v k, In u unknown -> In u indep -> In v indep -> In k (wanted p (p_qoi p) u) -> In k (wanted p (p_poi p) v) -> u = v).

  (** the model computes phi from its inputs, among which are the independent variables *)
  Definition fd_model (p : prob) (run : FdModel.st (F:=F) -> FdModel.st (F:=F)) (indep unknown : list string) (ins : list (FdModel.place * nat))
      (phi : nat -> list F -> F) (s0 : FdModel.st (F:=F)) : Prop :=
    let asked k := exists u, In u unknown /\ ~ In u indep /\ In k (wanted p (p_qoi p) u) in
    FdSpec.evaluates F0 true run ins asked phi s0 /\ FdSpec.in_vectors ins s0 /\ FdSpec.not_inputs true ins asked s0 /\ NoDup ins /\
    (forall v q, In v indep -> In q (wanted p (p_poi p) v) -> In (FdModel.InU, q) ins).

  (** the table of the derivatives: D k v q for computed unknowns, the identity for those
      that are independent variables *)
  Definition table (p : prob) (indep unknown : list string) (D : nat -> string -> nat -> F -> Prop) (X : nat -> nat -> F) : Prop :=
    forall u k v q, In u unknown -> In k (wanted p (p_qoi p) u) -> In v indep -> In q (wanted p (p_poi p) v) ->
      (In u indep -> X k q = if k =? q then F1 else F0) /\ (~ In u indep -> D k v q (X k q)).
  (** the difference quotients *)
  Definition quotients (r : root) (p : prob) (ins : list (FdModel.place * nat)) (phi : nat -> list F -> F) (s0 : FdModel.st (F:=F))
      (k : nat) (v : string) (q : nat) (x : F) : Prop :=
    exists o j, steps_by r p v o /\ nth_error ins j = Some (FdModel.InU, q) /\
      x = quotient (t_form o) (phi k) (nth k (FdModel.s_u s0) F0) (FdSpec.inputs F0 ins s0) j (step_at o (nth q (FdModel.s_u s0) F0)).
  (** the derivatives of polynomials *)
  Definition derivatives (ins : list (FdModel.place * nat)) (e : nat -> FdSpec.pexpr F nat) (s0 : FdModel.st (F:=F))
      (k : nat) (v : string) (q : nat) (x : F) : Prop :=
    exists j, nth_error ins j = Some (FdModel.InU, q) /\
      x = FdSpec.peval fadd fmul fopp (FdSpec.at_list F0 (FdSpec.inputs F0 ins s0)) (FdSpec.pderiv F0 F1 Nat.eqb j (e k)).

  (** the equations of the model are linear, with the matrix of the system s: U x are the
      unknowns that solve them when the inputs are x.  Between two solutions the residual
      of an input changes by what it was moved, the other residuals do not *)
  Definition linear_model (s : sys (F:=F)) (ins : list (FdModel.place * nat)) (U : list F -> nat -> F) : Prop :=
    forall x y k, length x = length ins -> length y = length ins -> In k (rows s) ->
      let change := row_of F0 fadd fmul (sys_mat F1 fmul fopp None s) (over (fun i => fsub (U x i) (U y i)) (fun _ => F0)) k in
      (forall j, nth_error ins j = Some (FdModel.InU, k) -> change = fopp (fsub (nth j x F0) (nth j y F0))) /\
      (~ In (FdModel.InU, k) ins -> change = F0).
  (** the same array *)
  Definition same_array (J K : arr (F:=F)) : Prop :=
    a_rows J = a_rows K /\ a_cols J = a_cols K /\ forall i j, i < a_rows J -> j < a_cols J -> a_at J i j = a_at K i j.
End Spec.

(** What a check of partial derivatives should report. *)
From Verif Require Import Base LinModel LinSpec CheckModel.
Local Open Scope nat_scope.
Local Open Scope list_scope.

Section Spec.
  Context {F : Type} (F0 F1 : F) (fadd fmul : F -> F -> F).
  Infix "+!" := fadd (at level 50, left associativity).
  Infix "*!" := fmul (at level 40, left associativity).
  Notation state := (state (F:=F)).
  Notation comp := (comp (F:=F)).
  Notation entry := (entry (F:=F)).

  (** the coefficient in row k and column q of a matrix given by entries *)
  Definition coef (m : list entry) (k : nat) (q : col) : F :=
    total F0 fadd (fun e : entry => if (e_row e =? k) && col_eqb (e_col e) q then snd e else F0) m.

  (** a matrix over the variables of the component only *)
  Definition local (c : comp) (m : list entry) : Prop :=
    forall e, In e m -> In (e_row e) (ucells (c_unks c)) /\
                        match e_col e with CU j => In j (ucells (c_unks c)) | CP t => In t (pcells (c_params c)) end.

  (** apply_linear adds A times the inputs to the residuals in forward mode, and B
      transposed times the residuals to the inputs in reverse mode *)
  Definition acts (c : comp) (op : bool -> state -> res state) (A B : list entry) : Prop :=
    forall s,
      (exists s', op true s = Ok s' /\
         forall k, In k (ucells (c_unks c)) -> dr s' k = dr s k +! row_of F0 fadd fmul A (over (du s) (dp s)) k) /\
      (exists s', op false s = Ok s' /\
         (forall k, In k (ucells (c_unks c)) -> du s' k = du s k +! col_of F0 fadd fmul B (dr s) (CU k)) /\
         (forall t, In t (pcells (c_params c)) -> dp s' t = dp s t +! col_of F0 fadd fmul B (dr s) (CP t))).

  (** an input of the component: a state, or else a parameter; its size, its columns,
      and the factor by which its units are converted *)
  Definition input (c : comp) (n : string) (size : nat) (q : nat -> col) (fac : F) : Prop :=
    (exists x, In x (c_unks c) /\ u_name x = n /\ u_state x = true /\
               size = u_size x /\ (forall j, q j = CU (u_off x + j)) /\ fac = F1) \/
    ((forall x, In x (c_unks c) -> u_name x = n -> u_state x = false) /\
     exists p, In p (c_params c) /\ p_name p = n /\
               size = p_size p /\ (forall j, q j = CP (p_off p + j)) /\ fac = factor F1 (p_unit p)).

  (** a component whose variables have names and places of their own *)
  Definition tidy (c : comp) : Prop :=
    NoDup (ucells (c_unks c)) /\ NoDup (pcells (c_params c)) /\
    NoDup (map u_name (c_unks c)) /\ NoDup (map p_name (c_params c)).

  (** the Jacobian supplied for (u, n) has the shape of its variables *)
  Definition key_of (c : comp) (u n : string) (m : mat (F:=F)) : Prop := exists l, c_jac c = Some l /\ In (u, n, m) l.
  Definition keys_once (c : comp) : Prop := forall l, c_jac c = Some l -> NoDup (map fst l).
  Definition shapes_ok (c : comp) : Prop :=
    forall u n m size q fac, In u (c_unks c) -> input c n size q fac -> key_of c (u_name u) n m ->
      m_rows m = u_size u /\ m_cols m = size.

  (** a block reported for (u, n): its shape and its entries *)
  Definition reports (J : jacs (F:=F)) (u n : string) (rows cols : nat) (v : nat -> nat -> F) : Prop :=
    exists m, J u n = Some m /\ m_rows m = rows /\ m_cols m = cols /\
              forall i j, i < rows -> j < cols -> m_at m i j = v i j.

  (** the Jacobian the component supplies, zero where it supplies none *)
  Definition supplied (c : comp) (u n : string) (i j : nat) (v : F) : Prop :=
    (forall m, key_of c u n m -> v = m_at m i j) /\ ((forall m, ~ key_of c u n m) -> v = F0).
End Spec.

(** ** reports *)
Section Report.
  Local Open Scope Q_scope.
  Context {M : Type} (norm : M -> Q) (minus : M -> M -> M) (same : M -> M -> Prop).
  (** a norm of differences *)
  Definition separates : Prop := forall a b, 0 <= norm (minus a b) /\ (norm (minus a b) == 0 <-> same a b).
End Report.

(** Specification vocabulary for design variables and constraints. *)
From Verif Require Import Base DriverModel.
Open Scope Q_scope.

(** a scaler (adder, bound) for [n] entries: a number, or one number per entry *)
Definition fits (s : num) (n : nat) : Prop :=
  match s with Num _ => True | Arr a => length a = n end.

(** its value for entry [k] *)
Definition entry (s : num) (k : nat) : Q :=
  match s with Num x => x | Arr a => nth k a 0 end.

Definition nonzero (s : num) : Prop :=
  match s with Num x => ~ x == 0 | Arr a => Forall (fun x => ~ x == 0) a end.

(** index [i] of a sequence of [n] entries addresses entry [k]; negative indices
    count from the end *)
Definition addresses (n : nat) (i : Z) (k : nat) : Prop :=
  (k < n)%nat /\ (i = Z.of_nat k \/ i = Z.of_nat k - Z.of_nat n)%Z.

(** the entries of a variable of size [n] that a metadata entry selects *)
Definition selection (n : nat) (m : meta) (ks : list nat) : Prop :=
  match m_indices m with
  | None => ks = seq 0 n
  | Some is => Forall2 (addresses n) is ks
  end.

Definition same_values (a b : list Q) : Prop := Forall2 Qeq a b.

(** [x] lies within optional bounds *)
Definition within (lower upper : option Q) (x : Q) : Prop :=
  match lower with None => True | Some l => l <= x end /\
  match upper with None => True | Some u => x <= u end.

(** the combinations of arguments that define one constraint which a driver
    with capabilities [s] can handle *)
Definition legal (s : supports) (a : con_args) : Prop :=
  (c_equals a <> None /\ c_lower a = None /\ c_upper a = None /\ s_eq s = true)
  \/ (c_equals a = None /\ (c_lower a <> None \/ c_upper a <> None) /\ s_ineq s = true /\
      (c_lower a <> None -> c_upper a <> None -> s_two s = true)).

(** array arguments of a call have one common length *)
Definition consistent (a : con_args) : Prop :=
  exists n, fits (c_adder a) n /\ fits (c_scaler a) n /\
    (forall b, c_lower a = Some b -> fits b n) /\
    (forall b, c_upper a = Some b -> fits b n) /\
    (forall b, c_equals a = Some b -> fits b n).

(** calls that must be accepted, given the names used so far *)
Fixpoint accepted (s : supports) (used : list string) (l : list con_args)
         (legalb : con_args -> bool) : list con_args :=
  match l with
  | [] => []
  | a :: r =>
      if legalb a && negb (existsb (String.eqb (c_name a)) used)
      then a :: accepted s (c_name a :: used) r legalb
      else accepted s used r legalb
  end.

(** selection of calls by type *)
Definition wanted (ct : ctype) (lt : lintype) (a : con_args) : Prop :=
  match ct with CAll => True | CEq => c_equals a <> None | CIneq => c_equals a = None end /\
  match lt with LAll => True | LLinear => c_linear a = true | LNonlinear => c_linear a = false end.

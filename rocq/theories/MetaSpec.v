(** What a metamodel should be trained on. *)
From Verif Require Import Base MetaModel.
Local Open Scope string_scope.
Local Open Scope nat_scope.
Local Open Scope list_scope.

Definition value_at (data : string -> list tval) (r : nat) (name : string) : tval := nth r (data name) (VFloat 0).
(** the concatenation of the r-th values of the variables *)
Definition point (vars : list (string * nat)) (data : string -> list tval) (r : nat) : list Q :=
  flat_map (fun p => flat (value_at data r (fst p))) vars.
Definition points (vars : list (string * nat)) (data : string -> list tval) (n : nat) : list (list Q) :=
  map (point vars data) (seq 0 n).
(** [n] values of the right size for every variable; the values of one variable are all
    floats, or none of them is *)
Definition supplied (vars : list (string * nat)) (data : string -> list tval) (n : nat) : Prop :=
  forall name sz, In (name, sz) vars -> length (data name) = n /\
    (forall v, In v (data name) -> length (flat v) = sz) /\
    ((forall v, In v (data name) -> is_float v = true) \/ (forall v, In v (data name) -> is_float v = false)).
(** every parameter but the last has float values *)
Definition floats_first (params : list (string * nat)) (data : string -> list tval) : Prop :=
  forall name sz v, In (name, sz) (removelast params) -> In v (data name) -> is_float v = true.

(** what a state holds: the matrix of the inputs and that of every output *)
Definition holds (st : state) (X : list (list Q)) (Y : string -> list (list Q)) : Prop :=
  m_in st = X /\ forall name sz, In (name, sz) (m_outputs st) -> out_of st name = Y name /\ length (Y name) = length X.
(** The property: after a training with [n] new points, the surrogate of every output has
    been trained on the old points, if it is a warm restart, followed by the new ones. *)
Definition trained_well (st : state) (data : string -> list tval) (n : nat) (X : list (list Q)) (Y : string -> list (list Q)) : Prop :=
  let X' := (if m_warm st then X else []) ++ points (m_params st) data n in
  let Y' := fun name => (if m_warm st then Y name else []) ++ map (fun v => flat v) (data name) in
  exists st', train st data = (st', (map (fun o => (fst o, (X', Y' (fst o)))) (m_outputs st), None)) /\
    holds st' X' Y' /\ m_params st' = m_params st /\ m_outputs st' = m_outputs st /\ m_warm st' = m_warm st /\ m_train st' = false.

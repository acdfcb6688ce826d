(** What active-set screening should do. *)
From Verif Require Import Base ActiveModel.
From Coq Require Import Qabs.
Local Open Scope string_scope.
Local Open Scope Q_scope.
Local Open Scope list_scope.

(** the value [v] is farther than [t] from every bound there is *)
Definition far (lower upper : option Q) (v t : Q) : Prop :=
  (forall l, lower = Some l -> t < Qabs (v - l)) /\ (forall u, upper = Some u -> t < Qabs (v - u)).
(** entry [j] of the constraint [c] is farther than its tolerance from its bounds *)
Definition entry_far (t : tolerance) (c : pycon) (j : nat) : Prop :=
  exists v l u q, nth_error (p_value c) j = Some v /\ nth_error (p_lower c) j = Some l /\ nth_error (p_upper c) j = Some u /\
    (t = TFloat q \/ exists a, t = TArr a /\ nth_error a j = Some q) /\ far l u v q.
(** the constraint has a bound and a tolerance for every entry *)
Definition complete (t : tolerance) (c : pycon) : Prop :=
  length (p_lower c) = length (p_value c) /\ length (p_upper c) = length (p_value c) /\
  ((exists q, t = TFloat q) \/ exists a, t = TArr a /\ length a = length (p_value c)).
(** no entry has two different bounds *)
Definition one_sided (c : pycon) : Prop := forall j l u, nth_error (p_lower c) j = Some (Some l) -> nth_error (p_upper c) j = Some (Some u) -> l = u.

(** The property: each row of the gradient is there, and it is the solution of the linear
    system unless the entry is one of a screened constraint and far from its bounds. *)
Definition keeps_active (tols : list (string * tolerance)) (cons : list (string * pycon)) (sol : string -> nat -> list Q) (sets : list (list string * nat)) (rows : list ((string * nat) * list Q)) : Prop :=
  forall params n v i, In (params, n) sets -> In v params -> (i < n)%nat ->
    (exists row, In ((v, i), row) rows) /\
    forall row, In ((v, i), row) rows -> row = sol v i \/ exists t c, In (v, t) tols /\ In (v, c) cons /\ entry_far t c i.

(** What co-kriging may be given. *)
From Verif Require Import Base CkpModel.
Local Open Scope list_scope.
Local Open Scope nat_scope.

Definition positive (a : row) : Prop := forall i x, nth_error a i = Some x -> (0 < x)%Q.
(** the entry for feature i of an array, or of a number for all *)
Definition entry (a : row) (i : nat) (x : Q) : Prop := nth_error a i = Some x \/ (length a = 1 /\ nth_error a 0 = Some x).
Definition fits (a b : row) : Prop := length a = length b \/ length a = 1 \/ length b = 1.
Definition given (v : option row) (d : row) : row := match v with Some a => a | None => d end.
Definition default (v : option row) (q : Q) (nf : nat) : row := given v (repeat q nf).
Definition start (nf : nat) (l : level) : row := default (l_theta0 l) (1 # 2)%Q nf.
Definition lower (nf : nat) (l : level) : row := default (l_L l) (1 # 100000)%Q nf.
Definition upper (nf : nat) (l : level) : row := default (l_U l) (50 # 1)%Q nf.
Definition ordered (a b : row) : Prop := forall i x y, entry a i x -> entry b i y -> (x <= y)%Q.
Definition acceptable (nf : nat) (l : level) : Prop :=
  (forall a, l_theta l = Some a -> positive a) /\ positive (start nf l) /\
  (forall a, l_L l = Some a -> length a = length (start nf l)) /\
  (forall a, l_U l = Some a -> length a = length (start nf l)) /\
  positive (lower nf l) /\ fits (lower nf l) (upper nf l) /\ ordered (lower nf l) (upper nf l).
Definition completed (nf : nat) (l : level) : level := mkLevel (l_theta l) (Some (start nf l)) (Some (lower nf l)) (Some (upper nf l)).
(** level i of an attribute *)
Definition at_level (s : setting) (i : nat) (v : option row) : Prop := match s with One w => v = w | Many l => nth_error l i = Some v end.
Definition right_length (s : setting) (n : nat) : Prop := match s with One _ => True | Many l => length l = n end.

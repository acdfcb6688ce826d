(** What designs of experiments should satisfy. *)
From Coq Require Import Permutation.
From Verif Require Import Base DoeModel.
Local Open Scope nat_scope.

Definition q_of (n : nat) : Q := inject_Z (Z.of_nat n).

(** level k of n levels between two bounds *)
Definition level (n : nat) (b : Q * Q) (k : nat) : Q :=
  match n with
  | 0 | 1 => fst b
  | S m => (fst b + (q_of k / q_of m) * (snd b - fst b))%Q
  end.

(** the bounds of all entries of all design variables, in order *)
Definition bound_at (b : bound) (k : nat) : Q := match b with Scal q => q | Arr l => nth k l 0%Q end.
Definition var_bounds (v : dv) : list (Q * Q) := map (fun k => (bound_at (dv_lower v) k, bound_at (dv_upper v) k)) (seq 0 (dv_size v)).
Definition all_bounds (dvs : list dv) : list (Q * Q) := flat_map var_bounds dvs.
(** arrays have (at least) the size of their variable *)
Definition bound_fits (n : nat) (b : bound) : Prop := match b with Scal _ => True | Arr l => n <= length l end.
Definition dv_ok (v : dv) : Prop := bound_fits (dv_size v) (dv_lower v) /\ bound_fits (dv_size v) (dv_upper v).

(** all values of a case, and its form *)
Definition values (c : case) : list Q := flat_map snd c.
Definition shaped (dvs : list dv) (c : case) : Prop :=
  Forall2 (fun v (x : string * list Q) => fst x = dv_name v /\ length (snd x) = dv_size v) dvs c.

Definition same (a b : list Q) : Prop := Forall2 Qeq a b.

(** the values belonging to level numbers *)
Definition levels_of (n : nat) (bs : list (Q * Q)) (ks : list nat) : list Q := map (fun bk : (Q * Q) * nat => level n (fst bk) (snd bk)) (combine bs ks).

(** a Latin hypercube: every column contains each level once *)
Definition latin (n : nat) (d : design) : Prop := Forall (fun column => Permutation column (seq 0 n)) d.

(** random choices as randint makes them *)
Definition draw_ok (n k : nat) (d : draw) : Prop :=
  let '(col, el1, el2s) := d in col < k /\ el1 < n /\ Forall (fun x => x < n) el2s.

(** the cells exchanged *)
Definition touched (d : draw) : list (nat * nat) :=
  let '(col, el1, el2s) := d in
  (col, el1) :: match other el1 el2s with Some el2 => [(col, el2)] | None => [] end.

(** bucket l of n between the bounds *)
Definition in_bucket (n : nat) (b : Q * Q) (l : nat) (x : Q) : Prop :=
  (level (S n) b l <= x < level (S n) b (S l))%Q.

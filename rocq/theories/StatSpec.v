(** Sizes of a tree. *)
From Verif Require Import Base TrvModel.
Local Open Scope list_scope.
Local Open Scope nat_scope.

Definition total (l : list nat) : nat := fold_right Nat.add 0 l.
Definition most (l : list nat) : nat := fold_right Nat.max 0 l.
(** the number of systems of a kind in a tree *)
Fixpoint number_of (kind : sys -> bool) (x : sys) : nat :=
  match x with Sys _ _ l => (if kind x then 1 else 0) + total (map (number_of kind) l) end.
(** the number of levels below a system *)
Fixpoint height (x : sys) : nat := match x with Sys _ _ [] => 0 | Sys _ _ l => S (most (map height l)) end.

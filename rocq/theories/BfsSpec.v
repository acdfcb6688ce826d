(** Walks in a graph, whatever the direction of its edges. *)
From Verif Require Import Base.
From Coq Require Import Permutation.
Local Open Scope list_scope.
Local Open Scope nat_scope.

Section Walk.
  Context {N : Type} (edge : N -> N -> Prop).
  Inductive walk (a : N) : nat -> N -> Prop :=
  | w_start : walk a 0 a
  | w_step : forall n b c, walk a n b -> edge b c \/ edge c b -> walk a (S n) c.
  Definition connected (a b : N) : Prop := exists n, walk a n b.
  (** no farther than n steps *)
  Definition within (a : N) (n : nat) (b : N) : Prop := exists m, m <= n /\ walk a m b.
End Walk.

(** a finite graph, given by its successors and its predecessors *)
Record graph_ok {N : Type} (nodes : list N) (edge : N -> N -> Prop) (succ pred : N -> option (list N)) : Prop := {
  g_succ : forall v, In v nodes -> exists l, succ v = Some l /\ forall w, In w l <-> edge v w;
  g_pred : forall v, In v nodes -> exists l, pred v = Some l /\ forall w, In w l <-> edge w v;
  g_out : forall v, ~ In v nodes -> succ v = None;
  g_edge : forall v w, edge v w -> In v nodes /\ In w nodes }.
(** any order *)
Definition orders {N : Type} (order : nat -> list N -> list N) : Prop := forall k l, Permutation (order k l) l.

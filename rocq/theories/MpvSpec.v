(** What every process should get: the scaled entries held by the owner. *)
From Verif Require Import Base.
Local Open Scope list_scope.

Section Spec.
  Context {K V : Type} (holder : K -> nat) (dat : nat -> K -> option V) (pick scale : K -> V -> res V).
  Definition holds (k : K) (w : V) : Prop := exists v, dat (holder k) k = Some v /\ pick k v = Ok w.
  Inductive values : list K -> list (K * V) -> Prop :=
  | v_nil : values [] []
  | v_cons : forall k w x ks l, holds k w -> scale k w = Ok x -> values ks l -> values (k :: ks) ((k, x) :: l).
End Spec.

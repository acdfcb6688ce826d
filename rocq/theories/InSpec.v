(** What the comparison of inputs without a source should find. *)
From Verif Require Import Base OrderModel PathModel NameModel NameSpec ConnModel ConnSpec AccessSpec InModel.
Local Open Scope nat_scope.
Local Open Scope list_scope.

Section Spec.
  Context {V T St : Type}.
  (** equality as python sees it *)
  Definition equal_values (eqv : V -> V -> Prop) (a b : @value V T) : Prop :=
    match a, b with
    | Array sh es, Array sh' es' => sh = sh' /\ forall i x y, nth_error es i = Some x -> nth_error es' i = Some y -> eqv x y
    | Object t x, Object t' y => t = t' /\ eqv x y
    | _, _ => False
    end.
  (** an input on which everything depends that it feeds: nothing is connected to it, and
      no unknown reaches what it feeds *)
  Definition start (s : sys) (r : result) (n : path) : Prop := top_input s n /\ forall x, ~ In (n, x) (connections r).
  (** inputs of one name agree on a setting, as far as it is given *)
  Definition one_setting (f : @meta V T St -> option St) (pd : path -> @meta V T St) (s : sys) : Prop :=
    forall p q a b, In p (plist s) -> In q (plist s) -> prom_of s p = prom_of s q -> f (pd p) = Some a -> f (pd q) = Some b -> a = b.
End Spec.

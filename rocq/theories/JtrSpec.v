(** A representation of the hierarchy: below each group its own subsystems, in order. *)
From Verif Require Import Base TrvModel JtrModel.
Local Open Scope list_scope.

Section Spec.
  Context {V : Type} (unknowns : sys -> V).
  Inductive shows : sys -> jtree V -> Prop :=
  | s_group : forall x d, is_group x = true -> all_show (subs x) d -> shows x (Node d)
  | s_comp : forall x, is_group x = false -> shows x (Leaf (unknowns x))
  with all_show : list sys -> list (string * jtree V) -> Prop :=
  | a_nil : all_show [] []
  | a_cons : forall x l t d, shows x t -> all_show l d -> all_show (x :: l) ((name x, t) :: d).
End Spec.
(** what is in the dictionary of a group *)
Definition keys {V} (t : jtree V) : list string := match t with Node d => map fst d | Leaf _ => [] end.

(** Second-order polynomials and their derivatives, over a commutative ring. *)
From Verif Require Import Base.
Local Open Scope nat_scope.
Local Open Scope list_scope.

Section Spec.
  Context {F : Type} (F0 F1 : F) (fadd fmul : F -> F -> F).
  Fixpoint inner (a b : list F) : F :=
    match a, b with x :: a', y :: b' => fadd (fmul x y) (inner a' b') | _, _ => F0 end.
  (** the terms of a second-order polynomial: 1, x_i, and x_i x_j for i <= j *)
  Definition terms (x : list F) : list F :=
    F1 :: x ++ flat_map (fun i => map (fun j => fmul (nth i x F0) (nth j x F0)) (seq i (length x - i))) (seq 0 (length x)).
  (** x + t d *)
  Fixpoint move (x : list F) (t : F) (d : list F) : list F :=
    match x, d with a :: x', b :: d' => fadd a (fmul t b) :: move x' t d' | _, _ => x end.
  (** the row [g] is the derivative of the second-order polynomial function [f] at [x]: in
      every direction d, f (x + t d) is f x + t g.d + t^2 c with c that does not depend
      on t *)
  Definition derivative_at (f : list F -> F) (x g : list F) : Prop :=
    length g = length x /\
    forall d, length d = length x -> exists c, forall t, f (move x t d) = fadd (fadd (f x) (fmul t (inner g d))) (fmul (fmul t t) c).
End Spec.

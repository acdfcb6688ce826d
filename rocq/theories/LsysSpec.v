(** The residual A x - b, its derivative and its transpose. *)
From Verif Require Import Base.
Local Open Scope nat_scope.
Local Open Scope list_scope.

Section Spec.
  Context {F : Type} (F0 : F) (fadd fmul fsub : F -> F -> F).
  Notation vec := (list F).
  Notation mat := (list (list F)).
  Notation "a +! b" := (fadd a b) (at level 50, left associativity).
  Notation "a *! b" := (fmul a b) (at level 40, left associativity).
  Definition at1 (v : vec) (i : nat) : F := nth i v F0.
  Definition at2 (M : mat) (i j : nat) : F := nth j (nth i M []) F0.
  Fixpoint sum (n : nat) (f : nat -> F) : F := match n with 0 => F0 | S m => sum m f +! f m end.
  Definition square (n : nat) (M : mat) : Prop := length M = n /\ forall r, In r M -> length r = n.

  (** entry i of the residual, as a function of the entries of A, b and x *)
  Definition residual (n : nat) (A : nat -> nat -> F) (b x : nat -> F) (i : nat) : F :=
    fsub (sum n (fun j => A i j *! x j)) (b i).
  (** the entry of a derivative vector that is not there is zero *)
  Definition opt1 (o : option vec) (i : nat) : F := match o with Some v => at1 v i | None => F0 end.
  Definition opt2 (o : option mat) (i j : nat) : F := match o with Some M => at2 M i j | None => F0 end.

  (** [L] is the derivative, in the direction (dA, db, dx), of the residual: the residual
      at t times the direction is R + t L + t^2 c, with c that does not depend on t *)
  Definition is_derivative (n : nat) (A : nat -> nat -> F) (b x : nat -> F) (dA : nat -> nat -> F) (db dx L : nat -> F) : Prop :=
    forall i, i < n -> exists c, forall t,
      residual n (fun i j => A i j +! t *! dA i j) (fun i => b i +! t *! db i) (fun i => x i +! t *! dx i) i
      = residual n A b x i +! t *! L i +! t *! t *! c.
  (** [gA], [gb], [gx] are the transpose of the derivative applied to [r]: for every
      direction and its derivative L, <r, L> = <gA, dA> + <gb, db> + <gx, dx>; [hA], [hb],
      [hx]: which variables take part, the direction is zero for the others *)
  Definition is_transpose (n : nat) (hA hb hx : bool) (A : nat -> nat -> F) (b x : nat -> F) (r : nat -> F) (gA : nat -> nat -> F) (gb gx : nat -> F) : Prop :=
    forall dA db dx L, is_derivative n A b x dA db dx L ->
      (hA = false -> forall i j, dA i j = F0) -> (hb = false -> forall i, db i = F0) -> (hx = false -> forall i, dx i = F0) ->
      sum n (fun i => r i *! L i) = sum n (fun i => sum n (fun j => gA i j *! dA i j)) +! sum n (fun i => gb i *! db i) +! sum n (fun i => gx i *! dx i).
End Spec.

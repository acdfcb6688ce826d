(** Systems in a tree by the names on the way, and solvers that were told a level. *)
From Verif Require Import Base PathSpec TrvModel.
Local Open Scope list_scope.
Local Open Scope Z_scope.

Inductive reach : sys -> list string -> sys -> Prop :=
| r_here : forall x, reach x [] x
| r_sub : forall x y p z, In y (subs x) -> reach y p z -> reach x (name y :: p) z.
(** names without dots, different below the same group; components have no subsystems *)
Definition tree_ok (x : sys) : Prop :=
  forall p y, reach x p y -> (solvers y = None -> subs y = []) /\ NoDup (map name (subs y)) /\ Forall name_ok (map name (subs y)).
(** the same solver with the level everywhere *)
Inductive heard (level : Z) : solver -> solver -> Prop :=
| h_basic : forall i, heard level (Basic i) (Basic level)
| h_krylov : forall i p q, oheard level p q -> heard level (Krylov i p) (Krylov level q)
| h_newton : forall i a b c d, oheard level a c -> oheard level b d -> heard level (Newton i a b) (Newton level c d)
with oheard (level : Z) : option solver -> option solver -> Prop :=
| o_none : oheard level None None
| o_some : forall s t, heard level s t -> oheard level (Some s) (Some t).
(** the solvers in a Newton solver have no further solvers in them *)
Definition alone (s : option solver) : Prop :=
  match s with None | Some (Basic _) | Some (Krylov _ None) | Some (Newton _ None None) => True | _ => False end.
Fixpoint good (s : solver) : Prop :=
  match s with Basic _ | Krylov _ None => True | Krylov _ (Some p) => good p | Newton _ a b => alone a /\ alone b end.
Definition iprint_of (s : solver) : Z := match s with Basic i | Krylov i _ | Newton i _ _ => i end.

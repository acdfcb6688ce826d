(** Specifications for index distribution and data transfer. *)
From Coq Require Import Ring_theory.
From Verif Require Import Base.
Local Open Scope Z_scope.

(** ** consecutive chunks *)

(** chunk k is [off, off + size) *)
Definition in_chunk (sizes offsets : list Z) (k : nat) (i : Z) : Prop :=
  exists s o, nth_error sizes k = Some s /\ nth_error offsets k = Some o /\ o <= i < o + s.

(** ** connections *)

(** the entries connected by index lists: source position, target position *)
Definition entries (conns : list (list Z * list Z)) : list (Z * Z) :=
  flat_map (fun c => combine (fst c) (snd c)) conns.

Definition in_range (n : nat) (z : Z) : Prop := 0 <= z < Z.of_nat n.

(** each connection has as many source as target indices, at least one, all of
    them inside the vectors *)
Definition legal_conns (nsrc ntgt : nat) (conns : list (list Z * list Z)) : Prop :=
  Forall (fun c => length (fst c) = length (snd c) /\ fst c <> [] /\
                   Forall (in_range nsrc) (fst c) /\ Forall (in_range ntgt) (snd c)) conns.

(** no target entry is connected twice *)
Definition targets_distinct (conns : list (list Z * list Z)) : Prop :=
  NoDup (map snd (entries conns)).

Section Ring.
  Context {R : Type} (r0 : R) (radd rmul : R -> R -> R).

  Definition sum (l : list R) : R := fold_right radd r0 l.

  (** inner product *)
  Fixpoint dot (a b : list R) : R :=
    match a, b with
    | x :: a', y :: b' => radd (rmul x y) (dot a' b')
    | _, _ => r0
    end.

  Definition zeros (n : nat) : list R := repeat r0 n.
  Definition entry (v : list R) (z : Z) : R := nth (Z.to_nat z) v r0.
End Ring.

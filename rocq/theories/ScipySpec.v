(** What the constraint functions given to an optimizer mean. *)
From Verif Require Import Base DriverModel DriverSpec ScipyModel.
Local Open Scope Q_scope.
Local Open Scope list_scope.

(** entry [v], number [j], of a constraint satisfies it *)
Definition entry_ok (k : con) (j : nat) (v : Q) : Prop :=
  (forall b, k_equals k = Some b -> v == entry b j) /\
  (forall b, k_lower k = Some b -> entry b j <= v) /\
  (forall b, k_upper k = Some b -> v <= entry b j).
(** all entries of the constraints are satisfied by the values [value name] *)
Definition all_ok (cons : list (string * (con * nat))) (value : string -> list Q) : Prop :=
  forall name k size j v, In (name, (k, size)) cons -> (j < size)%nat -> nth_error (value name) j = Some v -> entry_ok k j v.
(** what add_constraint and _setup leave behind (C12): equality and inequality exclude
    each other, some bound is given, arrays have one entry per value; the values of the
    constraints have the recorded sizes *)
Definition good_con (k : con) (size : nat) : Prop :=
  (k_equals k <> None -> k_lower k = None /\ k_upper k = None) /\
  (k_equals k <> None \/ k_lower k <> None \/ k_upper k <> None) /\
  (forall b, k_equals k = Some b -> fits b size) /\ (forall b, k_lower k = Some b -> fits b size) /\ (forall b, k_upper k = Some b -> fits b size).
Definition good_cons (cons : list (string * (con * nat))) : Prop :=
  NoDup (map fst cons) /\ forall name k size, In (name, (k, size)) cons -> good_con k size /\ String.prefix prefix2 name = false.
Definition cache_of (cons : list (string * (con * nat))) (value : string -> list Q) : list (string * list Q) := map (fun c => (fst c, value (fst c))) cons.
Definition sized (cons : list (string * (con * nat))) (value : string -> list Q) : Prop := forall name k size, In (name, (k, size)) cons -> length (value name) = size.
(** what the optimizer wants of the constraint functions *)
Definition feasible (ds : list cdict) (f : string -> nat -> res Q) : Prop :=
  forall d, In d ds -> exists v, f (arg_name d) (arg_idx d) = Ok v /\ if ctype_eq d then v == 0 else 0 <= v.

Fixpoint dot (a b : list Q) : Q := match a, b with x :: a', y :: b' => x * y + dot a' b' | _, _ => 0 end.
(** the gradient array: the row of the objective, then those of the constraints *)
Definition grad_of (cons : list (string * (con * nat))) (obj : list Q) (rows : string -> list (list Q)) : list (list Q) := obj :: flat_map (fun c => rows (fst c)) cons.
Definition grad_sized (cons : list (string * (con * nat))) (rows : string -> list (list Q)) : Prop := forall name k size, In (name, (k, size)) cons -> length (rows name) = size.

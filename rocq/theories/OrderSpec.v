(** What the execution order should satisfy. *)
From Verif Require Import Base OrderModel.
Local Open Scope nat_scope.

(** the system at a path of the tree *)
Fixpoint find (t : tree) (q : list string) : option tree :=
  match q with
  | [] => Some t
  | a :: q' => match t with Node cs => match sget cs a with Some c => find c q' | None => None end | Leaf => None end
  end.
Inductive wf_tree : tree -> Prop :=
| wf_leaf : wf_tree Leaf
| wf_node : forall cs, NoDup (map fst cs) -> (forall n c, In (n, c) cs -> wf_tree c) -> wf_tree (Node cs).

(** a connection of the model goes from inside subsystem a of the group at p to
    inside subsystem b *)
Definition feeds (p : list string) (conns : list (list string * list string * nat)) (a b : string) : Prop :=
  a <> b /\ exists s t w, s <> [] /\ t <> [] /\ In (p ++ a :: s, p ++ b :: t, w) conns.
Inductive depends (p : list string) (conns : list (list string * list string * nat)) : string -> string -> Prop :=
| dep_refl : forall a, depends p conns a a
| dep_step : forall a b c, feeds p conns a b -> depends p conns b c -> depends p conns a c.

(** both ends of every connection belong to systems of the tree *)
Definition conns_ok (t : tree) (conns : list (list string * list string * nat)) : Prop :=
  forall s d w, In (s, d, w) conns -> exists ps vs pd vd, s = ps ++ [vs] /\ d = pd ++ [vd] /\ ps <> [] /\ pd <> [] /\ find t ps <> None /\ find t pd <> None.

(** histories of a group: adding systems and setting orders *)
Inductive op (S : Type) : Type := Add (name : string) (s : S) | SetOrder (names : list string).
Arguments Add {S}. Arguments SetOrder {S}.

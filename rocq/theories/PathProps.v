(** Property theorems for dotted paths: C61. *)
From Verif Require Import Base PathModel PathSpec PathProofs.
Local Open Scope nat_scope.
Local Open Scope string_scope.

(** C61: splitting and joining are inverse *)
Theorem C61_split_join : forall p, p <> [] -> Forall name_ok p -> split_dot (text p) = p /\ join_dot p = text p.
Proof. intros p Hne H. split; [exact (split_text p Hne H)|symmetry; exact (text_join p)]. Qed.
Print Assumptions C61_split_join.

Theorem C61_join_split : forall s, join_dot (split_dot s) = s.
Proof. exact join_split. Qed.
Print Assumptions C61_join_split.

Theorem C61_text_injective : forall p q, Forall name_ok p -> Forall name_ok q -> text p = text q -> p = q.
Proof. exact text_inj. Qed.
Print Assumptions C61_text_injective.

(** the common ancestor is the longest common prefix (the root has the empty
    path) *)
Theorem C61_common_ancestor : forall a b p, Forall name_ok a -> Forall name_ok b -> longest_common a b p ->
    get_common_ancestor (text a) (text b) = text p.
Proof. exact ancestor_text. Qed.
Print Assumptions C61_common_ancestor.

Theorem C61_common_exists : forall a b, exists p, longest_common a b p.
Proof. intros a b. exists (common_parts a b). exact (common_longest a b). Qed.
Print Assumptions C61_common_exists.

(** the relative name of a path inside a system is the rest of the path *)
Theorem C61_relative_name : forall p q, q <> [] -> Forall name_ok p -> name_relative_to (text p) (text (p ++ q)) = text q.
Proof. exact relative_text. Qed.
Print Assumptions C61_relative_name.

Theorem C61_relative_self : forall p, Forall name_ok p -> p <> [] -> name_relative_to (text p) (text p) = "".
Proof. exact relative_self. Qed.
Print Assumptions C61_relative_self.

(** the nearest child is the first name of the rest *)
Theorem C61_nearest_child : forall p x q, Forall name_ok p -> name_ok x -> nearest_child (text p) (text (p ++ x :: q)) = x.
Proof. exact nearest_text. Qed.
Print Assumptions C61_nearest_child.

(** outside their domain (the child is not inside the parent) the functions cut
    the path at an arbitrary place *)
Theorem C61_outside_refuted : exists p c, Forall name_ok p /\ Forall name_ok c /\ ~ prefix_of p c /\
    nearest_child (text p) (text c) = "d" /\ name_relative_to (text p) (text c) = "d.e".
Proof.
  exists ["a"], ["bcd"; "e"]. split; [repeat constructor; discriminate|]. split; [repeat constructor; discriminate|].
  split; [intros [r H]; discriminate|]. split; reflexivity.
Qed.
Print Assumptions C61_outside_refuted.

Example C61_ex :
  get_common_ancestor "sub.g1.c.x" "sub.g1.d" = "sub.g1" /\ nearest_child "sub.g1" "sub.g1.c.x" = "c" /\
  name_relative_to "sub" "sub.g1.c.x" = "g1.c.x" /\ get_common_ancestor "sub1.c" "sub.c" = "" /\
  Forall name_ok ["sub"; "g1"; "c"; "x"] /\ longest_common ["sub"; "g1"; "c"; "x"] ["sub"; "g1"; "d"] ["sub"; "g1"].
Proof.
  split; [reflexivity|]. split; [reflexivity|]. split; [reflexivity|]. split; [reflexivity|].
  split; [repeat constructor; discriminate|].
  exact (common_longest ["sub"; "g1"; "c"; "x"] ["sub"; "g1"; "d"]).
Qed.

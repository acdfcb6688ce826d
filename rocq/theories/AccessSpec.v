(** Reading and setting variables by name, specified over the tree of systems. *)
From Verif Require Import Base OrderModel PathModel NameModel NameSpec ConnModel ConnSpec.
Local Open Scope nat_scope.

(** n is a param that nothing is connected to *)
Definition top_input (s : sys) (n : path) : Prop := In n (plist s) /\ forall a, ~ link s a n.
(** every param has at most one link that leads to it *)
Definition one_link (s : sys) : Prop := forall a b t, link s a t -> link s b t -> a = b.
(** name is the name of an unknown at the top *)
Definition unknown_name (s : sys) (name : path) : Prop := exists u, In u (ulist s) /\ prom_of s u = name.
Definition param_name (s : sys) (name : path) : Prop := exists p, In p (plist s) /\ prom_of s p = name.
(** an input that no unknown feeds, at the top of the inputs it feeds *)
Definition free_input (s : sys) (n : path) : Prop := top_input s n /\ forall x u, feeds s n x -> In u (ulist s) -> ~ feeds s u x.
(** name is not the absolute name of a param that has another name at the top *)
Definition unshadowed (s : sys) (name : path) : Prop := In name (plist s) -> prom_of s name = name.

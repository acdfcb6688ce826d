(** When two trees of systems are alike, what names look like, and which trees have an unknown with
    several params. *)
From Verif Require Import Base DmpModel.
Local Open Scope list_scope.
Local Open Scope nat_scope.

(** same classes and names, same structure *)
Inductive alike : sys -> sys -> Prop :=
| a_comp : forall k n, alike (Comp k n) (Comp k n)
| a_group : forall k n nl ln u c ss nl' ln' u' c' ss', Forall2 alike ss ss' -> alike (Group k n nl ln u c ss) (Group k n nl' ln' u' c' ss').

Fixpoint lacks (c : ascii) (s : string) : Prop := match s with EmptyString => True | String a s => a <> c /\ lacks c s end.
Definition good_names (k n : string) : Prop := k <> EmptyString /\ lacks " " k /\ lacks "'" n.
Inductive named : sys -> Prop :=
| n_comp : forall k n, good_names k n -> named (Comp k n)
| n_group : forall k n nl ln u c ss, good_names k n -> (forall s, In s ss -> named s) -> named (Group k n nl ln u c ss).

(** [inside d s t]: s is a system of the tree t, d levels below *)
Inductive inside : nat -> sys -> sys -> Prop :=
| i_self : forall t, inside 0 t t
| i_sub : forall d s t k n nl ln u c ss, In t ss -> inside d s t -> inside (S d) s (Group k n nl ln u c ss).

(** an unknown connected to two params *)
Definition shared (s : sys) : Prop :=
  match s with
  | Comp _ _ => False
  | Group _ _ _ _ unks conns _ => exists v p q a b c, In v unks /\ conns = a ++ (p, v) :: b ++ (q, v) :: c
  end.

(** the line of a system after the blanks: class and name, for a group the solvers *)
Definition core (s : sys) : string := match s with Comp k n => (k ++ String " " (String "'" (n ++ String "'" "")))%string | Group k n nl ln _ _ _ => (k ++ String " " (String "'" (n ++ String "'" ("  NL: " ++ nl ++ "  LN: " ++ ln))))%string end.
Fixpoint spaces (n : nat) : string := match n with 0 => EmptyString | S n => String " " (spaces n) end.

(** What a constraint text means, independently of components/constraint.py. *)
From Verif Require Import Base OrderModel FileModel ExprModel CstrPy.
Local Open Scope list_scope.

(** the inequalities, as they are written and as they are meant *)
Definition written (c : cop) : text :=
  match c with CLt => t_ "<" | CGt => t_ ">" | CLe => t_ "<=" | CGe => t_ ">=" | CEq => t_ "==" end.
Definition holds (c : cop) (x y : Q) : Prop :=
  match c with CLt => (x < y)%Q | CGt => (y < x)%Q | CLe => (x <= y)%Q | CGe => (y <= x)%Q | CEq => (x == y)%Q end.
(** how far the constraint is from being violated, negative when it is met *)
Definition margin (c : cop) (x y : Q) : Q := match c with CGt | CGe => (y - x)%Q | _ => (x - y)%Q end.
(** a text without a comparator in it *)
Definition plain (s : text) : Prop := forall c, In c s -> c <> "<"%char /\ c <> ">"%char /\ c <> "="%char.
(** a name a component can give to a variable *)
Definition is_name (n : text) : Prop := exists c r, n = c :: r /\ letter c = true /\ forallb namec r = true.

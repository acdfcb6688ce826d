(** Dotted path utilities: openmdao/util/string_util.py lines 8-76. *)
From Verif Require Import Base.
Local Open Scope nat_scope.
Local Open Scope string_scope.

Definition dot : ascii := "."%char.

(** s.split('.') *)
Fixpoint split_dot (s : string) : list string :=
  match s with
  | "" => [""]
  | String c r =>
      if Ascii.eqb c dot then "" :: split_dot r
      else match split_dot r with h :: t => String c h :: t | [] => [String c ""] end
  end.

(** '.'.join(l) *)
Fixpoint join_dot (l : list string) : string :=
  match l with
  | [] => ""
  | [x] => x
  | x :: rest => x ++ "." ++ join_dot rest
  end.

(** s[start:] *)
Fixpoint slice_from (n : nat) (s : string) : string :=
  match n, s with
  | 0, _ => s
  | S n', String _ r => slice_from n' r
  | S _, "" => ""
  end.

(** s.split('.', 1)[0] *)
Fixpoint before_dot (s : string) : string :=
  match s with
  | "" => ""
  | String c r => if Ascii.eqb c dot then "" else String c (before_dot r)
  end.

(** the loop of get_common_ancestor, lines 23-27 *)
Fixpoint common_parts (a b : list string) : list string :=
  match a, b with
  | x :: a', y :: b' => if String.eqb x y then x :: common_parts a' b' else []
  | _, _ => []
  end.

(** get_common_ancestor, lines 8-32 *)
Definition get_common_ancestor (name1 name2 : string) : string :=
  match common_parts (split_dot name1) (split_dot name2) with
  | [] => ""
  | parts => join_dot parts
  end.

(** the start of the slice, lines 51 and 75 *)
Definition start_of (parent : string) : nat :=
  if String.eqb parent "" then 0 else String.length parent + 1.

(** nearest_child, lines 34-52 *)
Definition nearest_child (parent child : string) : string := before_dot (slice_from (start_of parent) child).

(** name_relative_to, lines 54-76 *)
Definition name_relative_to (parent child : string) : string := slice_from (start_of parent) child.

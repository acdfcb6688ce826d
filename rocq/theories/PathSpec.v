(** Paths as lists of names. *)
From Verif Require Import Base.
Local Open Scope nat_scope.
Local Open Scope string_scope.

(** a name: non-empty, without a dot *)
Fixpoint dotless (s : string) : Prop :=
  match s with "" => True | String c r => c <> "."%char /\ dotless r end.
Definition name_ok (s : string) : Prop := s <> "" /\ dotless s.

(** the text of a path; the root system is the empty path *)
Fixpoint text (p : list string) : string :=
  match p with
  | [] => ""
  | x :: rest => x ++ match rest with [] => "" | _ => "." ++ text rest end
  end.

Definition prefix_of (p q : list string) : Prop := exists r, q = (p ++ r)%list.

(** p is the longest path that both a and b start with *)
Definition longest_common (a b p : list string) : Prop :=
  prefix_of p a /\ prefix_of p b /\ (forall q, prefix_of q a -> prefix_of q b -> prefix_of q p).

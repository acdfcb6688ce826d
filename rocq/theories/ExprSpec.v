(** Which variables the names in an expression refer to. *)
From Verif Require Import Base OrderModel FileModel FileSpec ExprModel.
From Coq Require Import Permutation.
Local Open Scope nat_scope.
Local Open Scope list_scope.

(** the words of a text: its longest runs of letters, digits, underscores and colons *)
Definition wchar (c : ascii) : bool := letter c || digit c || Ascii.eqb c colon.
Fixpoint words_from (cur s : text) : list text :=
  match s with
  | [] => match cur with [] => [] | _ => [cur] end
  | c :: r => if wchar c then words_from (cur ++ [c]) r else (match cur with [] => [] | _ => [cur] end) ++ words_from [] r
  end.
Definition words (s : text) : list text := words_from [] s.

(** The property, for a set of variables: in the compiled expression every name of a
    variable refers to that variable, and no other word refers to any. *)
Definition refers_well (vars : list text) (to : list (text * text)) (e compiled : text) : Prop :=
  map (dget teqb to) (words compiled) = map (fun w => if in_dec text_dec w vars then Some w else None) (words e).

(** no name with colons is part of a longer word *)
Definition no_overlap (vars exprs : list text) : Prop :=
  forall e w n, In e exprs -> In w (words e) -> In n vars -> has_colon n = true -> occurs n w -> w = n.
(** the names with colons have no digits *)
Definition no_digits (vars : list text) : Prop :=
  forall n c, In n vars -> has_colon n = true -> In c n -> digit c = false.

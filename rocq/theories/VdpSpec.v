(** A table: names, slices and values in columns. *)
From Verif Require Import Base.
Local Open Scope list_scope.
Local Open Scope nat_scope.

Fixpoint spaces (n : nat) : string := match n with 0 => EmptyString | S n => String " " (spaces n) end.
(** a text at the left, or at the right, of a column of the given width *)
Definition at_left (wid : nat) (s cell : string) : Prop := exists n, cell = (s ++ spaces n)%string /\ String.length cell = wid.
Definition at_right (wid : nat) (s cell : string) : Prop := exists n, cell = (spaces n ++ s)%string /\ String.length cell = wid.
Definition row (wn ws wv : nat) (name slice value line : string) : Prop :=
  exists a b c, at_left wn name a /\ at_left ws slice b /\ at_right wv value c /\ line = (a ++ String " " (b ++ String " " c))%string.
(** a value passed by object comes last and has no column *)
Definition obj_row (wn ws : nat) (name value line : string) : Prop :=
  exists a b, at_left wn name a /\ at_left ws "(by obj)"%string b /\ line = (a ++ String " " (b ++ String " " value))%string.

(** A box in a file: some rows, and in each the characters from one column to another. *)
From Verif Require Import Base FileModel.
Local Open Scope nat_scope.
Local Open Scope list_scope.

(** [rows] are the lines number first, first+1, ... of the file, first counted from 0 *)
Definition rows_at (file : list text) (first : nat) (rows : list text) : Prop := exists before after, file = before ++ rows ++ after /\ length before = first.
(** columns fs to fe, counted from 1, as far as the line goes *)
Definition cut (fs fe : nat) (line box : text) : Prop :=
  exists before after, line = before ++ box ++ after /\ (length before = fs - 1 \/ length before < fs - 1 /\ box = [] /\ after = [])
    /\ (length box = fe - (fs - 1) \/ length box < fe - (fs - 1) /\ after = []).
(** without surrounding white space *)
Definition stripped (s t : text) : Prop :=
  exists a b, s = a ++ t ++ b /\ Forall (fun c => is_space c = true) (a ++ b)
    /\ (forall c r, t = c :: r -> is_space c = false) /\ (forall c r, t = r ++ [c] -> is_space c = false).

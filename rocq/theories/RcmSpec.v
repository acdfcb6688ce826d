(** Signals by name: a table of names and numbers, and what a message should say. *)
From Verif Require Import Base.
Local Open Scope string_scope.
Local Open Scope list_scope.
Local Open Scope Z_scope.

(** the names of signals have letters and digits after SIG, the other constants an underscore *)
Definition is_signal (name : string) : Prop := exists c r, name = ("SIG" ++ String c r)%string /\ c <> "_"%char.
Definition names_signal (attrs : list (string * Z)) (sig : Z) (msg : string) : Prop := exists name, In (name, sig) attrs /\ is_signal name /\ msg = (": " ++ name)%string.

(** What a printed line should be: indented by the depth of the system. *)
From Verif Require Import Base.
Local Open Scope string_scope.
Local Open Scope nat_scope.

Fixpoint spaces (n : nat) : string := match n with 0 => "" | S n => String " " (spaces n) end.
(** number of blanks at the start of a line *)
Fixpoint leading (s : string) : nat := match s with String c s => if Ascii.eqb c " " then S (leading s) else 0 | EmptyString => 0 end.
(** a name of a system has no dot and is not empty *)
Definition plain (n : string) : Prop := n <> "" /\ ~ In "."%char (list_ascii_of_string n).
(** the system reached from the root by these names *)
Definition path (names : list string) : string := String.concat "." names.
Definition blanks_of (names : list string) (indent precon : nat) : nat := 3 * (length names + indent) + 2 * precon.
(** position, system, solver and iteration *)
Definition heading (names : list string) (indent precon : nat) (solver solver_string iteration : string) : string :=
  spaces (blanks_of names indent precon) ++ "[" ++ String.concat "." ("root" :: names) ++ "] " ++ solver ++ ": " ++ (if precon =? 0 then "" else "PRECON:") ++ solver_string ++ "   " ++ iteration ++ " | ".

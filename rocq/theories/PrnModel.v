(** Model of the line a solver prints: openmdao/solvers/solver_base.py SolverBase.print_norm (lines
    100-166).  Texts of numbers are arguments ("%d", "%.9g", str), as is the division res/res0, which
    raises for Python's own floats when res0 is zero.  Levels are natural numbers.  Simplified: the
    text of u_norm becomes part of the format; it has no percent sign, being that of a number. *)
From Verif Require Import Base.
Local Open Scope string_scope.
Local Open Scope nat_scope.

Fixpoint times (n : nat) (s : string) : string := match n with 0 => "" | S n => s ++ times n s end.
Fixpoint count_dots (s : string) : nat :=
  match s with EmptyString => 0 | String c s => (if Ascii.eqb c "." then 1 else 0) + count_dots s end.

Section Print.
  Variable d_text : nat -> string.
  Variable g_text : Q -> string.
  Variable str : Q -> string.
  Variable divide : Q -> Q -> res Q.

  (** [if u_norm:] is false for None and for zero *)
  Definition u_tail (u_norm : option Q) : string :=
    match u_norm with None => "" | Some u => if Qeq_bool u 0 then "" else " (" ++ str u ++ ")" end.
  Definition print_norm (solver_string pathname : string) (precon_level iteration : nat) (r r0 : Q) (msg : option string) (indent : nat) (solver : string) (u_norm : option Q) : res string :=
    let name := if String.eqb pathname "" then "root" else "root." ++ pathname in
    let level := count_dots name + indent in
    let lead := times level "   " in
    let solver_string := if 0 <? precon_level then "PRECON:" ++ solver_string else solver_string in
    let lead := if 0 <? precon_level then lead ++ times precon_level "  " else lead in
    match msg with
    | Some m => Ok (lead ++ "[" ++ name ++ "] " ++ solver ++ ": " ++ solver_string ++ "   " ++ d_text iteration ++ " | " ++ m ++ u_tail u_norm)
    | None =>
        let! ratio := divide r r0 in
        Ok (lead ++ "[" ++ name ++ "] " ++ solver ++ ": " ++ solver_string ++ "   " ++ d_text iteration ++ " | " ++ g_text r ++ " " ++ g_text ratio ++ u_tail u_norm)
    end.
End Print.

(** Model of openmdao/components/constraint.py: ConstraintComp.__init__ 58-66,
    _combined_expr 69-96, _parse_constraint 98-114 (deprecated, still shipped).
    A text is a list of ASCII characters; the warning of lines 60-63 is left out.
    ExecComp.__init__ and its run (exec_comp.py lines 108-212) are taken as: the statement
    is compiled and executed, CstrPy.v. *)
From Verif Require Import Base OrderModel FileModel ExprModel CstrPy.
Local Open Scope nat_scope.
Local Open Scope list_scope.

(** the comparators in the order they are tried, line 102 *)
Definition comparators : list text := [t_ "=="; t_ ">="; t_ "<="; t_ ">"; t_ "<"; t_ "="].
Definition strip (s : text) : text := rstrip (lstrip s).
(** _parse_constraint, lines 102-114 *)
Fixpoint try_comparators (cs : list text) (s : text) : res (text * text * text) :=
  match cs with
  | [] => Err ValueError
  | c :: cs' =>
      match split_fuel (length s) c s with
      | [l; r] => if teqb c (t_ "==") then Err ValueError else Ok (strip l, c, strip r)
      | _ => try_comparators cs' s
      end
  end.
Definition parse_constraint (s : text) : res (text * text * text) := try_comparators comparators s.

(** float(s) == 0: an optional sign and a decimal number, with blanks around it.  Other
    texts float() takes (exponents, inf, nan, underscores) are not covered. *)
Definition is_zero (s : text) : bool :=
  match strip s with
  | c :: r =>
      let s' := if Ascii.eqb c "+"%char || Ascii.eqb c "-"%char then r else c :: r in
      match number s' with Some (q, []) => Qeq_bool q 0 | _ => false end
  | [] => false
  end.
(** _combined_expr, lines 79-96 *)
Definition combined_expr (s : text) : res text :=
  let! (p, rhs) := parse_constraint s in
  let (lhs, op) := p in
  let (first, second) := if contains (t_ ">") (firstn 1 op) then (rhs, lhs) else (lhs, rhs) in
  if is_zero first then Ok (t_ "-(" ++ second ++ t_ ")")
  else if is_zero second then Ok first
  else Ok (first ++ t_ "-(" ++ second ++ t_ ")").
(** __init__, lines 65-66: the expression given to ExecComp *)
Definition constraint_comp (s out : text) : res text :=
  let! e := combined_expr s in Ok (out ++ t_ " = " ++ e).

(** Model of the dump of a system tree: openmdao/core/group.py Group.dump (lines 1211-1340) and
    openmdao/core/component.py Component.dump (725-786), with sizes=False and dvecs=False.  The
    output is the list of the lines that start a system; of the verbose lines only whether writing
    them raises.  [unks] are the unknowns of a group that are neither passed by object nor remote,
    [conns] its vec_conns from params to unknowns; texts of solvers are given. *)
From Verif Require Import Base.
Local Open Scope list_scope.
Local Open Scope nat_scope.
Local Open Scope string_scope.

Inductive sys : Type :=
| Comp (klass name : string)
| Group (klass name nl ln : string) (unks : list string) (conns : list (string * string)) (subs : list sys).

Fixpoint blanks (n : nat) : string := match n with 0 => "" | S n => String " " (blanks n) end.
(** group.py 1242-1243 and component.py 757-758: "%s %s '%s'" *)
Definition head_text (nest : nat) (klass name : string) : string := blanks nest ++ " " ++ klass ++ " '" ++ name ++ "'".
(** group.py 1259 *)
Definition solvers_text (nl ln : string) : string := "  NL: " ++ nl ++ "  LN: " ++ ln.

(** the verbose lines of a group, 1282-1324: with two params or more, ','.join of a list of lists *)
Fixpoint verbose_lines (conns : list (string * string)) (unks : list string) : res unit :=
  match unks with
  | [] => Ok tt
  | v :: unks =>
      let pnames := filter (fun c => String.eqb (snd c) v) conns in
      match pnames with
      | _ :: _ :: _ => Err TypeError
      | _ => verbose_lines conns unks
      end
  end.

Fixpoint dump (verbose : bool) (nest : nat) (s : sys) : list string * res unit :=
  match s with
  | Comp klass name => ([head_text nest klass name], Ok tt)
  | Group klass name nl ln unks conns subs =>
      let first := head_text nest klass name ++ solvers_text nl ln in
      match (if verbose then verbose_lines conns unks else Ok tt) with
      | Err e => ([first], Err e)
      | Ok _ =>
          let fix loop (subs : list sys) : list string * res unit :=
            match subs with
            | [] => ([], Ok tt)
            | sub :: subs =>
                match dump verbose (nest + 3) sub with
                | (out, Err e) => (out, Err e)
                | (out, Ok _) => let (more, r) := loop subs in ((out ++ more)%list, r)
                end
            end in
          let (out, r) := loop subs in (first :: out, r)
      end
  end.

(** Model of the variable names of openmdao/components/exec_comp.py: var_rgx line 17,
    _parse_for_vars 19-21, _valid_name 23-33, ExecComp.__init__ 119-166, _compile_exprs
    174-180, _UPDict 340-372.
    A text is a list of ASCII characters (\w is a letter, a digit or an underscore).  The
    keys of _expr_dict are the argument [known]; the iteration orders of the sets of names
    are arguments.  The Python compiler is not modelled: an expression is the text given
    to it, and a name in it is looked up in _to_colons. *)
From Verif Require Import Base OrderModel FileModel RecordModel.
Local Open Scope nat_scope.
Local Open Scope list_scope.

Definition t_ (s : string) : text := list_ascii_of_string s.
Definition colon : ascii := ":"%char.
(** \w *)
Definition wordc (c : ascii) : bool := letter c || digit c.
Fixpoint span (p : ascii -> bool) (s : text) : text * text :=
  match s with
  | [] => ([], [])
  | c :: r => if p c then let (a, b) := span p r in (c :: a, b) else ([], s)
  end.
(** (?::[_a-zA-Z]\w* )* of var_rgx, line 17 *)
Fixpoint colon_parts (fuel : nat) (s : text) : text * text :=
  match fuel, s with
  | S f, k :: c :: r =>
      if Ascii.eqb k colon && letter c
      then let (w, r1) := span wordc r in let (w2, r2) := colon_parts f r1 in (k :: c :: w ++ w2, r2)
      else ([], s)
  | _, _ => ([], s)
  end.
(** re.findall(var_rgx, s), line 20, without the matches that end with a parenthesis and
    without trailing spaces *)
Fixpoint find_vars (fuel : nat) (s : text) : list text :=
  match fuel, s with
  | S f, c :: r =>
      if letter c
      then let (w, r1) := span wordc r in
           let (w2, r2) := colon_parts (length r1) r1 in
           let (_, r3) := span (fun d => Ascii.eqb d " "%char) r2 in
           match r3 with
           | p :: r4 => if Ascii.eqb p "("%char then find_vars f r4 else (c :: w ++ w2) :: find_vars f r3
           | [] => (c :: w ++ w2) :: find_vars f r3
           end
      else find_vars f r
  | _, _ => []
  end.
Definition text_dec : forall a b : text, {a = b} + {a <> b} := list_eq_dec ascii_dec.
Definition teqb (a b : text) : bool := if text_dec a b then true else false.
(** _parse_for_vars, lines 19-21, of all expressions: the set of names *)
Definition parse_for_vars (known : text -> bool) (exprs : list text) : list text :=
  nodup text_dec (filter (fun x => negb (known x)) (flat_map (fun e => find_vars (length e) e) exprs)).

(** str.replace(old, new) for a text [old] that is not empty *)
Fixpoint replace_fuel (fuel : nat) (old new s : text) : text :=
  match fuel with
  | 0 => s
  | S f => match strip_prefix old s with
           | Some r => new ++ replace_fuel f old new r
           | None => match s with [] => [] | c :: r => c :: replace_fuel f old new r end
           end
  end.
Definition replace (old new s : text) : text := replace_fuel (length s) old new s.
(** '%d' % i *)
Definition dec (i : nat) : text := list_ascii_of_string (str_int i).
(** ' '.join(exprs) *)
Fixpoint joined (exprs : list text) : text :=
  match exprs with [] => [] | [e] => e | e :: r => e ++ " "%char :: joined r end.
(** _valid_name, lines 23-33 *)
Fixpoint valid_name (fuel i : nat) (s check : text) : option text :=
  match fuel with
  | 0 => None
  | S f => let n := replace [colon] (dec i) s in
           if contains n check then valid_name f (S i) s check else Some n
  end.
Definition has_colon (n : text) : bool := existsb (Ascii.eqb colon) n.

(** __init__, lines 155-163: the dictionaries _to_colons and _from_colons, for the order
    of the set of all variables *)
Fixpoint names_loop (fuel : nat) (check : text) (vars : list text) (to from : list (text * text)) : option (list (text * text) * list (text * text)) :=
  match vars with
  | [] => Some (to, from)
  | n :: r => match (if has_colon n then valid_name fuel 0 n check else Some n) with
              | None => None
              | Some no_colon => names_loop fuel check r (dset teqb to no_colon n) (dset teqb from n no_colon)
              end
  end.
Definition names_of (fuel : nat) (exprs allvars : list text) : option (list (text * text) * list (text * text)) :=
  names_loop fuel (joined exprs) allvars [] [].
(** _compile_exprs, lines 174-178, for the order of the set of names with colons *)
Fixpoint compile_expr (from : list (text * text)) (colon_names : list text) (e : text) : text :=
  match colon_names with
  | [] => e
  | n :: r => compile_expr from r (match dget teqb from n with Some n' => replace n n' e | None => e end)
  end.

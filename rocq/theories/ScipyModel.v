(** Model of the constraint handling of openmdao/drivers/scipy_optimizer.py
    (ScipyOptimizer.run lines 160-193, _confunc, _congradfunc).  The metadata of a
    constraint is [con] of DriverModel.v, with its size; con_cache is the dictionary of
    constraint values of the last evaluation of the objective (line 253), grad_cache the
    array of the last evaluation of its gradient (line 335).
    Simplified: floats are exact rationals.  scipy.optimize.minimize is not modelled. *)
From Verif Require Import Base DriverModel.
Local Open Scope string_scope.
Local Open Scope Q_scope.
Local Open Scope list_scope.

(** lines 22-23 *)
Definition constraint_optimizers : list string := ["COBYLA"; "SLSQP"].
Definition constraint_grad_optimizers : list string := ["SLSQP"].
Definition opt_in (o : string) (l : list string) : bool := existsb (String.eqb o) l.

(** a dictionary of the list given to minimize: type, does it have 'jac', args *)
Record cdict : Type := mkC { ctype_eq : bool; has_jac : bool; arg_name : string; arg_idx : nat }.
Definition has (o : option num) : bool := match o with Some _ => true | None => false end.

(** the prefix of the second of a pair of constraints, lines 183, 289-291 *)
Definition prefix2 : string := "2bl-".
Definition strip2 (name : string) : string * bool :=
  if String.prefix prefix2 name then (String.substring 4 (String.length name - 4) name, true) else (name, false).

(** run, lines 161-193: the constraints *)
Definition dicts_of (jac : bool) (name : string) (size : nat) (k : con) : list cdict :=
  map (mkC (has (k_equals k)) jac name) (seq 0 size) ++
  (if has (k_upper k) && has (k_lower k) then map (mkC false jac (prefix2 ++ name)) (seq 0 size) else []).
Definition constraints_of (opt : string) (cons : list (string * (con * nat))) : list cdict :=
  if opt_in opt constraint_optimizers
  then flat_map (fun c => dicts_of (opt_in opt constraint_grad_optimizers) (fst c) (snd (snd c)) (fst (snd c))) cons
  else [].
(** con_idx, lines 162 and 178-179 *)
Fixpoint con_idx (i : nat) (cons : list (string * (con * nat))) : list (string * nat) :=
  match cons with [] => [] | (n, (_, size)) :: r => (n, i) :: con_idx (i + size) r end.

(** bound[idx] of an array, or the number *)
Definition bound_at (b : num) (idx : nat) : res Q :=
  match b with Num x => Ok x | Arr a => match nth_error a idx with Some x => Ok x | None => Err IndexError end end.
Definition lookup {A} (d : list (string * A)) (n : string) : res A := match dget String.eqb d n with Some a => Ok a | None => Err KeyError end.
Definition item (l : list Q) (i : nat) : res Q := match nth_error l i with Some x => Ok x | None => Err IndexError end.

(** _confunc, lines 269-316 *)
Definition confunc (cons : list (string * (con * nat))) (cache : list (string * list Q)) (name : string) (idx : nat) : res Q :=
  let (name, dbl_side) := strip2 name in
  let! meta := lookup cons name in
  match k_equals (fst meta) with
  | Some bound => let! b := bound_at bound idx in let! l := lookup cache name in let! v := item l idx in Ok (b - v)
  | None =>
      if negb (has (k_lower (fst meta))) || dbl_side
      then match k_upper (fst meta) with
           | Some upper => let! u := bound_at upper idx in let! l := lookup cache name in let! v := item l idx in Ok (u - v)
           | None => Err TypeError
           end
      else match k_lower (fst meta) with
           | Some lower => let! l := bound_at lower idx in let! vs := lookup cache name in let! v := item vs idx in Ok (v - l)
           | None => Err TypeError
           end
  end.

(** a row of grad_cache, and minus a row *)
Definition row (grad : list (list Q)) (i : nat) : res (list Q) := match nth_error grad i with Some x => Ok x | None => Err IndexError end.
(** _congradfunc, lines 343-386 *)
Definition congradfunc (cons : list (string * (con * nat))) (grad : list (list Q)) (name : string) (idx : nat) : res (list Q) :=
  let (name, dbl_side) := strip2 name in
  let! meta := lookup cons name in
  let! i := lookup (con_idx 0 cons) name in
  let! r := row grad (i + idx + 1) in
  if has (k_equals (fst meta)) then Ok (map Qopp r)
  else if negb (has (k_lower (fst meta))) || dbl_side then Ok (map Qopp r)
  else Ok r.

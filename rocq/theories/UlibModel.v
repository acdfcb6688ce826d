(** Model of openmdao/units/units.py import_library (lines 722-761), on the tables and the loading
    of UnitsModel.v.
    A configuration is its three sections, read: the items of a section in order, names without
    repetition in a section; factors are exact rationals.  Files without one of the sections, or
    with text that is not a number, are not covered. *)
From Verif Require Import Base UnitsModel.
Local Open Scope list_scope.
Local Open Scope nat_scope.

Record config := Config { c_prefixes : list (string * Q); c_base : list (string * string); c_units : list udef }.
(** what _UNIT_LIB and _UNIT_CACHE hold *)
Record lib := Lib { l_prefixes : prefixes; l_types : list (string * nat); l_names : list string; l_state : ustate }.

(** powers[i] = 1 in a copy of base_list *)
Fixpoint set_at (l : list Z) (i : nat) : list Z :=
  match l, i with
  | [], _ => []
  | _ :: r, 0 => 1%Z :: r
  | x :: r, S i => x :: set_at r i
  end.
Definition new_unit (t : table) (n : string) (ps : list Z) : table := sset t n (mkUnit 1 ps 0).
(** lines 743-751 *)
Fixpoint base_loop (base_list : list Z) (i : nat) (l : list (string * string)) (types : list (string * nat)) (names : list string) (t : table) : list (string * nat) * list string * table :=
  match l with
  | [] => (types, names, t)
  | (ty, n) :: l => base_loop base_list (S i) l (sset types ty i) (names ++ [n]) (new_unit t n (set_at base_list i))
  end.
Local Open Scope string_scope.
Local Open Scope list_scope.
Definition required : list string := ["length"; "mass"; "time"; "temperature"; "angle"].
(** The library that is in place afterwards (None where loading the units failed half way), and
    the result. *)
Definition import_library (order : nat -> list udef -> list udef) (before : lib) (cfg : config) : option lib * res unit :=
  let px := fold_left (fun d e => sset d (fst e) (snd e)) (c_prefixes cfg) [] in
  let base_list := repeat 0%Z (length (c_base cfg)) in
  let '(types, names, t) := base_loop base_list 0 (c_base cfg) [] [] [] in
  if existsb (fun ty => match sget types ty with Some _ => false | None => true end) required
  then (Some (Lib px types names (mkUState t [])), Err ValueError)
  else
    match update_library px order (mkUState (new_unit t "unitless" base_list) []) (c_units cfg) with
    | Ok s => (Some (Lib px types names s), Ok tt)
    | Err e => (None, Err e)
    end.

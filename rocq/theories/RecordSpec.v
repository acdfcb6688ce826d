(** Specifications for recording, independent of the recorder model. *)
From Verif Require Import Base RecordModel.
Local Open Scope string_scope.

(** the character does not occur in the string *)
Definition lacks (c : ascii) (s : string) : Prop := ~ In c (list_ascii_of_string s).

(** no name in the coordinate contains the separator '|' *)
Definition no_bars (c : coord) : Prop := Forall (fun x => lacks "|" (fst x)) (c_items c).

(** Names that can occur in coordinates: letters, digits, '_' (system names),
    '.' (pathnames), '-' (optimizer names). *)
Definition name_char (a : ascii) : bool :=
  let n := nat_of_ascii a in
  ((Nat.leb 48 n && Nat.leb n 57) || (Nat.leb 65 n && Nat.leb n 90)
   || (Nat.leb 97 n && Nat.leb n 122) || Ascii.eqb a "_" || Ascii.eqb a "." || Ascii.eqb a "-")%bool.
Definition legal_names (c : coord) : Prop :=
  Forall (fun x => forallb name_char (list_ascii_of_string (fst x)) = true) (c_items c).

(** a variable is selected for recording *)
Definition selected (matches : string -> string -> bool) (o : rec_opts) (n : string) : Prop :=
  (exists p, In p (ro_includes o) /\ matches n p = true) /\
  (forall p, In p (ro_excludes o) -> matches n p = false).

(** is the vector recorded at all *)
Definition recorded (o : rec_opts) (k : veckey) : bool :=
  match k with KP => ro_params o | KU => ro_unknowns o | KR => ro_resids o end.

(** a group as seen by a recorder *)
Record ginfo : Type := mkG { g_path : string; g_params : list string; g_unknowns : list string }.
Definition g_names (g : ginfo) (k : veckey) : list string :=
  match k with KP => g_params g | _ => g_unknowns g end.

(** the table of a recorder attached to the given groups (unknowns and resids
    have the same names) *)
Definition started (m : string -> string -> bool) (o : rec_opts) (gs : list ginfo) : list (string * filtered) :=
  fold_left (fun t g => startup m o t (g_path g) (g_params g) (g_unknowns g) (g_unknowns g)) gs [].

(** the dotted name of a group *)
Definition dotted (chain : list level) : string := String.concat "." (map l_name chain).

(** the variable keeps its value in the recorder: not a live view *)
Definition by_value (g : getter) : Prop := g <> GArray.

(** the coordinates of the recorded iterations, in order *)
Definition iter_coords {V D T} (l : list (event V D T)) : list coord :=
  flat_map (fun e => match e with EIter i => [i_coord i] | _ => [] end) l.

(** the derivatives recorded last for a coordinate *)
Fixpoint last_derivs {V D T} (eqb : coord -> coord -> bool) (l : list (event V D T)) (c : coord) : option D :=
  match l with
  | [] => None
  | EIter _ :: l' => last_derivs eqb l' c
  | EDerivs c' _ d :: l' =>
      match last_derivs eqb l' c with
      | Some x => Some x
      | None => if eqb c' c then Some d else None
      end
  end.

Definition event_coord {V D T} (e : event V D T) : coord :=
  match e with EIter i => i_coord i | EDerivs c _ _ => c end.

Definition coord_eq_dec : forall a b : coord, {a = b} + {a <> b}.
Proof. repeat decide equality. Defined.
Definition coord_eqb (a b : coord) : bool := if coord_eq_dec a b then true else false.

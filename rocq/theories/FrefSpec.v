(** Specification for C106: file variables as values that flow along the
    connections. *)
From Verif Require Import Base DirModel DirSpec FrefModel.
Local Open Scope string_scope.

(** variable n is a file variable and stands for path p *)
Definition is_file (h : heap) (vars : list (string * value)) (n p : string) : Prop :=
  exists i f, sget vars n = Some (VFile i) /\ hget h i = Some f /\ p = abspath f.
(** variable n is declared binary *)
Definition has_mode (h : heap) (vars : list (string * value)) (n : string) (b : bool) : Prop :=
  exists i f, sget vars n = Some (VFile i) /\ hget h i = Some f /\
    b = match f_binary f with Some true => true | _ => false end.

(** a connection is sound: both ends are files of the same mode, or neither is
    a file *)
Definition sound_conn (h : heap) (params unknowns : list (string * value)) (c : string * string) : Prop :=
  (exists b, has_mode h params (fst c) b /\ has_mode h unknowns (snd c) b) \/
  (sget params (fst c) = Some VOther /\ sget unknowns (snd c) = Some VOther).

(** every file variable has a FileRef *)
Definition heap_ok (h : heap) (vars : list (string * value)) : Prop :=
  forall n i, In (n, VFile i) vars -> hget h i <> None.

(** ** Files as values *)
Section Spec.
  Variable canon : string -> string.
  Variable beh : string -> list (option string) -> list string.
  Variable h : heap.
  Variables params unknowns : list (string * value).
  Variable conns : list (string * string).

  (** the content of a variable's file *)
  Definition content (st : list (string * string)) (vars : list (string * value)) (n : string) : option string :=
    match sget vars n with
    | Some (VFile i) => match hget h i with Some f => sget st (canon (abspath f)) | None => None end
    | _ => None
    end.

  Definition path_of (vars : list (string * value)) (n : string) : string :=
    match sget vars n with
    | Some (VFile i) => match hget h i with Some f => abspath f | None => "" end
    | _ => ""
    end.
  Definition binary_of (n : string) : bool :=
    match sget params n with
    | Some (VFile i) => match hget h i with Some f => is_binary f | None => false end
    | _ => false
    end.

  (** the param stands for the very file of its source *)
  Definition same_path (t s : string) : bool := String.eqb (path_of params t) (path_of unknowns s).

  (** what a component finds in the file of a param, given the values of the
      file unknowns: its source's value, through a text copy if the file is
      another one and not binary *)
  Definition spec_in (init v : string -> option string) (n : string) : option string :=
    match sget conns n with
    | None => init n
    | Some s => if (same_path n s || binary_of n)%bool then v s else option_map unl (v s)
    end.

  (** a component cannot run: a source to copy from does not exist *)
  Definition blocked (v : string -> option string) (c : comp) : bool :=
    existsb (fun x => (existsb (String.eqb (fst x)) (map fst (c_par c)) &&
                       negb (same_path (fst x) (snd x)) &&
                       match v (snd x) with None => true | Some _ => false end)%bool) conns.

  Definition spec_step (v : string -> option string) (c : comp) (outs : list string) (u : string) : option string :=
    match sget (combine (map fst (c_unk c)) outs) u with Some x => Some x | None => v u end.

  Fixpoint spec_run (init : string -> option string) (cs : list comp) (v : string -> option string) :
    option ((string -> option string) * list (list (option string))) :=
    match cs with
    | [] => Some (v, [])
    | c :: r =>
        if blocked v c then None
        else
          let ins := map (spec_in init v) (map fst (c_par c)) in
          match spec_run init r (spec_step v c (beh (c_name c) ins)) with
          | None => None
          | Some (v', log) => Some (v', ins :: log)
          end
    end.

  (** the files of the variables do not get in each other's way *)
  Record separate : Prop := mkSep {
    (** two unknowns never share a file *)
    sep_unk : forall u u' p p', is_file h unknowns u p -> is_file h unknowns u' p' ->
      canon p = canon p' -> u = u';
    (** a param shares a file with an unknown only if it is its source, and
        then in the same spelling *)
    sep_mix : forall n u p p', is_file h params n p -> is_file h unknowns u p' ->
      canon p = canon p' -> sget conns n = Some u /\ p = p';
    (** params share a file only if they have the same source *)
    sep_par : forall n n' p p', is_file h params n p -> is_file h params n' p' ->
      canon p = canon p' -> sget conns n = sget conns n' }.

  (** the components' variables are those of the model *)
  Definition declared (c : comp) : Prop :=
    NoDup (map fst (c_unk c)) /\
    (forall n i, In (n, i) (c_unk c) -> sget unknowns n = Some (VFile i)) /\
    (forall n i, In (n, i) (c_par c) -> sget params n = Some (VFile i)).
End Spec.

(** no carriage return *)
Definition no_cr (s : string) : Prop := forall k, String.get k s <> Some "013"%char.

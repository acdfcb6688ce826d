(** Model of file variables: FileRef (core/fileref.py 18-93),
    Component._fileref_setup (core/component.py 440-465), the FileRef part of check_connections (core/_checks.py 32-84),
    and the transfer of files (core/data_transfer.py 128-134).

    Simplifications: one process, every system active; the mode of a
    FileRef (binary or not) is given (_set_meta is not modelled); only variables are kept
    that are FileRefs or connected to one; the file system is a map from files
    to contents, reached from a path through a fixed resolution (links, "..",
    double separators); os.makedirs makes one directory; text files are read
    with universal newlines and written unchanged, as Python 3 does on Unix,
    and every content can be decoded; a component reads its file params and
    then writes all its file unknowns, through open() in binary mode; the
    transfers to a component are done just before it runs. *)
From Verif Require Import Base DirModel.
Local Open Scope string_scope.

(** a FileRef: fname, parent_dir, meta (which only has 'binary') *)
Record fref : Type := mkF { f_name : string; f_parent : string; f_binary : option bool }.

(** FileRef objects by number *)
Definition heap : Type := list (nat * fref).
Definition hget (h : heap) (i : nat) : option fref := dget Nat.eqb h i.
Definition hset (h : heap) (i : nat) (f : fref) : heap := dset Nat.eqb h i f.

(** FileRef._abspath, 43-48 *)
Definition abspath (f : fref) : string :=
  if isabs (f_name f) then f_name f else join (f_parent f) (f_name f).

(** open: binary mode if the metadata say so *)
Definition is_binary (f : fref) : bool := match f_binary f with Some b => b | None => false end.

(** values of variables *)
Inductive value : Type := VFile (i : nat) | VOther.

(** validate, 50-71, on the target; bool(None) is False *)
Definition validate (h : heap) (tgt : fref) (src : value) : res unit :=
  match src with
  | VOther => Err TypeError
  | VFile i =>
      match hget h i with
      | None => Err TypeError
      | Some s => if Bool.eqb (is_binary tgt) (is_binary s) then Ok tt else Err ValueError
      end
  end.

(** ** Setup *)

(** os.path.dirname (posixpath): up to the last separator, without trailing
    separators unless there is nothing else *)
Fixpoint all_slash (p : string) : bool :=
  match p with "" => true | String "/" p' => all_slash p' | _ => false end.
(** rstrip('/') *)
Fixpoint rstrip (p : string) : string :=
  match p with
  | "" => ""
  | String a p' => if all_slash p then "" else String a (rstrip p')
  end.
(** p[:p.rfind('/')+1] *)
Fixpoint head_of (p : string) : string :=
  match p with
  | "" => ""
  | String a p' =>
      match head_of p' with
      | "" => if Ascii.eqb a "/" then "/" else ""
      | q => String a q
      end
  end.
Definition dirname (p : string) : string :=
  let head := head_of p in
  if all_slash head then head else rstrip head.

Record comp : Type := mkC {
  c_name : string;
  c_dir : string;                       (** _sysdata.absdir *)
  c_create : bool;                      (** create_dirs *)
  c_unk : list (string * nat);          (** file unknowns: name, FileRef *)
  c_par : list (string * nat) }.        (** file params *)

(** _fileref_setup, component.py 454-465 *)
Definition fileref_setup (c : comp) (i : nat) (st : heap * list string) : res (heap * list string) :=
  let (h, dirs) := st in
  match hget h i with
  | None => Err KeyError
  | Some f =>
      let f' := mkF (f_name f) (c_dir c) (f_binary f) in
      let h' := hset h i f' in
      let d := dirname (abspath f') in
      if existsb (String.eqb d) dirs then Ok (h', dirs)
      else if c_create c then Ok (h', (dirs ++ [d])%list)
      else Err RuntimeError
  end.

Fixpoint setup_vars (c : comp) (ids : list nat) (st : heap * list string) : res (heap * list string) :=
  match ids with
  | [] => Ok st
  | i :: r => let! st' := fileref_setup c i st in setup_vars c r st'
  end.

(** _setup_communicators of every component, 438-446 *)
Fixpoint setup_comps (cs : list comp) (st : heap * list string) : res (heap * list string) :=
  match cs with
  | [] => Ok st
  | c :: r =>
      let! st' := setup_vars c (map snd (c_unk c) ++ map snd (c_par c))%list st in
      setup_comps r st'
  end.

(** ** Checks *)

(** _check_types_match, 76-82: only the branch with FileRefs (see C77) *)
Definition check_types (h : heap) (sval tval : value) : res unit :=
  match sval, tval with
  | VOther, VOther => Ok tt
  | _, VOther => Err AttributeError
  | _, VFile i =>
      match hget h i with None => Err KeyError | Some t => validate h t sval end
  end.

Fixpoint check_conns (h : heap) (params unknowns : list (string * value)) (conns : list (string * string)) : res unit :=
  match conns with
  | [] => Ok tt
  | (tgt, src) :: r =>
      match sget params tgt, sget unknowns src with
      | Some tv, Some sv => let! _ := check_types h sv tv in check_conns h params unknowns r
      | _, _ => Err KeyError
      end
  end.

(** fref_conns: ins and outs of every input file, 43-53 *)
Definition entry : Type := (list (string * bool) * list (string * string))%type.
Definition set_add (l : list (string * string)) (x : string * string) : list (string * string) :=
  if existsb (fun y => (String.eqb (fst x) (fst y) && String.eqb (snd x) (snd y))%bool) l then l else (l ++ [x])%list.

Fixpoint collect (h : heap) (unknowns : list (string * value)) (conns : list (string * string))
  (params : list (string * value)) (d : list (string * entry)) : res (list (string * entry)) :=
  match params with
  | [] => Ok d
  | (n, VOther) :: r => collect h unknowns conns r d
  | (n, VFile i) :: r =>
      match hget h i with
      | None => Err KeyError
      | Some f =>
          let p := abspath f in
          let (ins, outs) := match sget d p with Some e => e | None => ([], []) end in
          match sget conns n with
          | None => collect h unknowns conns r (sset d p ((ins ++ [(n, false)])%list, outs))
          | Some s =>
              match sget unknowns s with
              | Some (VFile j) =>
                  match hget h j with
                  | Some g => collect h unknowns conns r
                                (sset d p ((ins ++ [(n, true)])%list, set_add outs (s, abspath g)))
                  | None => Err KeyError
                  end
              | Some VOther => Err AttributeError
              | None => Err KeyError
              end
          end
      end
  end.

Inductive ferr : Type :=
| EMulti (file : string)       (** several sources *)
| EUnconnected (param : string).

(** 55-73 *)
Definition entry_errors (e : string * entry) : list ferr :=
  let '(file, (ins, outs)) := e in
  ((if (1 <? length outs)%nat then [EMulti file] else []) ++
   flat_map (fun x => if (negb (snd x) && negb (Nat.eqb (length outs) 0))%bool then [EUnconnected (fst x)] else []) ins)%list.

(** check_connections, FileRef part *)
Definition check_connections (h : heap) (conns : list (string * string)) (params unknowns : list (string * value)) :
  res (list ferr) :=
  let! _ := check_conns h params unknowns conns in
  let! d := collect h unknowns conns params [] in
  Ok (flat_map entry_errors d).

(** ** Transfers *)

Definition CR : ascii := "013".
Definition LF : ascii := "010".

(** universal newlines: "\r\n" and "\r" are read as "\n" *)
Fixpoint unl (s : string) : string :=
  match s with
  | "" => ""
  | String a s' =>
      if Ascii.eqb a CR then
        match s' with
        | String b s'' => if Ascii.eqb b LF then String LF (unl s'') else String LF (unl s')
        | "" => String LF ""
        end
      else String a (unl s')
  end.

Section Files.
  (** which file a path means *)
  Variable canon : string -> string.
  Definition fs : Type := list (string * string).

  (** _assign_to, 80-93: validation, same file, open both, copy; opening for
      writing empties the file *)
  Definition assign_to (h : heap) (tgt : fref) (src : value) (st : fs) : res fs :=
    let! _ := validate h tgt src in
    match src with
    | VOther => Err TypeError
    | VFile i =>
        match hget h i with
        | None => Err KeyError
        | Some s =>
            if String.eqb (abspath tgt) (abspath s) then Ok st
            else match sget st (canon (abspath s)) with
                 | None => Err OSError
                 | Some _ =>
                     let st1 := sset st (canon (abspath tgt)) "" in
                     match sget st1 (canon (abspath s)) with
                     | None => Err OSError
                     | Some data =>
                         Ok (sset st1 (canon (abspath tgt)) (if is_binary tgt then data else unl data))
                     end
                 end
        end
    end.

  (** transfer, data_transfer.py 128-134: the connections of one component *)
  Fixpoint transfer (h : heap) (params unknowns : list (string * value)) (conns : list (string * string)) (st : fs) : res fs :=
    match conns with
    | [] => Ok st
    | (tgt, src) :: r =>
        match sget params tgt, sget unknowns src with
        | Some (VFile i), Some v =>
            match hget h i with
            | None => Err KeyError
            | Some f => let! st' := assign_to h f v st in transfer h params unknowns r st'
            end
        | Some VOther, Some (VFile _) => Err AttributeError
        | Some VOther, Some VOther => transfer h params unknowns r st
        | _, _ => Err KeyError
        end
    end.

  (** what components do: from the contents of their file params to those of
      their file unknowns *)
  Variable beh : string -> list (option string) -> list string.

  Definition read (h : heap) (st : fs) (i : nat) : option string :=
    match hget h i with Some f => sget st (canon (abspath f)) | None => None end.
  Fixpoint write_all (h : heap) (l : list (nat * string)) (st : fs) : fs :=
    match l with
    | [] => st
    | (i, data) :: r =>
        write_all h r (match hget h i with Some f => sset st (canon (abspath f)) data | None => st end)
    end.

  Definition run_comp (h : heap) (params unknowns : list (string * value)) (conns : list (string * string))
    (c : comp) (st : fs) : res (fs * list (option string)) :=
    let! st1 := transfer h params unknowns (filter (fun x => existsb (String.eqb (fst x)) (map fst (c_par c))) conns) st in
    let ins := map (read h st1) (map snd (c_par c)) in
    Ok (write_all h (combine (map snd (c_unk c)) (beh (c_name c) ins)) st1, ins).

  (** components run in any order, any number of times; the log is what they
      read *)
  Fixpoint run (h : heap) (params unknowns : list (string * value)) (conns : list (string * string))
    (cs : list comp) (st : fs) : res (fs * list (list (option string))) :=
    match cs with
    | [] => Ok (st, [])
    | c :: r =>
        let! (st1, ins) := run_comp h params unknowns conns c st in
        let! (st2, log) := run h params unknowns conns r st1 in
        Ok (st2, ins :: log)
    end.
End Files.

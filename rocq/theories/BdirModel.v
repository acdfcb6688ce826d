(** Model of build_directory, openmdao/util/file_util.py lines 13-59.
    The file system is a map from absolute paths (lists of names) to directories and files;
    there are no links, permissions or full disks.  The dictionary is the list of its
    items in iteration order (iteritems, line 39); a value that is not a dictionary is a
    text (line 48: "assume a string value").  A key is split at its slashes; ".." is
    resolved without looking at what it leaves.  The warning of line 50 is recorded. *)
From Verif Require Import Base.
Local Open Scope string_scope.
Local Open Scope list_scope.

Definition path := list string.
Inductive entry := EDir | EFile (content : string).
Definition fsys := path -> option entry.
Definition path_dec : forall a b : path, {a = b} + {a <> b} := list_eq_dec string_dec.
Definition peqb (a b : path) : bool := if path_dec a b then true else false.
Definition put (f : fsys) (p : path) (e : entry) : fsys := fun q => if peqb q p then Some e else f q.
Record state := mkSt { s_fs : fsys; s_cwd : path; s_warned : list path }.

(** keys and values of the dictionary *)
Record key := mkKey { k_abs : bool; k_parts : path }.
Inductive value := VText (t : string) | VDict (items : list (key * value)).
(** the argument force: False itself, another value taken for false (0, None, ''), or a
    value taken for true *)
Inductive flag := FFalse | FFalsy | FTrue.
Definition is_False (f : flag) : bool := match f with FFalse => true | _ => false end.

(** where a path leads from the working directory: os.path.abspath *)
Definition resolve (cwd : path) (p : path) : path :=
  fold_left (fun d c => if String.eqb c ".." then removelast d else if String.eqb c "." || String.eqb c "" then d else d ++ [c]) p cwd.
(** os.chdir, os.path.exists, os.path.isdir *)
Definition chdir (p : path) (s : state) : state * res unit :=
  match s_fs s p with Some EDir => (mkSt (s_fs s) p (s_warned s), Ok tt) | _ => (s, Err OSError) end.
Definition exists_ (f : fsys) (p : path) : bool := match f p with Some _ => true | None => false end.
Definition isdir (f : fsys) (p : path) : bool := match f p with Some EDir => true | _ => false end.
(** os.makedirs of a path from a directory: the directories missing are made from the top
    down; a file in the way is an error *)
Fixpoint makedirs (f : fsys) (d : path) (p : path) : fsys * res unit :=
  match p with
  | [] => (f, Ok tt)
  | c :: r =>
      let d' := resolve d [c] in
      match f d' with
      | None => makedirs (put f d' EDir) d' r
      | Some EDir => makedirs f d' r
      | Some (EFile _) => (f, Err OSError)
      end
  end.
(** open(key, 'w') and write, lines 56-57 *)
Definition write (f : fsys) (d : path) (p : path) (t : string) : fsys * res unit :=
  let q := resolve d p in
  match f q with
  | Some EDir => (f, Err OSError)
  | _ => if isdir f (resolve d (removelast p)) then (put f q (EFile t), Ok tt) else (f, Err OSError)
  end.
Definition with_fs (s : state) (x : fsys * res unit) : state * res unit := (mkSt (fst x) (s_cwd s) (s_warned s), snd x).
Definition thenS (x : state * res unit) (k : state -> state * res unit) : state * res unit :=
  match x with (s, Ok _) => k s | (s, Err e) => (s, Err e) end.

(** build_directory, lines 36-59, [top] being os.path.abspath(topdir), line 37 *)
Fixpoint build (force : flag) (v : value) (top : path) (s : state) {struct v} : state * res unit :=
  match v with
  | VText _ => (s, Err AttributeError)  (* iteritems of a text *)
  | VDict items =>
      let fix loop (l : list (key * value)) (s : state) {struct l} : state * res unit :=
        match l with
        | [] => (s, Ok tt)
        | (k, x) :: r =>
            thenS (chdir top s) (fun s =>
            if k_abs k then (s, Err RuntimeError)
            else
              thenS
                (match x with
                 | VDict _ =>
                     thenS (if exists_ (s_fs s) (resolve (s_cwd s) (k_parts k)) then (s, Ok tt)
                            else with_fs s (makedirs (s_fs s) (s_cwd s) (k_parts k))) (fun s =>
                     thenS (chdir (resolve (s_cwd s) (k_parts k)) s) (fun s =>
                     build force x (s_cwd s) s))
                 | VText t =>
                     if exists_ (s_fs s) (resolve (s_cwd s) (k_parts k)) && is_False force
                     then (mkSt (s_fs s) (s_cwd s) (s_warned s ++ [resolve (s_cwd s) (k_parts k)]), Ok tt)
                     else
                       let dname := removelast (k_parts k) in
                       thenS (if negb (match dname with [] => true | _ => false end) && negb (isdir (s_fs s) (resolve (s_cwd s) dname))
                              then with_fs s (makedirs (s_fs s) (s_cwd s) dname) else (s, Ok tt)) (fun s =>
                       with_fs s (write (s_fs s) (s_cwd s) (k_parts k) t))
                 end) (fun s => loop r s))
        end in
      let start := s_cwd s in
      let (s1, r) := loop items s in
      match chdir start s1 with (s2, Ok _) => (s2, r) | (s2, Err e) => (s2, Err e) end
  end.
(** build_directory(dct, force, topdir) *)
Definition build_directory (dct : value) (force : flag) (topdir : path) (s : state) : state * res unit :=
  build force dct (resolve (s_cwd s) topdir) s.

(** What a nested dictionary of texts describes: a list of places, each a directory or a
    file with its content, in the order of the dictionary; and the file system after the
    places have been filled. *)
From Verif Require Import Base BdirModel.
Local Open Scope list_scope.

(** the directories strictly between a directory and a place below it *)
Fixpoint above (d : path) (p : path) : list (path * option string) :=
  match p with
  | [] | [_] => []
  | c :: r => (d ++ [c], None) :: above (d ++ [c]) r
  end.
(** the places of a dictionary: None for a directory, Some t for a file *)
Fixpoint places (d : path) (v : value) : list (path * option string) :=
  match v with
  | VText t => [(d, Some t)]
  | VDict items => (d, None) :: flat_map (fun kx => above d (k_parts (fst kx)) ++ places (d ++ k_parts (fst kx)) (snd kx)) items
  end.
(** the places in a dictionary, without that of the dictionary itself *)
Definition contents (d : path) (v : value) : list (path * option string) := tl (places d v).
Definition made (o : option string) : entry := match o with Some t => EFile t | None => EDir end.
Fixpoint first_of (p : path) (m : list (path * option string)) : option (option string) :=
  match m with [] => None | (q, o) :: m' => if peqb p q then Some o else first_of p m' end.
Definition last_of (p : path) (m : list (path * option string)) : option (option string) := first_of p (rev m).
(** without force what is there stays and the first mention of a place counts; with force
    the last text of a file counts *)
Definition filled (force : bool) (f : fsys) (m : list (path * option string)) (p : path) : option entry :=
  match f p with
  | Some EDir => Some EDir
  | Some (EFile t) => if force then match last_of p m with Some (Some t') => Some (EFile t') | _ => Some (EFile t) end else Some (EFile t)
  | None => option_map made (if force then last_of p m else first_of p m)
  end.
(** names of one level, as a dictionary has them *)
Definition plain_name (c : string) : Prop := c <> ".."%string /\ c <> "."%string /\ c <> ""%string.
Inductive plain_dict : value -> Prop :=
| plain_text : forall t, plain_dict (VText t)
| plain_items : forall items,
    (forall k x, In (k, x) items -> k_parts k <> [] /\ Forall plain_name (k_parts k) /\ plain_dict x) -> plain_dict (VDict items).
Inductive relative_dict : value -> Prop :=
| rel_text : forall t, relative_dict (VText t)
| rel_items : forall items, (forall k x, In (k, x) items -> k_abs k = false /\ relative_dict x) -> relative_dict (VDict items).
(** a file system: what is above something is a directory *)
Definition sound (f : fsys) : Prop := forall p c, f (p ++ [c]) <> None -> f p = Some EDir.
(** no place is asked to be both a file and a directory *)
Definition compatible (f : fsys) (m : list (path * option string)) : Prop :=
  forall p o, In (p, o) m ->
    (o = None -> (f p = None \/ f p = Some EDir) /\ forall t, ~ In (p, Some t) m) /\
    (o <> None -> f p <> Some EDir).

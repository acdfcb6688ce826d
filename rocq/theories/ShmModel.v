(** Model of the memory of the derivative vectors: System._get_shared_vec_info
    (openmdao/core/system.py 1212-1247), its use in Group._setup_vectors (core/group.py
    440-470) and _create_vecs (565-592) and System._create_views (core/system.py
    1071-1076), and the layout of a vector in SrcVecWrapper.setup (core/vec_wrapper.py
    809-852) and TgtVecWrapper.setup / _setup_var_meta (1078-1128, 1155-1200).
    Simplifications: one process (remote variables may still be marked); values are not
    modelled, only which cells of the shared array a variable gets; views of a parent's
    entries (params that are not owned) use no memory of their own and are left out. *)
From Verif Require Import Base.
Local Open Scope nat_scope.

(** metadata of a variable: its path, top promoted name, size, pass_by_obj, remote, and
    whether it has src_indices *)
Record vmeta := mkV { v_path : string; v_top : string; v_size : nat; v_pbo : bool; v_remote : bool; v_idx : bool }.
(** the source of a param: its size, whether it is passed by object, has src_indices *)
Record source := mkC { c_size : nat; c_pbo : bool; c_idx : bool }.
(** relevance.relevant without its entry for None, which has every name (relevance.py
    46-49) *)
Definition relevance := list (string * list string).
Definition elem (n : string) (l : list string) : bool := existsb (String.eqb n) l.
(** Relevance.is_relevant, relevance.py 79-82 *)
Definition is_relevant (rel : relevance) (voi : option string) (name : string) : bool :=
  match voi with
  | None => true
  | Some v => match sget rel v with Some names => elem name names | None => true end
  end.

(** lines 1217-1224: [my] is None for the unknowns *)
Definition metas_of (my : option (list string)) (vdict : list vmeta) : list vmeta :=
  match my with
  | None => filter (fun m => negb (v_pbo m)) vdict
  | Some l => filter (fun m => elem (v_path m) l && negb (v_pbo m)) vdict
  end.
(** lines 1237-1242 *)
Fixpoint one_group (rel : relevance) (metas : list vmeta) (vois : list string) (vec_size : nat) (offsets : list (string * nat)) : res (nat * list (string * nat)) :=
  match vois with
  | [] => Ok (vec_size, offsets)
  | voi :: r =>
      let offsets := sset offsets voi vec_size in
      match sget rel voi with
      | None => Err KeyError
      | Some rel_voi => one_group rel metas r (vec_size + list_sum (map v_size (filter (fun m => elem (v_top m) rel_voi) metas))) offsets
      end
  end.
(** lines 1235-1245 *)
Fixpoint all_groups (rel : relevance) (metas : list vmeta) (groups : list (list string)) (max_size : nat) (offsets : list (string * nat)) : res (nat * list (string * nat)) :=
  match groups with
  | [] => Ok (max_size, offsets)
  | vois :: r =>
      let! (vec_size, offsets) := one_group rel metas vois 0 offsets in
      all_groups rel metas r (if Nat.ltb max_size vec_size then vec_size else max_size) offsets
  end.
Definition shared_info (top_lin_gs : bool) (rel : relevance) (groups : list (list string)) (my : option (list string)) (vdict : list vmeta) : res (nat * list (string * nat)) :=
  let metas := metas_of my vdict in
  let full_size := list_sum (map v_size metas) in
  if negb top_lin_gs then Ok (full_size, []) else all_groups rel metas groups full_size [].
(** offsets[voi]; offsets[None] is 0 (line 1228) *)
Definition offset (offsets : list (string * nat)) (voi : option string) : res nat :=
  match voi with None => Ok 0 | Some v => match sget offsets v with Some o => Ok o | None => Err KeyError end end.

(** SrcVecWrapper.setup, lines 814-827: the slices and the size of the vector *)
Fixpoint src_setup (rel : relevance) (voi : option string) (vec_size : nat) (udict : list vmeta) : list (string * (nat * nat)) * nat :=
  match udict with
  | [] => ([], vec_size)
  | m :: r =>
      if is_relevant rel voi (v_top m) && (negb (v_pbo m) && negb (v_remote m)) then
        let (dat, n) := src_setup rel voi (vec_size + v_size m) r in ((v_path m, (vec_size, vec_size + v_size m)) :: dat, n)
      else src_setup rel voi vec_size r
  end.
(** _setup_var_meta, lines 1177-1200: the metadata is changed in place *)
Definition setup_var_meta (m : vmeta) (c : source) (index : nat) : vmeta * option (nat * nat) :=
  let size := if negb (v_idx m) && negb (c_idx c) then c_size c else v_size m in
  if c_pbo c then (mkV (v_path m) (v_top m) size true (v_remote m) (v_idx m), None)
  else (mkV (v_path m) (v_top m) size (v_pbo m) (v_remote m) (v_idx m), if v_remote m then None else Some (index, index + size)).
(** TgtVecWrapper.setup, lines 1084-1110; an accessor of a variable passed by object has
    no slice (lines 84-87).  Gives the changed metadata, the slices and the size. *)
Fixpoint tgt_setup (rel : relevance) (conns : string -> option source) (my : list string) (voi : option string) (vec_size : nat) (pdict : list vmeta)
  : res (list vmeta * list (string * (nat * nat)) * nat) :=
  match pdict with
  | [] => Ok ([], [], vec_size)
  | m :: r =>
      if is_relevant rel voi (v_top m) && elem (v_path m) my then
        match conns (v_path m) with
        | None => Err RuntimeError
        | Some c =>
            let (m', slc) := setup_var_meta m c vec_size in
            let! (x, n) := tgt_setup rel conns my voi (if v_remote m' then vec_size else vec_size + v_size m') r in
            let (metas, dat) := x in
            Ok (m' :: metas, match slc with Some s => if v_pbo m' then dat else (v_path m, s) :: dat | None => dat end, n)
        end
      else
        let! (x, n) := tgt_setup rel conns my voi vec_size r in
        let (metas, dat) := x in Ok (m :: metas, dat, n)
  end.
(** vec = shared_vec[off:][:vec_size] and vec[start:end], of a shared array with [size]
    cells: numpy cuts a slice at the end of the array without an error.  First cell and
    number of cells. *)
Definition region (size off vec_size : nat) (slc : nat * nat) : nat * nat :=
  let len := Nat.min vec_size (size - off) in
  let start := Nat.min (fst slc) len in
  (off + start, Nat.min (snd slc) len - start).
(** the cells of an unknown in dunknowns and dresids, group.py 450-459 and 576-584 *)
Definition du_region (alloc top_lin_gs : bool) (rel : relevance) (groups : list (list string)) (udict : list vmeta) (voi : option string) (path : string) : res (option (nat * nat)) :=
  let! (max_usize, offsets) := shared_info top_lin_gs rel groups None udict in
  let! off := offset offsets voi in
  let (dat, n) := src_setup rel voi 0 udict in
  Ok (option_map (region (if alloc then max_usize else 0) off n) (sget dat path)).
Definition du_size (top_lin_gs : bool) (rel : relevance) (groups : list (list string)) (udict : list vmeta) : nat :=
  match shared_info top_lin_gs rel groups None udict with Ok (n, _) => n | Err _ => 0 end.
(** the cells of an owned param in dparams, group.py 442-443, 460/470 and 585-588: the size
    of the array is found before params.setup has changed the metadata *)
Definition dp_region (alloc top_lin_gs : bool) (rel : relevance) (groups : list (list string)) (conns : string -> option source) (my : list string) (pdict : list vmeta) (voi : option string) (path : string) : res (option (nat * nat)) :=
  let! (max_psize, offsets) := shared_info top_lin_gs rel groups (Some my) pdict in
  let! (x, n) := tgt_setup rel conns my None 0 pdict in
  let (pdict, dat) := x in
  let! off := offset offsets voi in
  let! (x, n) := tgt_setup rel conns my voi 0 pdict in
  let (pdict, dat) := x in
  Ok (option_map (region (if alloc then max_psize else 0) off n) (sget dat path)).
Definition dp_size (top_lin_gs : bool) (rel : relevance) (groups : list (list string)) (my : list string) (pdict : list vmeta) : nat :=
  match shared_info top_lin_gs rel groups (Some my) pdict with Ok (n, _) => n | Err _ => 0 end.

(** reading and assigning the cells of a variable (acc.val[:] = vals) *)
Section Mem.
  Context {V : Type}.
  Definition read (buf : list V) (r : nat * nat) : list V := firstn (snd r) (skipn (fst r) buf).
  Definition assign (buf : list V) (r : nat * nat) (vals : list V) : res (list V) :=
    if Nat.eqb (length vals) (length (read buf r)) then Ok (firstn (fst r) buf ++ vals ++ skipn (fst r + length vals) buf) else Err ValueError.
End Mem.

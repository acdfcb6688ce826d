(** Model of the way from a declared variable to delivered data:
    openmdao/core/component.py (_get_initial_val, _add_variable),
    openmdao/core/problem.py (completion of the target metadata in setup),
    openmdao/core/_checks.py (check_connections),
    openmdao/core/vec_wrapper.py (TgtVecWrapper.setup, _setup_var_meta,
    _get_flattened_sizes) and openmdao/core/group.py (_get_global_idxs,
    _setup_data_transfer, _transfer_data).

    Simplifications: one process (comm.size is 1, nothing is remote); no FileRef
    values; variables are named by their absolute path everywhere (the code uses
    the promoted name in the unknowns vector and the path relative to the system
    in the params vector, both of them one to one); messages are dropped.  Of a
    value only what setup looks at is kept: its type, whether it is
    differentiable, its shape. *)
From Verif Require Import Base TransferModel PathModel.
Local Open Scope string_scope.
Local Open Scope nat_scope.
Local Open Scope list_scope.

(** a value of a variable; is_differentiable, util/type_util.py 27-46, holds
    for floats and arrays of float or complex entries *)
Inductive wval : Type :=
| VReal (type : string)                      (* float, numpy.float64, ... *)
| VArr (diff : bool) (shape : list nat)      (* numpy.ndarray *)
| VOther (type : string).                    (* int, str, list, ... *)

(** type(val) *)
Definition type_of (v : wval) : string :=
  match v with VReal t => t | VArr _ _ => "ndarray" | VOther t => t end.

Definition is_differentiable (v : wval) : bool :=
  match v with VReal _ => true | VArr d _ => d | VOther _ => false end.

(** the 'shape' metadata: an int or a tuple; 1 and (1,) are different *)
Inductive wshape : Type := SInt (n : nat) | STup (l : list nat).

Fixpoint nats_eqb (a b : list nat) : bool :=
  match a, b with
  | [], [] => true
  | x :: a', y :: b' => Nat.eqb x y && nats_eqb a' b'
  | _, _ => false
  end.
Definition shape_eqb (a b : wshape) : bool :=
  match a, b with
  | SInt x, SInt y => Nat.eqb x y
  | STup x, STup y => nats_eqb x y
  | _, _ => false
  end.

(** number of entries of an array of the given shape *)
Definition prod (l : list nat) : nat := fold_right Nat.mul 1 l.

(** the metadata of a variable; [m_pbo] is the 'pass_by_obj' key (absent, or
    present with a value), [m_idx] the 'src_indices' key *)
Record meta : Type := mkMeta {
  m_val : wval; m_shape : option wshape; m_size : nat; m_pbo : option bool; m_idx : option (list Z) }.

(** meta.get('pass_by_obj') as a truth value *)
Definition truthy (o : option bool) : bool := match o with Some true => true | _ => false end.

(** _get_initial_val, component.py 90-97; None is _NotSet.  np.zeros(None) has
    the shape () *)
Definition get_initial_val (val : option wval) (shape : option wshape) : wval :=
  match val with
  | Some v => v
  | None => match shape with
            | None => VArr true []
            | Some (SInt n) => if Nat.eqb n 1 then VReal "float" else VArr true [n]
            | Some (STup l) => VArr true l
            end
  end.

(** _add_variable, component.py 108-172, after the name and unit checks *)
Definition add_variable (val : option wval) (shape : option wshape) (pbo : option bool)
    (idx : option (list Z)) : meta :=
  let v := get_initial_val val shape in
  let m := if (is_differentiable v && negb (truthy pbo))%bool
           then match v with
                | VArr _ s => mkMeta v (Some (STup s)) (prod s) pbo idx
                | _ => mkMeta v (Some (SInt 1)) 1 pbo idx
                end
           else mkMeta v shape 0 (Some true) idx in
  match shape with
  | Some (SInt n) => if Nat.ltb 1 n then mkMeta (m_val m) (Some (STup [n])) (m_size m) (m_pbo m) (m_idx m) else m
  | _ => m
  end.

(** smeta['val'][np.array(idxs)]: rows of the first axis *)
Definition index_val (v : wval) (idxs : list Z) : res wval :=
  match v with
  | VArr d (n :: rest) => let! _ := norm_all (Z.of_nat n) idxs in Ok (VArr d (length idxs :: rest))
  | VArr _ [] => Err IndexError
  | _ => Err TypeError
  end.

(** problem.py 501-531: the target takes its size from the connection when it
    was declared without one, and the indices of the connection are stored *)
Definition complete (t s : meta) (idxs : option (list Z)) : res meta :=
  if truthy (m_pbo t) then Ok t
  else
    match m_shape t with
    | None => Err KeyError
    | Some ts =>
        let! t1 :=
          if shape_eqb ts (STup []) then
            match idxs with
            | Some l => let! v := index_val (m_val s) l in
                        Ok (mkMeta v (Some (STup [length l])) (length l) (m_pbo t) (m_idx t))
            | None => match m_shape s with
                      | None => Err KeyError
                      | Some ss => Ok (mkMeta (m_val s) (Some ss) (m_size s) (m_pbo t) (m_idx t))
                      end
            end
          else Ok t in
        Ok (match idxs with
            | Some l => mkMeta (m_val t1) (m_shape t1) (m_size t1) (m_pbo t1) (Some l)
            | None => t1
            end)
    end.

(** ** _checks.py *)

(** the messages that end up in _setup_errors *)
Inductive cerr : Type := ESize | EDistrib | EShape | EBound | ENegative.

(** _check_types_match, 77-99, without FileRefs *)
Definition check_types (s t : meta) : res unit :=
  if String.eqb (type_of (m_val s)) (type_of (m_val t)) then Ok tt
  else match m_idx t with
       | Some l => if (Nat.eqb (length l) 1 && String.eqb (type_of (m_val t)) "float")%bool then Ok tt
                   else Err TypeError
       | None => Err TypeError
       end.

(** max(l), min(l): ValueError when there is nothing *)
Definition pymax (l : list Z) : res Z :=
  match l with [] => Err ValueError | a :: r => Ok (fold_left Z.max r a) end.
Definition pymin (l : list Z) : res Z :=
  match l with [] => Err ValueError | a :: r => Ok (fold_left Z.min r a) end.

(** __check_shapes_match, 110-160.  The 'distrib_size' of a source with
    src_indices is set under MPI only: KeyError here. *)
Definition check_shapes2 (s t : meta) (ss ts : wshape) : res (list cerr) :=
  let! e1 := if shape_eqb ss ts then Ok []
             else match m_idx t, m_idx s with
                  | Some l, _ => Ok (if Nat.eqb (length l) (m_size t) then [] else [ESize])
                  | None, Some _ => Err KeyError
                  | None, None => Ok [EShape]
                  end in
  match m_idx t with
  | None => Ok e1
  | Some l =>
      match m_idx s with
      | Some _ => Err KeyError
      | None =>
          let! mx := pymax l in
          let e2 := if (Z.of_nat (m_size s) <=? mx)%Z then [EBound] else [] in
          let! mn := pymin l in
          let e3 := if (mn <? 0)%Z then [ENegative] else [] in
          Ok (e1 ++ e2 ++ e3)
      end
  end.

(** __check_val_and_shape_match, 162-169; building the message fails with a
    NameError *)
Definition check_val_shape (s : meta) (ts : wshape) : res (list cerr) :=
  match m_val s with
  | VArr _ l => if shape_eqb (STup l) ts then Ok [] else Err NameError
  | _ => Err AttributeError
  end.

(** _check_shapes_match, 101-108 *)
Definition check_shapes (s t : meta) : res (list cerr) :=
  match m_shape s, m_shape t with
  | Some ss, Some ts => check_shapes2 s t ss ts
  | None, Some ts => check_val_shape s ts
  | _, None => Ok []
  end.

(** the first loop of check_connections, 31-36; both conditions of the code
    look at the source *)
Definition check_connection (s t : meta) : res (list cerr) :=
  let! _ := check_types s t in
  match m_pbo s with
  | Some _ => Ok []
  | None => check_shapes s t
  end.

(** a connection of the connections dictionary: target, source; the indices are
    in the metadata of the target by now *)
Definition conn : Type := (string * string)%type.

Fixpoint check_connections (conns : list conn) (params unknowns : list (string * meta)) : res (list cerr) :=
  match conns with
  | [] => Ok []
  | (tgt, src) :: rest =>
      match sget params tgt, sget unknowns src with
      | Some t, Some s => let! e := check_connection s t in
                          let! es := check_connections rest params unknowns in Ok (e ++ es)
      | _, _ => Err KeyError
      end
  end.

(** ** storage of the parameters that a group owns *)

(** Accessor: the slice is None for pass_by_obj variables, vec_wrapper.py 80-88 *)
Record tacc : Type := mkT { t_meta : meta; t_slice : option (nat * nat) }.

Definition t_pbo (a : tacc) : bool := truthy (m_pbo (t_meta a)).

(** _setup_var_meta, vec_wrapper.py 1147-1189, and the Accessor made from it *)
Definition setup_var (t s : meta) (index : nat) : tacc :=
  let size := match m_idx t, m_idx s with None, None => m_size s | _, _ => m_size t end in
  let pbo := if truthy (m_pbo s) then Some true else m_pbo t in
  mkT (mkMeta (m_val t) (m_shape t) size pbo (m_idx t))
      (if truthy pbo then None else Some (index, index + size)).

(** TgtVecWrapper.setup, vec_wrapper.py 1074-1103: the loop over params_dict.
    [rel] tells the relevant variables, [mine] is my_params. *)
Fixpoint tgt_layout (rel mine : string -> bool) (conns : list conn) (unknowns : list (string * meta))
    (vec_size : nat) (params : list (string * meta)) : res (list (string * tacc) * nat) :=
  match params with
  | [] => Ok ([], vec_size)
  | (p, t) :: rest =>
      if (rel p && mine p)%bool then
        match sget conns p with
        | None => Err RuntimeError
        | Some src =>
            match sget unknowns src with
            | None => Err KeyError
            | Some s =>
                let a := setup_var t s vec_size in
                let! (d, n) := tgt_layout rel mine conns unknowns (vec_size + m_size (t_meta a)) rest in
                Ok ((p, a) :: d, n)
            end
        end
      else tgt_layout rel mine conns unknowns vec_size rest
  end.

(** _get_flattened_sizes, vec_wrapper.py 858-869 and 1223-1232: names and sizes
    of the variables in the vector *)
Definition u_sizes (rel : string -> bool) (unknowns : list (string * meta)) : list (string * nat) :=
  map (fun x => (fst x, m_size (snd x)))
    (filter (fun x => (rel (fst x) && negb (truthy (m_pbo (snd x))))%bool) unknowns).
Definition p_sizes (dat : list (string * tacc)) : list (string * nat) :=
  map (fun x => (fst x, m_size (t_meta (snd x)))) (filter (fun x => negb (t_pbo (snd x))) dat).

(** np.sum(sizes[0, :ivar]) where ivar is the index of the variable; KeyError
    when it is not in the table *)
Fixpoint offset_of (sizes : list (string * nat)) (name : string) : res nat :=
  match sizes with
  | [] => Err KeyError
  | (n, k) :: rest => if String.eqb name n then Ok 0 else let! o := offset_of rest name in Ok (k + o)
  end.

(** arange(0, n) *)
Definition iota (n : nat) : list Z := map Z.of_nat (seq 0 n).

(** new_indices of group.py 1435-1455 for one process: entries outside the
    source variable stay as np.empty left them, [junk] *)
Fixpoint place (junk : nat -> Z) (k : nat) (size : nat) (offset : nat) (idxs : list Z) : list Z :=
  match idxs with
  | [] => []
  | i :: rest => (if ((0 <=? i) && (i <? Z.of_nat size))%Z then (i + Z.of_nat offset)%Z else junk k)
                 :: place junk (S k) size offset rest
  end.

(** _get_global_idxs, group.py 1364-1466, one process *)
Definition global_idxs (junk : nat -> Z) (us ps : list (string * nat)) (uname pname : string) (s t : meta)
  : res (list Z * list Z) :=
  let arg_idxs := match m_idx t with Some l => l | None => iota (m_size t) end in
  let! uoff := offset_of us uname in
  let src_idxs :=
    match m_idx s, m_idx t with
    | None, None => map (fun i => (i + Z.of_nat uoff)%Z) arg_idxs
    | _, _ => place junk 0 (match sget us uname with Some k => k | None => 0 end) uoff arg_idxs
    end in
  let! poff := offset_of ps pname in
  Ok (src_idxs, map (fun i => (i + Z.of_nat poff)%Z) (iota (length arg_idxs))).

(** an entry of xfer_dict: index lists, vec_conns (dropped: names only) and
    byobj_conns *)
Record xfer : Type := mkX { x_src : list (list Z); x_tgt : list (list Z); x_byobj : list (string * string) }.

Definition key_eqb (a b : string * bool) : bool := (String.eqb (fst a) (fst b) && Bool.eqb (snd a) (snd b))%bool.
Definition xget := @dget (string * bool) xfer key_eqb.
Definition xset := @dset (string * bool) xfer key_eqb.

(** the body of the inner loop, group.py 1557-1574; [fwd] is the mode *)
Definition xfer_step (junk : nat -> Z) (us ps : list (string * nat)) (unk par : string) (s t : meta)
    (xd : list ((string * bool) * xfer)) (sname : string) (fwd : bool) : res (list ((string * bool) * xfer)) :=
  let x := match xget xd (sname, fwd) with Some x => x | None => mkX [] [] [] end in
  if truthy (m_pbo s) then
    Ok (xset xd (sname, fwd) (if fwd then mkX (x_src x) (x_tgt x) (x_byobj x ++ [(par, unk)]) else x))
  else
    let! (si, di) := global_idxs junk us ps unk par s t in
    Ok (xset xd (sname, fwd) (mkX (x_src x ++ [si]) (x_tgt x ++ [di]) (x_byobj x))).

(** the loop over the connections, group.py 1534-1574 *)
Fixpoint xfer_loop (path : string) (junk : nat -> Z) (rel mine : string -> bool) (us ps : list (string * nat))
    (unknowns : list (string * meta)) (dat : list (string * tacc)) (conns : list conn)
    (xd : list ((string * bool) * xfer)) : res (list ((string * bool) * xfer)) :=
  match conns with
  | [] => Ok xd
  | (par, unk) :: rest =>
      if (mine par && (rel unk && rel par))%bool then
        match sget unknowns unk, sget dat par with
        | Some s, Some a =>
            let! xd1 := xfer_step junk us ps unk par s (t_meta a) xd (nearest_child path par) true in
            let! xd2 := xfer_step junk us ps unk par s (t_meta a) xd1 (nearest_child path unk) false in
            xfer_loop path junk rel mine us ps unknowns dat rest xd2
        | _, _ => Err KeyError
        end
      else xfer_loop path junk rel mine us ps unknowns dat rest xd
  end.

(** the full transfer of one mode, group.py 1589-1605 *)
Fixpoint full_xfer (fwd : bool) (xd : list ((string * bool) * xfer)) : xfer :=
  match xd with
  | [] => mkX [] [] []
  | ((_, m), x) :: rest =>
      let f := full_xfer fwd rest in
      if Bool.eqb m fwd then mkX (x_src x ++ x_src f) (x_tgt x ++ x_tgt f) (x_byobj x ++ x_byobj f) else f
  end.

(** a group after _setup_vectors: its parameters and transfers *)
Record wired : Type := mkWired {
  g_dat : list (string * tacc); g_psize : nat; g_xfer : list ((string * bool) * xfer) }.

(** the part of _setup_vectors (group.py 440-479) modelled here: params.setup
    and _setup_data_transfer *)
Definition setup_group (path : string) (junk : nat -> Z) (rel mine : string -> bool) (conns : list conn)
    (params unknowns : list (string * meta)) : res wired :=
  let! (dat, n) := tgt_layout rel mine conns unknowns 0 params in
  let! xd := xfer_loop path junk rel mine (u_sizes rel unknowns) (p_sizes dat) unknowns dat conns [] in
  Ok (mkWired dat n xd).

(** _transfer_data, group.py 1607-1635, forward: target_sys is '' for all.  A
    missing entry of _data_xfer is skipped. *)
Definition select_xfer (w : wired) (fwd : bool) (target_sys : string) : option xfer :=
  if String.eqb target_sys "" then Some (full_xfer fwd (g_xfer w)) else xget (g_xfer w) (target_sys, fwd).

Definition transfer_data {A} (w : wired) (target_sys : string) (uvec pvec : list A) : res (list A) :=
  match select_xfer w true target_sys with
  | None => Ok pvec
  | Some x => let! sc := make_scatters true (x_src x) (x_tgt x) in transfer_fwd sc uvec pvec
  end.

(** reading a variable of the vector: its slice *)
Definition slice_val {A} (v : list A) (s : nat * nat) : list A := firstn (snd s - fst s) (skipn (fst s) v).

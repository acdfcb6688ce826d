(** Specifications for connection checks, parameter storage and delivery. *)
From Verif Require Import Base VecModel WireModel.
Local Open Scope string_scope.
Local Open Scope nat_scope.
Local Open Scope list_scope.

(** ** declarations *)

(** the entries announced by a shape *)
Definition shape_count (s : wshape) : nat :=
  match s with SInt n => n | STup l => fold_right Nat.mul 1 l end.

(** the shape keyword, when given with a value, is the shape of that value *)
Definition shape_keyword_fits (val : option wval) (shape : option wshape) : Prop :=
  match val, shape with
  | Some (VArr _ l), Some (SInt n) => n <= 1 \/ l = [n]
  | Some _, Some (SInt n) => n <= 1
  | _, _ => True
  end.

(** metadata of a variable stored in a vector: the size is that of the shape *)
Definition vector_meta (m : meta) : Prop :=
  truthy (m_pbo m) = false /\ exists s, m_shape m = Some s /\ m_size m = shape_count s.
(** metadata of a variable passed as an object *)
Definition object_meta (m : meta) : Prop :=
  m_pbo m = Some true /\ m_size m = 0.

(** ** connections *)

Definition idx_ok (n : nat) (i : Z) : Prop := (0 <= i < Z.of_nat n)%Z.

(** the types of the two ends agree, or one entry goes to a float *)
Definition types_agree (s t : meta) : Prop :=
  type_of (m_val s) = type_of (m_val t) \/
  (exists i, m_idx t = Some [i]) /\ type_of (m_val t) = "float".

(** what a connection between two vector variables must be: the shapes agree,
    or the indices select as many entries of the source as the target has *)
Definition compatible (s t : meta) : Prop :=
  types_agree s t /\
  match m_idx t with
  | None => m_shape s = m_shape t
  | Some l => l <> [] /\ Forall (idx_ok (m_size s)) l /\ length l = m_size t
  end.

(** ** storage *)

(** the slices of a vector follow each other without gaps *)
Fixpoint packed (start : nat) (dat : list (string * acc)) : Prop :=
  match dat with
  | [] => True
  | (_, x) :: rest => match a_slice x with
                      | None => packed start rest
                      | Some (a, b) => a = start /\ b = start + a_size x /\ packed b rest
                      end
  end.
Fixpoint total (start : nat) (dat : list (string * acc)) : nat :=
  match dat with
  | [] => start
  | (_, x) :: rest => match a_slice x with None => total start rest | Some (_, b) => total b rest end
  end.

(** the vector [udat] stores the relevant variables of [unknowns] in order *)
Definition stores (rel : string -> bool) (unknowns : list (string * meta)) (udat : list (string * acc)) : Prop :=
  Forall2 (fun u x => fst u = fst x /\ a_size (snd x) = m_size (snd u) /\
                      (a_slice (snd x) = None <-> truthy (m_pbo (snd u)) = true))
    (filter (fun u => rel (fst u)) unknowns) udat.

(** ** delivery *)

(** the target has the entries of the source that the indices name *)
Definition delivered {A} (idxs : option (list Z)) (src tgt : list A) : Prop :=
  match idxs with
  | None => tgt = src
  | Some l => length tgt = length l /\
              forall k i, nth_error l k = Some i ->
                (0 <= i)%Z /\ exists x, nth_error src (Z.to_nat i) = Some x /\ nth_error tgt k = Some x
  end.

(** a connection that can be carried out: by object without indices, or by
    vector with at least one entry and as many indices as the target has
    entries *)
Definition by_object (s t : meta) : Prop :=
  m_pbo s = Some true /\ m_size s = 0 /\ m_idx s = None /\ m_idx t = None.
Definition by_vector (s t : meta) : Prop :=
  truthy (m_pbo s) = false /\ truthy (m_pbo t) = false /\ m_idx s = None /\
  match m_idx t with
  | None => 0 < m_size s
  | Some l => l <> [] /\ length l = m_size t /\ Forall (idx_ok (m_size s)) l
  end.

(** the connections of a group: dictionaries without repeated keys; every owned
    relevant parameter has a source, and the connection can be carried out *)
Definition legal_group (rel mine : string -> bool) (conns : list conn)
    (params unknowns : list (string * meta)) : Prop :=
  NoDup (map fst conns) /\ NoDup (map fst params) /\ NoDup (map fst unknowns) /\
  (forall p, mine p = true -> In p (map fst conns) -> In p (map fst params)) /\
  (forall p t, In (p, t) params -> mine p = true -> rel p = true ->
     exists src s, In (p, src) conns /\ In (src, s) unknowns /\ (by_object s t \/ by_vector s t)).

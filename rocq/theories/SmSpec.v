(** Specification for C104: the metadata of a connected param, from what its
    component declares, its source and the connection. *)
From Verif Require Import Base UnitsModel UnitsSpec SmModel.
Local Open Scope string_scope.

(** nothing is left from an earlier setup *)
Definition fresh (t : pmeta) : Prop := pm_src t = None /\ pm_conv t = None.

(** the shape that a param should have *)
Definition right_shape (t : pmeta) (u : umeta) (idxs : option (list nat)) : shape :=
  if pm_pbo t then pm_shape t else
  match pm_shape t, idxs with
  | ShEmpty, Some l => ShTuple (length l) []
  | ShEmpty, None => um_shape u
  | s, _ => s
  end.

(** a param as read by its component: entry by entry the same physical
    quantity as the source *)
Definition reads_source (find_unit : string -> res punit) (t : pmeta) (u : umeta) (read : Q -> Q) : Prop :=
  match pm_units t, um_units u with
  | Some tu, Some su =>
      forall v w x, find_unit tu = Ok v -> find_unit su = Ok w -> scaled v -> scaled w -> same_dim w v ->
        (to_base v (read x) == to_base w x)%Q
  | _, _ => forall x, read x = x
  end.

(** source and target have units of different dimensions *)
Definition incompatible (find_unit : string -> res punit) (t : pmeta) (u : umeta) : Prop :=
  exists tu su v w, pm_units t = Some tu /\ um_units u = Some su /\
    find_unit tu = Ok v /\ find_unit su = Ok w /\ ~ same_dim w v.

(** the unit string is known and its unit has a scale *)
Definition known (find_unit : string -> res punit) (o : option string) : Prop :=
  match o with
  | Some s => exists v, find_unit s = Ok v /\ scaled v
  | None => True
  end.

(** a connection that setup can process: both ends exist, their units are
    known, and a param without a shape takes entries that the source has *)
Definition sound (find_unit : string -> res punit) (us : list (string * umeta)) (ps : list (string * pmeta))
    (c : string * (string * option (list nat))) : Prop :=
  exists t u, sget ps (fst c) = Some t /\ sget us (fst (snd c)) = Some u /\
    known find_unit (pm_units t) /\ known find_unit (um_units u) /\
    (pm_pbo t = false -> pm_shape t = ShEmpty ->
     match snd (snd c) with
     | None => True
     | Some l => exists n rest, um_shape u = ShTuple n rest /\ Forall (fun i => (i < n)%nat) l
     end).

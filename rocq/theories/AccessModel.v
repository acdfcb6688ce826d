(** Reading and setting a variable by its name at the top: Problem.__getitem__,
    Problem.__setitem__.
    /repo/openmdao/core/problem.py 54-87 (_get_root_var, _set_root_var), 152-178,
    /repo/openmdao/core/system.py 245-271 (_rec_get_param, _rec_set_param),
    /repo/openmdao/core/vec_wrapper.py 29-330 (the accessors: _get_pbo, _set_pbo,
    _get_arr, _set_arr), 1202-1221 (_add_unconnected_var: an unconnected param is
    passed by object), /repo/openmdao/core/problem.py 2461-2470 (_assign_parameters:
    a connection belongs to the common ancestor of its ends).

    A name is the list of its parts.  The names and connections are those of
    NameModel.v and ConnModel.v.  A value given by the caller is an object of a heap;
    a variable stored in a vector holds a copy, an unconnected param holds the object
    itself.  Unknowns passed by object, unit conversion and src_indices of a connected
    param are not modelled (the value read is the value in the params vector). *)
From Verif Require Import Base OrderModel PathModel NameModel ConnModel.
Local Open Scope nat_scope.

Section Access.
  Variable V : Type.

  (** where a param is kept: a slice of a vector, or a reference to an object *)
  Inductive cell := Stored (v : V) | Object (l : nat).
  Record world := mkW {
    uvec : path -> V;       (** root.unknowns, by promoted name *)
    pcell : path -> cell;   (** the params of the components, by absolute name *)
    heap : nat -> V         (** the objects of the caller *)
  }.

  Variable d : data.       (** root._sysdata *)
  Variable r : result.     (** the connections and root._probdata.dangling *)

  Definition content (w : world) (c : cell) : V := match c with Stored v => v | Object l => heap w l end.
  (** [name in root.params]: a connected param whose common ancestor with its source
      is the root *)
  Definition root_param (name : path) : bool :=
    match pget (connections r) name with
    | Some (src, _) => match src, name with a :: _, b :: _ => negb (String.eqb a b) | _, _ => true end
    | None => false
    end.
  (** lines 54-69; _rec_get_param ends at the component that has the param *)
  Definition get (w : world) (name : path) : res V :=
    match pget (abs_u d) name with
    | Some _ => Ok (uvec w name)
    | None =>
        if root_param name then Ok (content w (pcell w name))
        else match pget (abs_p d) name with
             | Some (p :: _) => Ok (content w (pcell w p))
             | Some [] => Err IndexError
             | None => match pget (dangling_of r) name with
                       | Some _ => Err TypeError   (** a set has no item 0 *)
                       | None => Err KeyError
                       end
             end
    end.
  (** Accessor.set: _set_arr copies, _set_pbo keeps the object *)
  Definition assign (w : world) (c : cell) (l : nat) : cell :=
    match c with Stored _ => Stored (heap w l) | Object _ => Object l end.
  Definition set_cell (w : world) (l : nat) (p : path) : world :=
    mkW (uvec w) (fun q => if peqb q p then assign w (pcell w q) l else pcell w q) (heap w).
  (** lines 71-87; l is the object given as value *)
  Definition set (w : world) (name : path) (l : nat) : res world :=
    match pget (abs_u d) name with
    | Some _ => Ok (mkW (fun n => if peqb n name then heap w l else uvec w n) (pcell w) (heap w))
    | None => match pget (dangling_of r) name with
              | Some ps => Ok (fold_left (fun w p => set_cell w l p) ps w)
              | None => Err KeyError
              end
    end.
  (** the caller changes the object in place *)
  Definition mutate (w : world) (l : nat) (v : V) : world :=
    mkW (uvec w) (pcell w) (fun k => if Nat.eqb k l then v else heap w k).
End Access.
Arguments Stored {V}. Arguments Object {V}.
Arguments mkW {V}. Arguments uvec {V}. Arguments pcell {V}. Arguments heap {V}.
Arguments content {V}. Arguments get {V}. Arguments set {V}. Arguments set_cell {V}. Arguments assign {V}. Arguments mutate {V}.

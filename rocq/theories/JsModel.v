(** Model of the Jacobians returned by components: openmdao/core/component.py alloc_jacobian
    (lines 951-992), openmdao/core/system.py _sys_linearize (lines 946-959, the result of
    linearize with type 'user') and _apply_linear_jac (961-1021, the model of C28, LinModel.v).
    An array is its shape and its entries by multi-index.  Numbers are the elements of a type.
    Dictionaries are lists of items.  Not modelled: complex numbers and values that are neither
    numbers nor arrays. *)
From Verif Require Import Base LinModel.
Local Open Scope nat_scope.

Section Js.
  Context {F : Type} (F0 : F).
  (** a value of the dictionary *)
  Inductive jval := Num (x : F) | Arr (shape : list nat) (at_ : list nat -> F).
  Definition jdict := list (string * string * jval).

  (** lines 951-956: one item *)
  Definition normalise (v : jval) : res jval :=
    let (shape, at_) := match v with Num x => ([1; 1], fun _ => x) | Arr s a => (s, a) end in
    match shape with
    | [] => Err IndexError
    | [n] => Ok (Arr [n; 1] (fun i => at_ (firstn 1 i)))
    | _ => Ok (Arr shape at_)
    end.
  (** lines 949-956 *)
  Fixpoint normalise_all (d : jdict) : res jdict :=
    match d with
    | [] => Ok []
    | (k, v) :: r => let! v := normalise v in let! r := normalise_all r in Ok ((k, v) :: r)
    end.

  (** ** alloc_jacobian: a variable has a name, a size, and is a state, passed by object or remote *)
  Record var := mkV { v_name : string; v_size : nat; v_state : bool; v_pbo : bool; v_remote : bool }.
  Definition local (v : var) : bool := negb (v_pbo v) && negb (v_remote v).
  Definition zeros (u p : var) : string * string * jval := (v_name u, v_name p, Arr [v_size u; v_size p] (fun _ => F0)).
  (** the attribute _jacobian_cache (None, or a dictionary) and the variables of the vectors *)
  Definition alloc_jacobian (cache : option jdict) (params unknowns : list var) : jdict :=
    match cache with
    | Some (e :: r) => e :: r
    | _ =>
        let us := filter local unknowns in
        let ss := filter v_state us in
        flat_map (fun u => map (zeros u) (filter local params) ++ map (zeros u) ss) us
    end.

  (** a block for the operators of LinModel *)
  Definition block (v : jval) : option (@mat F) :=
    match v with Arr [r; c] a => Some (mkM r c (fun i j => a [i; j])) | _ => None end.
End Js.
Arguments jval : clear implicits. Arguments jdict : clear implicits. Arguments Num {F}. Arguments Arr {F}.

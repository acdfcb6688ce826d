(** Model of what Problem.setup derives for the metadata of the connected
    params (core/problem.py): shapes, values and source indices taken from the
    connection (lines 502-530) and unit conversions (_setup_units, lines
    2345-2394).  The metadata dictionaries belong to the components and live
    on from one setup to the next: Component._setup_variables
    (core/component.py 397-404) hands out the dictionaries made by add_param.

    Simplifications: numbers are rationals; a value is the list of its
    entries, with its shape beside it; of the metadata only the keys read or
    written here are kept; source indices are natural numbers; the check of
    the connections in between (check_connections, C77) is left out; error
    messages are represented by the pair of target and source. *)
From Verif Require Import Base UnitsModel.
Local Open Scope string_scope.

(** metadata 'shape': () (numpy.zeros(None), component.py 90-97: no value was
    given), the int 1 of a float, or a tuple *)
Inductive shape : Type := ShEmpty | ShOne | ShTuple (first : nat) (rest : list nat).

(** metadata of a param; a key that is absent is None *)
Record pmeta : Type := mkP {
  pm_units : option string; pm_pbo : bool; pm_shape : shape; pm_size : nat; pm_val : list Q;
  pm_src : option (list nat); pm_conv : option (Q * Q) }.

(** metadata of an unknown *)
Record umeta : Type := mkU {
  um_units : option string; um_shape : shape; um_size : nat; um_val : list Q }.

(** connections: target, source, indices *)
Definition conns : Type := list (string * (string * option (list nat))).

Fixpoint prod (l : list nat) : nat := match l with [] => 1 | x :: l' => x * prod l' end.

(** rows i of an array with rows of length w *)
Fixpoint take_rows (w : nat) (vals : list Q) (n : nat) (idxs : list nat) : res (list Q) :=
  match idxs with
  | [] => Ok []
  | i :: rest => if (i <? n)%nat
                 then let! l := take_rows w vals n rest in Ok (firstn w (skipn (i * w) vals) ++ l)%list
                 else Err IndexError
  end.

(** smeta['val'][np.array(idxs)] (line 516): a float cannot be indexed, an
    array is indexed along its first axis *)
Definition index_val (u : umeta) (idxs : list nat) : res (list Q) :=
  match um_shape u with
  | ShEmpty => Err IndexError
  | ShOne => Err TypeError
  | ShTuple n rest => take_rows (prod rest) (um_val u) n idxs
  end.

Section Sm.
  (** _find_unit of a string (units.py) *)
  Variable find_unit : string -> res punit.

  (** the loop body of problem.py 502-530 for a param that is not passed by
      object; the source is looked up (510) only if the shape is missing *)
  Definition link_meta (us : list (string * umeta)) (t : pmeta) (src : string) (idxs : option (list nat))
      : res pmeta :=
    let! t1 :=
      match pm_shape t with
      | ShEmpty =>
          match sget us src with
          | None => Err KeyError
          | Some u =>
              match idxs with
              | Some l => let! v := index_val u l in
                          Ok (mkP (pm_units t) (pm_pbo t) (ShTuple (length l) []) (length l) v (pm_src t) (pm_conv t))
              | None => Ok (mkP (pm_units t) (pm_pbo t) (um_shape u) (um_size u) (um_val u) (pm_src t) (pm_conv t))
              end
          end
      | _ => Ok t
      end in
    Ok (match idxs with
        | Some l => mkP (pm_units t1) (pm_pbo t1) (pm_shape t1) (pm_size t1) (pm_val t1) (Some l) (pm_conv t1)
        | None => t1
        end).

  (** one turn of the loop, problem.py 502-530 *)
  Definition link_one (ps : list (string * pmeta)) (us : list (string * umeta))
      (c : string * (string * option (list nat))) : res (list (string * pmeta)) :=
    let '(tgt, (src, idxs)) := c in
    match sget ps tgt with
    | None => Err KeyError
    | Some t =>
        if pm_pbo t then Ok ps
        else let! t' := link_meta us t src idxs in Ok (sset ps tgt t')
    end.

  (** the loop, problem.py 502-530 *)
  Fixpoint link_all (ps : list (string * pmeta)) (us : list (string * umeta)) (cs : conns)
      : res (list (string * pmeta)) :=
    match cs with
    | [] => Ok ps
    | c :: rest => let! ps' := link_one ps us c in link_all ps' us rest
    end.

  (** get_conversion_tuple, units.py 859-879: the lookups *)
  Definition find_both (src tgt : string) : res (punit * punit) :=
    let! u := find_unit src in
    let! v := find_unit tgt in
    Ok (u, v).

  (** one turn of _setup_units, lines 2365-2394: the new metadata, and whether
      an error is reported.  Only a TypeError with the text "Incompatible
      units" is caught, which comes from conversion_tuple_to alone; an error of
      the lookups goes up. *)
  Definition unit_meta (t : pmeta) (u : umeta) : res (pmeta * bool) :=
    match pm_units t, um_units u with
    | Some tu, Some su =>
        let! (w, v) := find_both su tu in
        match conversion_tuple_to w v with
        | Ok (scale, offset) =>
            if (negb (Qeq_bool scale 1) || negb (Qeq_bool offset 0))%bool
            then Ok (mkP (pm_units t) (pm_pbo t) (pm_shape t) (pm_size t) (pm_val t) (pm_src t) (Some (scale, offset)), false)
            else Ok (t, false)
        | Err TypeError => Ok (t, true)
        | Err e => Err e
        end
    | _, _ => Ok (t, false)
    end.

  (** _setup_units, lines 2362-2394 *)
  Fixpoint units_all (ps : list (string * pmeta)) (us : list (string * umeta)) (cs : conns)
      : res (list (string * pmeta) * list (string * string)) :=
    match cs with
    | [] => Ok (ps, [])
    | (tgt, (src, _)) :: rest =>
        match sget ps tgt, sget us src with
        | Some t, Some u =>
            let! (t', bad) := unit_meta t u in
            let! (ps', errs) := units_all (sset ps tgt t') us rest in
            Ok (ps', if bad then (tgt, src) :: errs else errs)
        | _, _ => Err KeyError
        end
    end.

  (** both loops; the result is the metadata and the errors reported *)
  Definition setup_meta (us : list (string * umeta)) (cs : conns) (ps : list (string * pmeta))
      : res (list (string * pmeta) * list (string * string)) :=
    let! ps1 := link_all ps us cs in
    units_all ps1 us cs.
End Sm.

(** how the param is read (vec_wrapper.py 114-190, 248-300): the transferred
    value, converted if there is a conversion *)
Definition read_param (t : pmeta) (x : Q) : Q :=
  match pm_conv t with Some c => get_param_units c x | None => x end.

(** which entries of the source are transferred: the source indices of the
    metadata (group.py 1421), or all of them *)
Definition transferred (t : pmeta) (vals : list Q) : list Q :=
  match pm_src t with
  | Some l => map (fun i => nth i vals 0) l
  | None => vals
  end.

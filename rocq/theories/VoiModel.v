(** Model of the variables of interest of a driver and their groups for parallel
    derivatives: openmdao/core/driver.py add_desvar 321-368, add_objective 545-574,
    add_constraint 650-652 and 705-707, _map_voi_indices 186-199, _of_interest
    201-222, desvars_of_interest 232, outputs_of_interest 242, parallel_derivs
    254-277; openmdao/core/problem.py 588-602 and _check_for_parallel_derivs
    2251-2281.

    Bounds, and the checks of add_constraint on them (C14), are omitted; the scaler,
    the adder and the indices of a variable are those of the Driver area.  Indices
    are lists (the truth value of a numpy array with several entries is an error);
    vnames is a list or tuple.  [mpi]: the value of MPI, the same for all calls.
    Subgroups of the root: name, whether the linear solver is a LinearGaussSeidel,
    its option mode. *)
From Verif Require Import Base DriverModel.
Local Open Scope string_scope.

Record driver : Type := mkDriver {
  d_multi : bool;                            (* supports['multiple_objectives'] *)
  d_desvars : list (string * meta);
  d_objs : list (string * meta);
  d_cons : list (string * meta);
  d_sets : list (list string) }.             (* _voi_sets *)
Definition new_driver (multi : bool) : driver := mkDriver multi [] [] [] [].

Inductive call : Type :=
| AddDesvar (name : string) (m : meta)
| AddObjective (name : string) (m : meta)
| AddConstraint (name : string) (m : meta)
| ParallelDerivs (vnames : list string).

(** [if indices:] (365, 567, 705) *)
Definition stored (m : meta) : meta :=
  match m_indices m with Some [] => mkMeta (m_scaler m) (m_adder m) None | _ => m end.

Definition has (l : list string) (n : string) : bool := existsb (String.eqb n) l.
Definition hask (l : list (string * meta)) (n : string) : bool := has (dkeys l) n.

(** the names without repetition: set(vnames) *)
Fixpoint as_set (l : list string) : list string :=
  match l with
  | [] => []
  | n :: r => if has r n then as_set r else n :: as_set r
  end.

(** parallel_derivs (254-277) *)
Definition parallel_derivs (mpi : bool) (d : driver) (vnames : list string) : res driver :=
  if negb (forallb (fun n => hask (d_desvars d) n || hask (d_objs d) n || hask (d_cons d) n) vnames) then Err RuntimeError
  else if existsb (fun grp => existsb (has grp) vnames) (d_sets d) then Err RuntimeError
  else
    let isect := filter (hask (d_desvars d)) (as_set vnames) in
    if (0 <? length isect)%nat && negb (length isect =? length vnames)%nat then Err RuntimeError
    else if mpi then Ok (mkDriver (d_multi d) (d_desvars d) (d_objs d) (d_cons d) (d_sets d ++ [vnames]))
    else Ok d.

Definition perform (mpi : bool) (d : driver) (c : call) : res driver :=
  match c with
  | AddDesvar n m =>
      if hask (d_desvars d) n then Err RuntimeError
      else Ok (mkDriver (d_multi d) (d_desvars d ++ [(n, stored m)]) (d_objs d) (d_cons d) (d_sets d))
  | AddObjective n m =>
      if (0 <? length (d_objs d))%nat && negb (d_multi d) then Err RuntimeError
      else if hask (d_objs d) n then Err RuntimeError
      else if match m_indices m with Some (_ :: _ :: _) => negb (d_multi d) | _ => false end then Err RuntimeError
      else Ok (mkDriver (d_multi d) (d_desvars d) (d_objs d ++ [(n, stored m)]) (d_cons d) (d_sets d))
  | AddConstraint n m =>
      if hask (d_cons d) n then Err RuntimeError
      else Ok (mkDriver (d_multi d) (d_desvars d) (d_objs d) (d_cons d ++ [(n, stored m)]) (d_sets d))
  | ParallelDerivs vn => parallel_derivs mpi d vn
  end.
(** a program that goes on after an exception *)
Definition after (mpi : bool) (d : driver) (c : call) : driver :=
  match perform mpi d c with Ok d' => d' | Err _ => d end.
Definition program (mpi multi : bool) (cs : list call) : driver := fold_left (after mpi) cs (new_driver multi).

(** remaining.remove(v) *)
Definition remove1 (rem : list string) (v : string) : res (list string) :=
  if has rem v then Ok (filter (fun x => negb (String.eqb x v)) rem) else Err KeyError.
(** the inner loop of _of_interest (211-214) *)
Fixpoint pick_set (s l rem : list string) : res (list string * list string) :=
  match l with
  | [] => Ok ([], rem)
  | v :: l' =>
      if has s v
      then let! rem' := remove1 rem v in let! (g, r) := pick_set s l' rem' in Ok (v :: g, r)
      else pick_set s l' rem
  end.
Fixpoint pick_sets (sets : list (list string)) (l rem : list string) : res (list (list string) * list string) :=
  match sets with
  | [] => Ok ([], rem)
  | s :: sets' =>
      let! (g, rem') := pick_set s l rem in
      let! (gs, r) := pick_sets sets' l rem' in Ok (g :: gs, r)
  end.
Definition of_interest (sets : list (list string)) (l : list string) : res (list (list string)) :=
  let! (gs, rem) := pick_sets sets l (as_set l) in
  Ok (filter (fun g => negb (length g =? 0)%nat) gs ++ map (fun v => [v]) (filter (has rem) l))%list.

Definition desvars_of_interest (d : driver) : res (list (list string)) := of_interest (d_sets d) (dkeys (d_desvars d)).
Definition outputs_of_interest (d : driver) : res (list (list string)) :=
  of_interest (d_sets d) (dkeys (d_objs d) ++ dkeys (d_cons d))%list.

(** _map_voi_indices (186-199): the indices of the design variables, and those of
    the outputs *)
Definition map_indices (l : list (string * meta)) (acc : list (string * list Z)) : list (string * list Z) :=
  fold_left (fun a nm => match m_indices (snd nm) with Some i => sset a (fst nm) i | None => a end) l acc.
Definition map_voi_indices (d : driver) : list (string * list Z) * list (string * list Z) :=
  (map_indices (d_desvars d) [], map_indices (d_objs d) (map_indices (d_cons d) [])).

(** parallel_p, parallel_u (588-599): some group has several members *)
Definition is_parallel (gs : list (list string)) : bool := existsb (fun g => (1 <? length g)%nat) gs.
(** _check_for_parallel_derivs: the groups that are reported *)
Definition check_parallel (root_lgs reduce fwd : bool) (pois oois : list (list string))
    (subs : list (string * (bool * string))) : list string :=
  if root_lgs && reduce && (if fwd then is_parallel pois else is_parallel oois)
  then map fst (filter (fun s => fst (snd s) && negb (has [if fwd then "fwd" else "rev"; "auto"] (snd (snd s)))) subs)
  else [].

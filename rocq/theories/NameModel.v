(** Promoted names: openmdao/core/group.py 284-337 (_setup_variables), 367-379
    (_promoted_name), core/component.py 397-415 (_setup_variables), core/system.py
    215-242 (_promoted), 308-334 (_check_promotes).
    Absolute and promoted names are lists of name parts (the code joins them with
    dots; parts contain none, C72). A promotion pattern is a predicate on the dotted
    name: the compiled glob of system.py 389, matching the whole name. Dictionaries
    are association lists. Not modelled: the variables' metadata, MPI,
    promotes given as a string (TypeError). *)
From Verif Require Import Base OrderModel PathModel.
Local Open Scope nat_scope.

Definition peqb (p q : path) : bool := if path_dec p q then true else false.
Definition pget {V} : list (path * V) -> path -> option V := dget peqb.
Definition pset {V} : list (path * V) -> path -> V -> list (path * V) := dset peqb.

Notation pattern := (string -> bool).
Notation idxs := (option (list nat)).
(** a component with its params and unknowns, or a group with its subsystems (name,
    promotes, system) and its explicit connections (_src: target to sources) *)
Inductive sys : Type :=
| Comp (ps us : list string)
| Grp (subs : list (string * (list pattern * sys))) (src : list (path * list (path * idxs))).

(** the name dictionaries of _SysData; params and unknowns are the keys of
    _params_dict and _unknowns_dict *)
Record data := mkData { params : list path; unknowns : list path;
                        prom_p : list (path * path); prom_u : list (path * path);
                        abs_p : list (path * list path); abs_u : list (path * path) }.
(** d[k] for a key that is present *)
Definition at_ (d : list (path * path)) (k : path) : path := match pget d k with Some v => v | None => [] end.

(** Component._setup_variables, lines 398-412 *)
Definition comp_data (pth : path) (ps us : list string) : data :=
  mkData (map (fun n => pth ++ [n]) ps) (map (fun n => pth ++ [n]) us)
         (map (fun n => (pth ++ [n], [n])) ps) (map (fun n => (pth ++ [n], [n])) us)
         (map (fun n => ([n], [pth ++ [n]])) ps) (map (fun n => ([n], pth ++ [n])) us).

(** System._promoted *)
Definition promoted (pats : list pattern) (d : data) (name : path) : bool :=
  existsb (fun f => f (join_dot name) && (match pget (abs_p d) name with Some _ => true | None => false end || match pget (abs_u d) name with Some _ => true | None => false end)) pats.
(** Group._promoted_name *)
Definition promoted_name (n : string) (pats : list pattern) (d : data) (name : path) : path := if promoted pats d name then name else n :: name.
(** System._check_promotes; to_prom_name is to_prom_uname updated by to_prom_pname *)
Definition to_prom_name (d : data) (k : path) : path := match pget (prom_p d) k with Some v => v | None => at_ (prom_u d) k end.
Definition check_promotes (pats : list pattern) (d : data) : bool :=
  forallb (fun f : pattern => existsb (fun k => f (join_dot (to_prom_name d k))) (params d ++ unknowns d)) pats.

(** the two loops over a subsystem's variables, lines 313-330 *)
Definition add_param (acc : data) (p prom : path) : data :=
  mkData (params acc ++ [p]) (unknowns acc) (pset (prom_p acc) p prom) (prom_u acc)
         (pset (abs_p acc) prom (match pget (abs_p acc) prom with Some l => l ++ [p] | None => [p] end)) (abs_u acc).
Definition add_unknown (acc : data) (u prom : path) : res data :=
  match pget (abs_u acc) prom with
  | Some _ => Err RuntimeError
  | None => Ok (mkData (params acc) (unknowns acc ++ [u]) (prom_p acc) (pset (prom_u acc) u prom) (abs_p acc) (pset (abs_u acc) prom u))
  end.
Fixpoint add_unknowns (name : path -> path) (us : list path) (acc : data) : res data :=
  match us with
  | [] => Ok acc
  | u :: r => let! acc' := add_unknown acc u (name u) in add_unknowns name r acc'
  end.
(** one pass of the loop over the subsystems, lines 311-335 *)
Definition add_sub (acc : data) (n : string) (pats : list pattern) (d : data) : res data :=
  let acc1 := fold_left (fun a p => add_param a p (promoted_name n pats d (at_ (prom_p d) p))) (params d) acc in
  let! acc2 := add_unknowns (fun u => promoted_name n pats d (at_ (prom_u d) u)) (unknowns d) acc1 in
  if check_promotes pats d then Ok acc2 else Err RuntimeError.

(** _setup_variables *)
Fixpoint setup_variables (pth : path) (s : sys) : res data :=
  match s with
  | Comp ps us => Ok (comp_data pth ps us)
  | Grp subs _ =>
      (fix go (subs : list (string * (list pattern * sys))) (acc : data) : res data :=
         match subs with
         | [] => Ok acc
         | (n, (pats, c)) :: r => let! d := setup_variables (pth ++ [n]) c in let! acc' := add_sub acc n pats d in go r acc'
         end) subs (mkData [] [] [] [] [] [])
  end.

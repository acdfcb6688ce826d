(** Model of the names of a system's variables in the vectors of its parent: _get_relname_map of
    openmdao/core/component.py (lines 788-813), core/group.py (1672-1694) and
    components/subproblem.py (92-116), called in Component._setup_vectors (component.py 503) and
    Group._setup_vectors (group.py 473), on the trees and dictionaries of NameModel.v.  The
    parent's to_prom_name is its to_prom_uname updated by its to_prom_pname.  The unknowns of a
    SubProblem may have names with dots, so it looks its keys up by their texts. *)
From Verif Require Import Base OrderModel PathModel NameModel.
Local Open Scope list_scope.
Local Open Scope nat_scope.

(** to_prom_name[k] *)
Definition to_prom (d : data) (k : path) : option path := match pget (prom_p d) k with Some v => Some v | None => pget (prom_u d) k end.
(** umap[parent_proms[abspath]] = prom, for each pair *)
Fixpoint map_loop (parent : data) (l : list (path * path)) (umap : list (path * path)) : res (list (path * path)) :=
  match l with
  | [] => Ok umap
  | (a, prom) :: l => match to_prom parent a with None => Err KeyError | Some v => map_loop parent l (pset umap v prom) end
  end.
(** component.py: the keys of _init_unknowns_dict; group.py: to_prom_uname *)
Definition relname_map (parent : data) (pth : path) (c : sys) (d : data) : res (list (path * path)) :=
  match c with
  | Comp _ us => map_loop parent (map (fun key => (pth ++ [key], [key])) us) []
  | Grp _ _ => map_loop parent (prom_u d) []
  end.
(** subproblem.py: '.'.join((self.name, key)) *)
Definition find_text (d : data) (t : string) : option path :=
  match find (fun e => String.eqb (join_dot (fst e)) t) (prom_p d) with
  | Some e => Some (snd e)
  | None => match find (fun e => String.eqb (join_dot (fst e)) t) (prom_u d) with Some e => Some (snd e) | None => None end
  end.
Definition subproblem_map (parent : data) (n : string) (keys : list string) : list (path * path) :=
  fold_left (fun umap key => match find_text parent (join_dot [n; key]) with Some v => pset umap v [key] | None => umap end) keys [].

(** the maps made on the way from a system to one below it, given by the names on the way *)
Fixpoint maps_down (pth : path) (s : sys) (ns : list string) : res (list (list (path * path))) :=
  match ns with
  | [] => Ok []
  | n :: ns =>
      match s with
      | Comp _ _ => Err KeyError
      | Grp subs _ =>
          match sget subs n with
          | None => Err KeyError
          | Some (_, c) =>
              let! parent := setup_variables pth s in
              let! d := setup_variables (pth ++ [n]) c in
              let! m := relname_map parent (pth ++ [n]) c d in
              let! r := maps_down (pth ++ [n]) c ns in Ok (m :: r)
          end
      end
  end.
Definition texts (m : list (path * path)) : list (string * string) := map (fun e => (join_dot (fst e), join_dot (snd e))) m.

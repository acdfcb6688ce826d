(** Model of openmdao/core/problem.py _json_system_tree (lines 2283-2308), on the trees of
    TrvModel.v.  The metadata of the unknowns of a component is of any type and given by its
    system; json.dumps is left out.  _tree_dict(system) loops over subsystems(recurse=True), so
    it comes to every system below and calls itself for each group of them; [entries] lists the
    assignments dct[s.name] = ... in the order of that loop. *)
From Verif Require Import Base PathModel TrvModel.
Local Open Scope list_scope.

Inductive jtree (V : Type) := Node (d : list (string * jtree V)) | Leaf (v : V).
Arguments Node {V}. Arguments Leaf {V}.
Section Json.
  Context {V : Type} (unknowns : sys -> V).
  (** d[k] = v of an OrderedDict *)
  Fixpoint assign (d : list (string * jtree V)) (k : string) (v : jtree V) : list (string * jtree V) :=
    match d with
    | [] => [(k, v)]
    | (k', v') :: d => if String.eqb k' k then (k', v) :: d else (k', v') :: assign d k v
    end.
  Definition build (l : list (string * jtree V)) : list (string * jtree V) := fold_left (fun d e => assign d (fst e) (snd e)) l [].
  Fixpoint entries (x : sys) : list (string * jtree V) :=
    match x with
    | Sys _ _ l => flat_map (fun y => if is_group y then (name y, Node (build (entries y))) :: entries y else [(name y, Leaf (unknowns y))]) l
    end.
  Definition tree_dict (x : sys) : jtree V := Node (build (entries x)).
End Json.

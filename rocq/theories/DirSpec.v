(** Specification for C105: the directory of every component, and calls that
    run in it. *)
From Verif Require Import Base DirModel.
Local Open Scope string_scope.

(** the directory of a system inside a parent: the parent's, or its own,
    relative to the parent's unless absolute *)
Inductive sub_dir (parent : string) : string -> string -> Prop :=
| sub_none : sub_dir parent "" parent
| sub_abs : forall d, sub_dir parent ("/" ++ d) ("/" ++ d)
| sub_rel : forall d, d <> "" -> (forall d', d <> "/" ++ d') -> ends_slash parent = false -> parent <> "" ->
    sub_dir parent d (parent ++ "/" ++ d)
| sub_rel_root : forall d, d <> "" -> (forall d', d <> "/" ++ d') -> ends_slash parent = true \/ parent = "" ->
    sub_dir parent d (parent ++ d).

(** [lives parent s c d]: component c of s belongs in d *)
Inductive lives (parent : string) : sys -> string -> string -> Prop :=
| lives_comp : forall p dir ctx r d, sub_dir parent dir d -> lives parent (Comp p dir ctx r) p d
| lives_grp : forall p dir ctx nl ln subs base s c d,
    sub_dir parent dir base -> In s subs -> lives base s c d ->
    lives parent (Grp p dir ctx nl ln subs) c d.

(** methods that may read and write files *)
Definition runs (m : meth) : Prop := m = MSolve \/ m = MLin \/ m = MSolveLin.

(** no system below s has a directory of its own *)
Inductive flat : sys -> Prop :=
| flat_comp : forall p dir ctx r, flat (Comp p dir ctx r)
| flat_grp : forall p dir ctx nl ln subs,
    (forall s, In s subs -> s_dir s = "" /\ flat s) -> flat (Grp p dir ctx nl ln subs).

(** a call in the right directory: always for the methods that run or
    linearize a component, for the others if only the root has a directory *)
Definition in_place (parent : string) (root : sys) (e : string * meth * string) : Prop :=
  exists d, lives parent root (fst (fst e)) d /\
    (runs (snd (fst e)) \/ flat root -> snd e = d).

(** all paths of systems *)
Fixpoint paths (s : sys) : list string :=
  match s with
  | Comp p _ _ _ => [p]
  | Grp p _ _ _ _ subs => p :: flat_map paths subs
  end.

(** no context is left from an earlier setup where there is no directory *)
Inductive no_stale : sys -> Prop :=
| ns_comp : forall p dir ctx r, (dir = "" -> ctx = None) -> no_stale (Comp p dir ctx r)
| ns_grp : forall p dir ctx nl ln subs, (dir = "" -> ctx = None) ->
    (forall s, In s subs -> no_stale s) -> no_stale (Grp p dir ctx nl ln subs).

(** a linear solver without preconditioner *)
Definition plain_lin (a : lact) : Prop := match a with LPrecon _ => False | _ => True end.
(** a nonlinear solver that is not Newton *)
Definition plain_nl (a : nact) : Prop := match a with NLin | NSolveLin _ => False | _ => True end.

(** systems with a directory of their own have no solver that enters the
    system's context again *)
Inductive plain_solvers : sys -> Prop :=
| ps_comp : forall p dir ctx r, plain_solvers (Comp p dir ctx r)
| ps_grp : forall p dir ctx nl ln subs,
    (dir <> "" -> Forall plain_nl nl /\ Forall plain_lin ln) ->
    (forall s, In s subs -> plain_solvers s) -> plain_solvers (Grp p dir ctx nl ln subs).

(** a script that does not compute gradients of a model whose root has a
    directory *)
Definition tame (root : sys) (t : top) : Prop :=
  match t with TGrad _ => s_dir root = "" | _ => True end.

(** every nonlinear solver runs the subsystems at least once *)
Inductive nl_passes : sys -> Prop :=
| np_comp : forall p dir ctx r, nl_passes (Comp p dir ctx r)
| np_grp : forall p dir ctx nl ln subs, In NChildren nl ->
    (forall s, In s subs -> nl_passes s) -> nl_passes (Grp p dir ctx nl ln subs).
(** every linear solver makes at least one pass over the subsystems *)
Inductive lin_passes : sys -> Prop :=
| lp_comp : forall p dir ctx r, lin_passes (Comp p dir ctx r)
| lp_grp : forall p dir ctx nl ln subs, In LForward ln \/ In LReverse ln ->
    (forall s, In s subs -> lin_passes s) -> lin_passes (Grp p dir ctx nl ln subs).

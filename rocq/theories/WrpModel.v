(** Model of the choice of what is profiled: openmdao/util/profile.py _obj_iter (lines 49-75), setup
    (77-166) and wrap_methods (168-180), with Group.subsystems (core/group.py 205-239) and
    System.subsystems (core/system.py 340-366).  Objects are numbers; the state has for each object
    and method the number of wrappers around it.  [isa] and [has] are isinstance and getattr.  The
    solvers a solver holds itself are part of the model, although the code does not visit them.
    Simplified: whether the output file can be opened is an argument; its name is left out. *)
From Verif Require Import Base.
Local Open Scope string_scope.
Local Open Scope nat_scope.
Local Open Scope list_scope.

(** the recording manager is given if it has recorders *)
Inductive solver : Type := Solver (id : nat) (manager : option nat) (inner : list solver).
Inductive system : Type := Comp (id : nat) | Group (id : nat) (ln nl : solver) (subs : list system).
Inductive top : Type := PTop (problem driver : nat) (manager : option nat) (root : system) | STop (root : system) | Other.

Definition solver_id (s : solver) : nat := match s with Solver i _ _ => i end.
Definition manager_of (s : solver) : list nat := match s with Solver _ (Some m) _ => [m] | Solver _ None _ => [] end.

(** the body of the loop of lines 67-75 for one system *)
Definition visit (s : system) : list nat :=
  match s with
  | Comp i => [i]
  | Group i ln nl _ => [i; solver_id ln; solver_id nl] ++ manager_of ln ++ manager_of nl
  end.
(** Group.subsystems with recurse *)
Fixpoint below (s : system) : list system :=
  match s with
  | Comp _ => []
  | Group _ _ _ subs => flat_map (fun sub => sub :: below sub) subs
  end.
(** subsystems(recurse=True, include_self=True) *)
Definition subsystems (s : system) : list system := s :: below s.
Definition obj_iter (t : top) : res (list nat) :=
  match t with
  | Other => Err TypeError
  | PTop p d m root => Ok ([p; d] ++ match m with Some m => [m] | None => [] end ++ flat_map visit (subsystems root))
  | STop root => Ok (flat_map visit (subsystems root))
  end.

Section Wrap.
  Variable cls : Type.
  Variable isa : nat -> cls -> bool.
  Variable has : nat -> string -> bool.
  Definition wrappers := nat -> string -> nat.

  Definition wrap (w : wrappers) (o : nat) (m : string) : wrappers :=
    fun o' m' => if (o' =? o) && String.eqb m' m then S (w o' m') else w o' m'.
  Definition wrap_obj (methods : list (string * list cls)) (w : wrappers) (o : nat) : wrappers :=
    fold_left (fun w mc => if existsb (isa o) (snd mc) && has o (fst mc) then wrap w o (fst mc) else w) methods w.
  Definition wrap_methods (objs : list nat) (methods : list (string * list cls)) (w : wrappers) : wrappers :=
    fold_left (wrap_obj methods) objs w.

  Record pstate : Type := mkP { is_setup : bool; wrapped : wrappers }.
  (** the iterator raises when wrap_methods takes its first object *)
  Definition setup (can_open : bool) (methods : list (string * list cls)) (t : top) (s : pstate) : pstate * res unit :=
    if is_setup s then (s, Err RuntimeError)
    else
      let s := mkP true (wrapped s) in
      if can_open then
        match obj_iter t with
        | Err e => (s, Err e)
        | Ok objs => (mkP true (wrap_methods objs methods (wrapped s)), Ok tt)
        end
      else (s, Err OSError).
End Wrap.

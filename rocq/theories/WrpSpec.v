(** What a model consists of, kind by kind. *)
From Verif Require Import Base WrpModel.
Local Open Scope string_scope.
Local Open Scope nat_scope.
Local Open Scope list_scope.

(** a system somewhere in a tree *)
Inductive within : system -> system -> Prop :=
| W_self : forall s, within s s
| W_sub : forall s sub i ln nl subs, In sub subs -> within s sub -> within s (Group i ln nl subs).
Definition id_of (s : system) : nat := match s with Comp i => i | Group i _ _ _ => i end.
Definition solver_of (v : solver) (s : system) : Prop := match s with Comp _ => False | Group _ ln nl _ => v = ln \/ v = nl end.
Definition manages (m : nat) (v : solver) : Prop := match v with Solver _ r _ => r = Some m end.
Definition root_of (t : top) (r : system) : Prop := match t with PTop _ _ _ root => r = root | STop root => r = root | Other => False end.

(** the problem, its driver, the systems, the solvers of groups, and the recording managers in use *)
Inductive part (t : top) (o : nat) : Prop :=
| P_problem : forall d m r, t = PTop o d m r -> part t o
| P_driver : forall p m r, t = PTop p o m r -> part t o
| P_manager : forall p d r, t = PTop p d (Some o) r -> part t o
| P_system : forall r s, root_of t r -> within s r -> o = id_of s -> part t o
| P_solver : forall r s v, root_of t r -> within s r -> solver_of v s -> o = solver_id v -> part t o
| P_smanager : forall r s v, root_of t r -> within s r -> solver_of v s -> manages o v -> part t o.

(** no object is at two places: one list of places for each kind *)
Fixpoint all_systems (s : system) : list system := match s with Comp _ => [s] | Group _ _ _ subs => s :: flat_map all_systems subs end.
Definition all_solvers (r : system) : list solver := flat_map (fun s => match s with Comp _ => [] | Group _ ln nl _ => [ln; nl] end) (all_systems r).
Definition places (t : top) : list nat :=
  let of_tree r := map id_of (all_systems r) ++ map solver_id (all_solvers r) ++ flat_map (fun v => match v with Solver _ (Some m) _ => [m] | _ => [] end) (all_solvers r) in
  match t with
  | PTop p d m r => p :: d :: match m with Some m => [m] | None => [] end ++ of_tree r
  | STop r => of_tree r
  | Other => []
  end.

(** the method is asked for, for a class of the object, and the object has it *)
Definition wanted {cls} (isa : nat -> cls -> bool) (has : nat -> string -> bool) (methods : list (string * list cls)) (o : nat) (m : string) : Prop :=
  (exists classes c, In (m, classes) methods /\ In c classes /\ isa o c = true) /\ has o m = true.

(** Model of the statistics and the plot of a tree of systems: openmdao/devtools/debug.py
    num_systems (lines 137-143), num_groups (145-151), num_components (153-159), tree_depth
    (172-177), and openmdao/devtools/dotgraph.py _write_system_dot (99-115), _sys_dot (124-134),
    on the trees of TrvModel.v.  A line of the file is the node or edge it describes; the shape is
    any function of a system.  Indentation is left out. *)
From Verif Require Import Base PathModel TrvModel.
Local Open Scope list_scope.
Local Open Scope nat_scope.

(** subsystems(recurse=True, typ=..., include_self=True), group.py 205-237, of a group with this
    pathname: the test of the type inside the recursion is a filter of its result *)
Definition listing (typ : sys -> bool) (path : string) (x : sys) : list sys :=
  (if typ x then [x] else []) ++ filter typ (map snd (subsystems path x)).
Definition count (typ : sys -> bool) (path : string) (x : sys) : nat := fold_left (fun n _ => S n) (listing typ path x) 0.
Definition num_systems := count (fun _ => true).
Definition num_groups := count is_group.
Definition num_components := count (fun x => negb (is_group x)).

(** max(len(s.pathname.split('.')) for s in ... if not s._subsystems) *)
Definition tree_depth (path : string) (x : sys) : res nat :=
  match map (fun e => length (split_dot (fst e))) (filter (fun e => match subs (snd e) with [] => true | _ => false end) (subsystems path x)) with
  | [] => Err ValueError
  | n :: l => Ok (fold_left Nat.max l n)
  end.

Section Dot.
  Context {H : Type} (shape : sys -> H).
  Inductive line := Node (id : string) (h : H) (label : string) | Edge (src tgt : string) (label : nat).
  Fixpoint sys_dot (path : string) (x : sys) : list line :=
    match x with
    | Sys _ _ l =>
        (fix go (i : nat) (l : list sys) : list line :=
           match l with
           | [] => []
           | s :: l =>
               let p := pathname path (name s) in
               Node p (shape s) (name s) :: Edge path p i :: sys_dot p s ++ go (S i) l
           end) 0 l
    end.
  Definition system_dot (path : string) (x : sys) : list line := Node path (shape x) (name x) :: sys_dot path x.
End Dot.
Arguments line : clear implicits.

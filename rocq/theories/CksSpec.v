(** What the checks of graph and linear solvers should find. *)
From Verif Require Import Base GraphSpec OrderModel OrderSpec CksModel.
Local Open Scope string_scope.
Local Open Scope nat_scope.
Local Open Scope list_scope.

(** the system at a path *)
Inductive at_path : stree -> path -> stree -> Prop :=
| at_here : forall t, at_path t [] t
| at_below : forall g cs n c q t, In (n, c) cs -> at_path c q t -> at_path (SGrp g cs) (n :: q) t.
Inductive wf_stree : stree -> Prop :=
| wf_comp : forall sts own, wf_stree (SComp sts own)
| wf_grp : forall g cs, NoDup (map fst cs) -> (forall n c, In (n, c) cs -> wf_stree c) -> wf_stree (SGrp g cs).
(** a linear solver that can solve coupled equations *)
Definition coupled (k : lnsolver) : Prop := match k with GaussSeidel n | Krylov n => 1 < n | Direct => True end.
(** a group above the path [q] has such a solver *)
Definition covered (t : stree) (q : path) : Prop := exists p r g cs, q = p ++ r /\ r <> [] /\ at_path t p (SGrp g cs) /\ coupled (g_ln g).
(** some subsystems of the group at [p] feed each other in a circle *)
Definition cyclic (conns : list (path * path * nat)) (p : path) : Prop := exists a b, a <> b /\ depends p conns a b /\ depends p conns b a.
(** the states of a component are variables of it (not so in a SubProblem) *)
Definition plain_states (t : stree) : Prop := forall q sts own s, at_path t q (SComp sts own) -> In s sts -> exists v, s = [v].
(** a state whose component cannot solve for it *)
Definition open_state (t : stree) (s : path) : Prop := exists q v sts, at_path t q (SComp sts false) /\ In [v] sts /\ s = q ++ [v].
(** [b] needs [a] through connections other than those in [broken] *)
Inductive needs (p : path) (conns : list (path * path * nat)) (broken : list (path * path)) : string -> string -> Prop :=
| needs_one : forall a b, feeds p conns a b -> ~ In (p ++ [a], p ++ [b]) broken -> needs p conns broken a b
| needs_more : forall a b c, feeds p conns a b -> ~ In (p ++ [a], p ++ [b]) broken -> needs p conns broken b c -> needs p conns broken a c.

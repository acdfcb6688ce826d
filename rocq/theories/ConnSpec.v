(** Connections, specified over the tree of systems. *)
From Verif Require Import Base GraphSpec OrderModel PathModel NameModel NameSpec ConnModel.
Local Open Scope nat_scope.

(** nx.dfs_edges(g, u): a tree of edges that reaches every node reachable from u,
    listed so that each edge starts at u or at a node reached before *)
Definition dfs_tree_spec (dfs : igraph -> path -> list (path * path)) : Prop :=
  forall g u, NoDup (map snd (dfs g u)) /\ (forall t, In t (map snd (dfs g u)) <-> reach (shape g) u t /\ t <> u) /\
    forall pre s t post, dfs g u = pre ++ (s, t) :: post -> edge (shape g) s t /\ (s = u \/ In s (map snd pre)).

(** c is the system at path p below s *)
Inductive sub_at : sys -> path -> sys -> Prop :=
| at_self : forall s, sub_at s [] s
| at_sub : forall subs src n pats b p c, In (n, (pats, b)) subs -> sub_at b p c -> sub_at (Grp subs src) (n :: p) c.

(** the variable a name given as a source stands for in system c: the unknown of that
    promoted name, else any param of that promoted name *)
Definition source_var (c : sys) (name q : path) : Prop :=
  prom_of c q = name /\ (In q (ulist c) \/ (In q (plist c) /\ forall u, In u (ulist c) -> prom_of c u <> name)).
Definition target_var (c : sys) (name q : path) : Prop := prom_of c q = name /\ In q (plist c).
(** a was connected to b by a connect call of some group, with indices i *)
Definition explicit_conn (s : sys) (a b : path) (i : idxs) : Prop :=
  exists p subs src t srcs name q1 q2, sub_at s p (Grp subs src) /\ In (t, srcs) src /\ In (name, i) srcs /\
    source_var (Grp subs src) name q1 /\ target_var (Grp subs src) t q2 /\ a = p ++ q1 /\ b = p ++ q2.
(** some connect call names a variable that does not exist, or a target that is no
    param *)
Definition bad_name (s : sys) : Prop :=
  exists p subs src t srcs name i, sub_at s p (Grp subs src) /\ In (t, srcs) src /\ In (name, i) srcs /\
    ((forall q, ~ source_var (Grp subs src) name q) \/ (forall q, ~ target_var (Grp subs src) t q)).
(** an unknown and a param with the same promoted name at the top *)
Definition implicit_conn (s : sys) (a b : path) : Prop := In a (ulist s) /\ In b (plist s) /\ prom_of s a = prom_of s b.
(** params with the same promoted name, without an unknown of that name: the first of
    them and another one *)
Definition shared (s : sys) (a b : path) : Prop :=
  (forall u, In u (ulist s) -> prom_of s u <> prom_of s a) /\ exists r, filter (fun q => peqb (prom_of s q) (prom_of s a)) (plist s) = a :: r /\ In b r.
Definition link (s : sys) (a b : path) : Prop := (exists i, explicit_conn s a b i) \/ implicit_conn s a b \/ shared s a b.
(** data flow along links, and connection in either direction *)
Inductive feeds (s : sys) : path -> path -> Prop :=
| feeds_refl : forall a, feeds s a a
| feeds_step : forall a b c, link s a b -> feeds s b c -> feeds s a c.
Inductive joined (s : sys) : path -> path -> Prop :=
| join_refl : forall a, joined s a a
| join_fwd : forall a b c, link s a b -> joined s b c -> joined s a c
| join_bwd : forall a b c, link s b a -> joined s b c -> joined s a c.

(** ** indices *)
(** a link with the indices it was declared with *)
Definition declared (s : sys) (a b : path) (i : idxs) : Prop := explicit_conn s a b i \/ ((implicit_conn s a b \/ shared s a b) /\ i = None).
(** the indices of the links on a way from a to b *)
Inductive chain (s : sys) : path -> list idxs -> path -> Prop :=
| chain_nil : forall a, chain s a [] a
| chain_snoc : forall a l b c i, chain s a l b -> declared s b c i -> chain s a (l ++ [i]) c.
(** the entries of a vector that indices select, None if one is out of range *)
Fixpoint entries {V} (v : list V) (is : list nat) : option (list V) :=
  match is with
  | [] => Some []
  | i :: r => match nth_error v i, entries v r with Some x, Some xs => Some (x :: xs) | _, _ => None end
  end.
Definition pick {V} (i : idxs) (v : list V) : option (list V) := match i with None => Some v | Some is => entries v is end.
(** one selection after the other *)
Definition picks {V} (l : list idxs) (v : list V) : option (list V) :=
  fold_left (fun o i => match o with Some w => pick i w | None => None end) l (Some v).

(** Directed graphs: what networkx's algorithms return (used by
    openmdao/core/group.py, core/relevance.py and util/graph.py).  networkx itself
    is not modelled; its functions are arguments that satisfy these
    specifications, and GraphProofs.v shows that such functions exist. *)
From Coq Require Import Permutation.
From Verif Require Import Base.
Local Open Scope nat_scope.

Section Graph.
  Context {N : Type}.

  (** nodes and weighted edges *)
  Definition graph : Type := (list N * list (N * N * nat))%type.
  Definition edge (g : graph) (u v : N) : Prop := exists w, In (u, v, w) (snd g).

  Inductive reach (g : graph) : N -> N -> Prop :=
  | reach_refl : forall u, reach g u u
  | reach_step : forall u v w, edge g u v -> reach g v w -> reach g u w.

  (** every edge joins two different nodes of the graph *)
  Definition wf_graph (g : graph) : Prop := NoDup (fst g) /\ forall u v, edge g u v -> In u (fst g) /\ In v (fst g) /\ u <> v.

  Definition acyclic (g : graph) : Prop := forall u v, edge g u v -> ~ reach g v u.

  (** nx.strongly_connected_components: a partition of the nodes into the classes
      of mutually reachable nodes *)
  Definition scc_spec (sccs : graph -> list (list N)) : Prop :=
    forall g, wf_graph g -> Permutation (concat (sccs g)) (fst g) /\
      forall u v, In u (fst g) -> In v (fst g) -> ((exists s, In s (sccs g) /\ In u s /\ In v s) <-> (reach g u v /\ reach g v u)).

  Definition before (l : list N) (u v : N) : Prop := exists a b c, l = a ++ u :: b ++ v :: c.

  (** nx.topological_sort, None for NetworkXUnfeasible *)
  Definition topo_spec (topo : graph -> option (list N)) : Prop :=
    forall g, wf_graph g -> acyclic g -> exists o, topo g = Some o /\ Permutation o (fst g) /\ forall u v, edge g u v -> before o u v.

  (** nx.dfs_edges(g, u): the nodes other than u that can be reached from it, in
      some order *)
  Definition dfs_spec (dfs : graph -> N -> list N) : Prop :=
    forall g u v, In u (fst g) -> (In v (dfs g u) <-> (reach g u v /\ v <> u)).
End Graph.
Arguments graph N : clear implicits.

(** Execution order: openmdao/core/group.py lines 30, 120-162 (add), 381-399
    (_setup_communicators, the local subsystems), 1090-1209 (set_order, list_order,
    list_auto_order, _get_sys_graph, _break_cycles), core/relevance.py lines
    123-148 (_setup_sys_graph), util/graph.py lines 11-36 (collapse_nodes) and
    70-121 (break_strongly_connected), core/problem.py lines 611-624.

    Pathnames are lists of names (the Path area relates them to dotted strings;
    names contain no dots, [valid_name]).  networkx's strongly_connected_components
    and topological_sort are arguments (GraphSpec.v).  Not modelled: MPI broadcast
    of the order, communicators, error messages. *)
From Verif Require Import Base GraphSpec.
Local Open Scope string_scope.
Local Open Scope nat_scope.
Local Open Scope list_scope.

(** ** Group.add and Group.set_order *)
(** namecheck_rgx, line 30, matching the whole name (lines 154-157) *)
Definition letter (c : ascii) : bool :=
  let n := nat_of_ascii c in (n =? 95) || ((65 <=? n) && (n <=? 90)) || ((97 <=? n) && (n <=? 122)).
Definition digit (c : ascii) : bool := let n := nat_of_ascii c in (48 <=? n) && (n <=? 57).
Definition valid_name (s : string) : bool :=
  match list_ascii_of_string s with
  | [] => false
  | c :: r => letter c && forallb (fun d => letter d || digit d) r
  end.

Section Group.
  Context {S : Type}.
  (** _subsystems, the names in _local_subsystems, _order_set *)
  Record group : Type := mkGroup { subs : list (string * S); local : list string; order_set : bool }.

  (** add, lines 136-162: the group afterwards, and the exception.  reserved: the
      attributes a group has anyway *)
  Variable reserved : string -> bool.
  Definition add (g : group) (name : string) (system : S) : group * option pyerr :=
    if order_set g then (g, Some RuntimeError)
    else if smem (subs g) name then (g, Some RuntimeError)
    else if reserved name then (g, Some RuntimeError)
    else if negb (valid_name name) then (g, Some NameError)
    else (mkGroup (sset (subs g) name system) (local g) (order_set g), None).

  Definition inb (l : list string) (x : string) : bool := if in_dec string_dec x l then true else false.
  Definition subset (a b : list string) : bool := forallb (inb b) a.
  (** new_subs[sub] = self._subsystems[sub], lines 1122-1124 *)
  Fixpoint reorder (old : list (string * S)) (new_order : list string) (acc : list (string * S)) : option (list (string * S)) :=
    match new_order with
    | [] => Some acc
    | n :: r => match sget old n with Some s => reorder old r (sset acc n s) | None => None end
    end.
  (** set_order, lines 1102-1132 *)
  Definition set_order (g : group) (new_order : list string) : group * option pyerr :=
    let newset := nodup string_dec new_order in
    let oldset := dkeys (subs g) in
    if negb (subset oldset newset && subset newset oldset) then (g, Some ValueError)
    else if length newset <? length new_order then (g, Some ValueError)
    else match reorder (subs g) new_order [] with
         | Some new_subs => (mkGroup new_subs (filter (inb newset) (local g)) true, None)
         | None => (g, Some KeyError)
         end.
  (** list_order, line 1141 *)
  Definition list_order (g : group) : list string := dkeys (subs g).
  (** _setup_communicators, lines 393-399 *)
  Definition setup_communicators (active : string -> bool) (g : group) : group :=
    mkGroup (subs g) (filter active (dkeys (subs g))) (order_set g).
End Group.
Arguments group S : clear implicits.

(** ** breaking cycles *)
Section Break.
  Context {N : Type}.
  Variable N_dec : forall x y : N, {x = y} + {x <> y}.
  Variable lt : N -> N -> bool.
  Variable sccs : graph N -> list (list N).
  Variable topo : graph N -> option (list N).

  Definition nodein (l : list N) (x : N) : bool := if in_dec N_dec x l then true else false.
  Definition eqN (x y : N) : bool := if N_dec x y then true else false.
  Definition subgraph (g : graph N) (ns : list N) : graph N :=
    (filter (nodein ns) (fst g), filter (fun e => nodein ns (fst (fst e)) && nodein ns (snd (fst e))) (snd g)).
  Definition in_edges (g : graph N) (n : N) : list (N * N * nat) := filter (fun e => eqN (snd (fst e)) n) (snd g).
  Definition out_edges (g : graph N) (n : N) : list (N * N * nat) := filter (fun e => eqN (fst (fst e)) n) (snd g).
  (** in_degree, out_degree with weight='weight' *)
  Definition degree (es : list (N * N * nat)) : nat := list_sum (map snd es).

  (** the loop of lines 93-103; the state is max_node, max_score, in_smaller *)
  Definition pick_step (sg : graph N) (acc : option (N * nat * bool)) (node : N) : option (N * nat * bool) :=
    let din := degree (in_edges sg node) in
    let dout := degree (out_edges sg node) in
    let score := (din - dout) + (dout - din) in
    match acc with
    | None => Some (node, score, din <=? dout)
    | Some (m, sc, ins) => if (sc <? score) || ((score =? sc) && lt node m) then Some (node, score, din <=? dout) else acc
    end.
  Definition remove_edges (g : graph N) (es : list (N * N)) : graph N :=
    (fst g, filter (fun e => negb (existsb (fun p => eqN (fst p) (fst (fst e)) && eqN (snd p) (snd (fst e))) es)) (snd g)).

  (** break_strongly_connected, lines 70-121; parent and broken_edges *)
  Fixpoint break_scc (fuel : nat) (parent : graph N) (broken : list (N * N)) (scc : list N) : option (graph N * list (N * N)) :=
    match fuel with
    | 0 => None
    | Datatypes.S f =>
        let sg := subgraph parent scc in
        match fold_left (pick_step sg) scc None with
        | None => None
        | Some (m, _, in_smaller) =>
            let es := map fst (if in_smaller : bool then in_edges sg m else out_edges sg m) in
            let sg' := remove_edges sg es in
            fold_left (fun acc s => match acc with Some (p, b) => break_scc f p b s | None => None end)
                      (filter (fun s => 1 <? length s) (sccs sg'))
                      (Some (remove_edges parent es, broken ++ es))
        end
    end.
  (** _break_cycles, lines 1193-1209 *)
  Definition break_cycles (g : graph N) : option (graph N * list (N * N)) :=
    fold_left (fun acc s => match acc with Some (p, b) => break_scc (length s) p b s | None => None end)
              (filter (fun s => 1 <? length s) (sccs g)) (Some (g, [])).

  (** the order and the broken edges of list_auto_order, lines 1154-1156 *)
  Definition sorted_nodes (g : graph N) : option (list N * list (N * N)) :=
    match break_cycles g with
    | Some (h, broken) => option_map (fun o => (o, broken)) (topo h)
    | None => None
    end.
End Break.

(** ** the graph of a group's subsystems *)
Notation path := (list string).
Definition path_dec : forall x y : path, {x = y} + {x <> y} := list_eq_dec string_dec.

Definition add_node (ns : list path) (n : path) : list path := if in_dec path_dec n ns then ns else ns ++ [n].
Fixpoint update_edge (es : list (path * path * nat)) (u v : path) (f : option nat -> nat) : list (path * path * nat) :=
  match es with
  | [] => [(u, v, f None)]
  | (a, b, w) :: r => if path_dec a u then if path_dec b v then (a, b, f (Some w)) :: r else (a, b, w) :: update_edge r u v f
                      else (a, b, w) :: update_edge r u v f
  end.
(** _setup_sys_graph: connections are (source, target, size of the target) *)
Definition add_conn (g : graph path) (c : path * path * nat) : graph path :=
  let '(src, tgt, size) := c in
  let s := removelast src in
  let t := removelast tgt in
  (add_node (add_node (fst g) s) t, update_edge (snd g) s t (fun w => match w with Some w => w + size | None => size end)).
Definition sys_graph (subsystems : list path) (conns : list (path * path * nat)) : graph path :=
  fold_left add_conn conns (fold_left add_node subsystems [], []).

Fixpoint below (p n : path) : bool :=
  match p, n with
  | [], _ :: _ => true
  | a :: p', b :: n' => String.eqb a b && below p' n'
  | _, _ => false
  end.
(** _get_sys_graph and collapse_nodes: relabelling merges nodes, later edge data
    replaces earlier ones, self edges are removed *)
Definition relabel (k : nat) (g : graph path) : graph path :=
  (fold_left (fun ns n => add_node ns (firstn k n)) (fst g) [],
   fold_left (fun es (e : path * path * nat) => update_edge es (firstn k (fst (fst e))) (firstn k (snd (fst e))) (fun _ => snd e)) (snd g) []).
Definition no_self (g : graph path) : graph path :=
  (fst g, filter (fun e : path * path * nat => negb (if path_dec (fst (fst e)) (snd (fst e)) then true else false)) (snd g)).
Definition child_graph (p : path) (g : graph path) : graph path :=
  no_self (relabel (length p + 1) (subgraph path_dec g (filter (below p) (fst g)))).

(** list_auto_order, lines 1143-1158 *)
Definition list_auto_order (lt : path -> path -> bool) (sccs : graph path -> list (list path)) (topo : graph path -> option (list path))
           (g : graph path) (p : path) : option (list string * list (path * path)) :=
  option_map (fun r : list path * list (path * path) => (map (fun n => String.concat "." (skipn (length p) n)) (fst r), snd r)) (sorted_nodes path_dec lt sccs topo (child_graph p g)).
(** setup, problem.py lines 611-624, for one group *)
Definition auto_order {S} (lt : path -> path -> bool) sccs topo (g : graph path) (p : path) (grp : group S) : group S * option pyerr :=
  if order_set grp then (grp, None)
  else match list_auto_order lt sccs topo g p with
       | Some (order, _) => set_order grp order
       | None => (grp, Some RuntimeError)
       end.

(** ** the tree of systems *)
Inductive tree : Type := Leaf | Node (subs : list (string * tree)).
(** Group.subsystems(recurse=True), lines 205-239, as pathnames *)
Fixpoint subsystems (p : path) (t : tree) : list path :=
  match t with
  | Leaf => []
  | Node cs =>
      (fix go (cs : list (string * tree)) : list path :=
         match cs with
         | [] => []
         | (n, c) :: r => (p ++ [n]) :: subsystems (p ++ [n]) c ++ go r
         end) cs
  end.

(** Theorems about the execution order (C34, C35, C72). *)
From Coq Require Import Permutation.
From Verif Require Import Base GraphSpec GraphProofs OrderModel OrderSpec OrderProofs OrderProofs2.
Local Open Scope string_scope.
Local Open Scope nat_scope.
Local Open Scope list_scope.

(** ** C34 *)
(** set_order succeeds exactly for permutations of the subsystems' names; then the
    order is the one given and every name has the system it had; otherwise nothing
    changes. *)
Theorem set_order_permutes : forall S (g : group S) new, NoDup (list_order g) ->
    (Permutation new (list_order g) -> exists g', set_order g new = (g', None) /\ list_order g' = new /\ (forall n, sget (subs g') n = sget (subs g) n) /\ order_set g' = true) /\
    (~ Permutation new (list_order g) -> set_order g new = (g, Some ValueError)).
Proof.
  intros S g new ND. destruct (set_order_ok g new ND) as [H1 H2]. split; [|exact H2]. intros P. destruct (H1 P) as (g' & E & L & K & O & _). exists g'. auto.
Qed.
Print Assumptions set_order_permutes.
(** the local subsystems keep the order they were added in *)
Theorem set_order_keeps_local : forall S (g : group S) new, NoDup (list_order g) -> incl (local g) (list_order g) -> local (fst (set_order g new)) = local g.
Proof.
  intros S g new ND I. destruct (set_order_ok g new ND) as [H1 H2]. destruct (perm_dec (list_order g) new ND) as [P|NP]; [|rewrite (H2 NP); reflexivity].
  destruct (H1 P) as (g' & E & _ & _ & _ & L). rewrite E. cbn. rewrite L. clear -I. induction (local g) as [|x l IH]; [reflexivity|]. cbn.
  assert (K : inb (list_order g) x = true) by (apply inb_iff; apply I; left; reflexivity). rewrite K. rewrite IH; [reflexivity|]. intros y Hy. apply I. right. exact Hy.
Qed.
Print Assumptions set_order_keeps_local.
(** so after setup, iterating over the local subsystems does not follow the order *)
Theorem local_order_refuted : exists g : group nat, exists g', set_order (setup_communicators (fun _ => true) g) ["b"; "a"] = (g', None) /\
    list_order g' = ["b"; "a"] /\ local g' = ["a"; "b"].
Proof. exists (mkGroup [("a", 1); ("b", 2)] [] false). eexists. split; [reflexivity|]. split; reflexivity. Qed.
Print Assumptions local_order_refuted.

Example set_order_case : set_order (mkGroup [("a", 1); ("b", 2); ("c", 3)] ["a"; "c"] false) ["c"; "a"; "b"] = (mkGroup [("c", 3); ("a", 1); ("b", 2)] ["a"; "c"] true, None) /\
    snd (set_order (mkGroup [("a", 1); ("b", 2); ("c", 3)] [] false) ["c"; "a"; "a"]) = Some ValueError /\
    snd (set_order (mkGroup [("a", 1); ("b", 2); ("c", 3)] [] false) ["c"; "a"; "b"; "a"]) = Some ValueError.
Proof. split; [|split]; reflexivity. Qed.

(** ** C35 *)
(** For every function satisfying networkx's specifications, every tree of systems
    and every group in it: each subsystem of the group appears once; each
    connection between two of its subsystems goes from an earlier to a later one or
    is reported as broken; a broken edge is a connection on a cycle. *)
Theorem auto_order_follows_data : forall lt sccs topo t conns p cs, scc_spec sccs -> topo_spec topo -> wf_tree t -> conns_ok t conns -> find t p = Some (Node cs) ->
    exists order broken, list_auto_order lt sccs topo (sys_graph (subsystems [] t) conns) p = Some (order, broken) /\
      Permutation order (map fst cs) /\
      (forall a b, feeds p conns a b -> before order a b \/ In (p ++ [a], p ++ [b]) broken) /\
      (forall u v, In (u, v) broken -> exists a b, u = p ++ [a] /\ v = p ++ [b] /\ feeds p conns a b /\ depends p conns b a).
Proof. exact auto_order_l. Qed.
Print Assumptions auto_order_follows_data.

(** without cyclic dependencies nothing is broken *)
Theorem auto_order_acyclic : forall lt sccs topo t conns p cs, scc_spec sccs -> topo_spec topo -> wf_tree t -> conns_ok t conns -> find t p = Some (Node cs) ->
    (forall a b, feeds p conns a b -> ~ depends p conns b a) ->
    exists order, list_auto_order lt sccs topo (sys_graph (subsystems [] t) conns) p = Some (order, []) /\ Permutation order (map fst cs) /\
      forall a b, feeds p conns a b -> before order a b.
Proof.
  intros lt sccs topo t conns p cs SCC TOPO WT CO FP AC. destruct (auto_order_l lt sccs topo t conns p cs SCC TOPO WT CO FP) as (o & broken & E & P & B & X).
  assert (K : broken = []).
  { destruct broken as [|[u v] r]; [reflexivity|]. exfalso. destruct (X u v (or_introl eq_refl)) as (a & b & _ & _ & F & D). exact (AC a b F D). }
  subst broken. exists o. split; [exact E|]. split; [exact P|]. intros a b F. destruct (B a b F) as [K|[]]. exact K.
Qed.
Print Assumptions auto_order_acyclic.

(** the order is accepted by set_order *)
Theorem auto_order_accepted : forall S lt sccs topo t conns p cs (g : group S), scc_spec sccs -> topo_spec topo -> wf_tree t -> conns_ok t conns -> find t p = Some (Node cs) ->
    list_order g = map fst cs -> NoDup (map fst cs) -> order_set g = false ->
    exists g', auto_order lt sccs topo (sys_graph (subsystems [] t) conns) p g = (g', None) /\ Permutation (list_order g') (map fst cs) /\ order_set g' = true.
Proof.
  intros S lt sccs topo t conns p cs g SCC TOPO WT CO FP LG ND OS. destruct (auto_order_l lt sccs topo t conns p cs SCC TOPO WT CO FP) as (o & broken & E & P & _).
  unfold auto_order. rewrite OS, E. destruct (set_order_ok g o) as [H1 _]; [rewrite LG; exact ND|]. destruct H1 as (g' & E' & L & _ & O & _); [rewrite LG; exact P|].
  exists g'. rewrite L. auto.
Qed.
Print Assumptions auto_order_accepted.

(** functions satisfying the specifications exist *)
Theorem specifications_met : scc_spec (sccs_of path_dec) /\ topo_spec (topo_of path_dec) /\
    exists dfs : graph path -> path -> list path, forall g u v, wf_graph g -> In u (fst g) -> (In v (dfs g u) <-> (reach g u v /\ v <> u)).
Proof.
  split; [apply sccs_of_spec|]. split; [apply topo_of_spec|].
  exists (fun g u => filter (fun v => reachb path_dec g u v && negb (eqN path_dec v u)) (fst g)). intros g u v WF Hu. rewrite filter_In, Bool.andb_true_iff, (reachb_iff path_dec g u v WF), Bool.negb_true_iff.
  unfold eqN. destruct (path_dec v u) as [->|Hne]; [split; [intros [_ [_ K]]; discriminate|intros [_ K]; congruence]|]. split; [intros [_ [K _]]; auto|]. intros [K _]. split; [|auto].
  destruct (reach_last g u v K) as [->|(x & _ & E)]; [congruence|]. apply (proj2 WF) in E. tauto.
Qed.
Print Assumptions specifications_met.

Example auto_order_case :
  let t := Node [("c3", Leaf); ("g", Node [("d1", Leaf); ("d2", Leaf)]); ("c1", Leaf)] in
  let conns := [(["c1"; "y"], ["g"; "d1"; "x"], 1); (["g"; "d1"; "y"], ["g"; "d2"; "x"], 1); (["g"; "d2"; "y"], ["c3"; "x"], 2); (["c3"; "y"], ["c1"; "x"], 1)] in
  let lt := fun _ _ => false in
  list_auto_order lt (sccs_of path_dec) (topo_of path_dec) (sys_graph (subsystems [] t) conns) [] = Some (["c1"; "g"; "c3"], [(["c3"], ["c1"])]) /\
  list_auto_order lt (sccs_of path_dec) (topo_of path_dec) (sys_graph (subsystems [] t) conns) ["g"] = Some (["d1"; "d2"], []).
Proof. vm_compute. split; reflexivity. Qed.

(** ** C72 *)
(** add succeeds exactly for a new valid name in a group without a fixed order; the
    system goes last; otherwise nothing changes *)
Theorem add_appends : forall S reserved (g : group S) n s, let r := add reserved g n s in
    (snd r = None <-> order_set g = false /\ ~ In n (list_order g) /\ reserved n = false /\ valid_name n = true) /\
    (snd r = None -> subs (fst r) = subs g ++ [(n, s)] /\ order_set (fst r) = false) /\
    (snd r <> None -> fst r = g).
Proof. exact add_ok. Qed.
Print Assumptions add_appends.
(** in every history of a group the subsystems' names are distinct and valid *)
Theorem names_distinct : forall S reserved (ops : list (op S)), let g := fold_left (step reserved) ops (mkGroup [] [] false) in
    NoDup (list_order g) /\ Forall (fun n => valid_name n = true) (list_order g).
Proof. exact history_l. Qed.
Print Assumptions names_distinct.
(** a valid name contains no dot, so dotted paths can be split into names *)
Theorem valid_name_no_dot : forall s, valid_name s = true -> s <> EmptyString /\ ~ In "."%char (list_ascii_of_string s).
Proof.
  intros s H. unfold valid_name in H. destruct s as [|c s]; [discriminate|]. split; [discriminate|]. cbn [list_ascii_of_string] in *. apply Bool.andb_true_iff in H. destruct H as [H1 H2].
  intros [K|K]; [subst c; discriminate|]. rewrite forallb_forall in H2. specialize (H2 _ K). discriminate.
Qed.
Print Assumptions valid_name_no_dot.
Example add_case : fold_left (step (fun n => String.eqb n "name")) [Add "a" 1; Add "b" 2; Add "a" 3; Add "2x" 4; Add "name" 5; SetOrder ["b"; "a"]; Add "c" 6] (mkGroup [] [] false)
    = mkGroup [("b", 2); ("a", 1)] [] true.
Proof. reflexivity. Qed.

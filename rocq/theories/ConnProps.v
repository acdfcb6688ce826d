(** Theorems about connections (C37). *)
From Coq Require Import Permutation.
From Verif Require Import Base GraphSpec OrderModel PathModel NameModel NameSpec NameProofs ConnModel ConnSpec ConnProofs ConnProofs5.
Local Open Scope string_scope.
Local Open Scope nat_scope.
Local Open Scope list_scope.

(** For every depth first search with networkx's specification and every order in
    which a set is iterated: setting up the connections of a well-formed system fails
    with RuntimeError exactly if the names cannot be set up, with NameError exactly
    if they can and a connect call names a variable that does not exist or a target
    that is no param; otherwise it succeeds, or fails with IndexError, and then some
    chain of connections selects entries that no vector has. *)
Theorem connection_errors : forall dfs order s, dfs_tree_spec dfs -> (forall l, Permutation (order l) l) -> wf_sys s ->
    (setup_connections dfs order s = Err RuntimeError <-> faulty s) /\
    (setup_connections dfs order s = Err NameError <-> ~ faulty s /\ bad_name s) /\
    (forall e, setup_connections dfs order s = Err e -> e = RuntimeError \/ e = NameError \/
       (e = IndexError /\ exists u t l, In u (ulist s) /\ chain s u l t /\ forall V (v : list V), picks l v = None)).
Proof.
  intros dfs order s DF OR W. destruct (setup_connections_ok dfs order s DF OR W) as [[F E]|[(NF & B & E)|(NF & NB & [[E X]|(r & E & _)])]]; rewrite E.
  - split; [tauto|]. split; [split; [discriminate|tauto]|]. intros e K. injection K as <-. auto.
  - split; [split; [discriminate|tauto]|]. split; [tauto|]. intros e K. injection K as <-. auto.
  - split; [split; [discriminate|tauto]|]. split; [split; [discriminate|tauto]|]. intros e K. injection K as <-. auto.
  - split; [split; [discriminate|tauto]|]. split; [split; [discriminate|tauto]|]. discriminate.
Qed.
Print Assumptions connection_errors.

(** Every target is listed once; it is a param, its source an unknown joined to it by
    connections.  What the indices select is what the indices of a chain of declared
    connections select one after the other; only a param that no unknown feeds takes
    its source from the other end of an input-to-input connection. *)
Theorem connections_sound : forall dfs order s r, dfs_tree_spec dfs -> (forall l, Permutation (order l) l) -> wf_sys s -> setup_connections dfs order s = Ok r ->
    NoDup (map fst (connections r)) /\
    forall t u i, In (t, (u, i)) (connections r) -> In t (plist s) /\ In u (ulist s) /\ joined s u t /\
      ((exists l, chain s u l t /\ forall V (v w : list V), picks l v = Some w -> pick i v = Some w) \/ (i = None /\ forall u', In u' (ulist s) -> ~ feeds s u' t)).
Proof.
  intros dfs order s r DF OR W K. destruct (setup_connections_ok dfs order s DF OR W) as [[F E]|[(NF & B & E)|(NF & NB & [[E X]|(r' & E & H & _)])]]; [congruence|congruence|congruence|].
  assert (r' = r) by congruence. subst. exact H.
Qed.
Print Assumptions connections_sound.

(** Every chain of connections from an unknown is honoured: the param at its end has
    that source, or another unknown that feeds it, and then it is reported.  The
    params reported are exactly those that two unknowns feed. *)
Theorem connections_honoured : forall dfs order s r, dfs_tree_spec dfs -> (forall l, Permutation (order l) l) -> wf_sys s -> setup_connections dfs order s = Ok r ->
    (forall u t, In u (ulist s) -> u <> t -> feeds s u t -> exists u' i, In (t, (u', i)) (connections r) /\ feeds s u' t /\ (u' = u \/ In t (multiple r))) /\
    (forall t, In t (multiple r) <-> In t (plist s) /\ exists u u', In u (ulist s) /\ In u' (ulist s) /\ u <> u' /\ feeds s u t /\ feeds s u' t).
Proof.
  intros dfs order s r DF OR W K. destruct (setup_connections_ok dfs order s DF OR W) as [[F E]|[(NF & B & E)|(NF & NB & [[E X]|(r' & E & _ & H & _)])]]; [congruence|congruence|congruence|].
  assert (r' = r) by congruence. subst. exact H.
Qed.
Print Assumptions connections_honoured.

(** A param that nothing is connected to gets a source, or it is reported as
    unconnected together with everything it feeds, and then no unknown feeds any of
    these. *)
Theorem unconnected_reported : forall dfs order s r, dfs_tree_spec dfs -> (forall l, Permutation (order l) l) -> wf_sys s -> setup_connections dfs order s = Ok r ->
    forall n, In n (plist s) -> (forall a, ~ link s a n) ->
      ((exists x, In (n, x) (connections r)) /\ pget (inputs_of r) n = None) \/
      ((forall x, ~ In (n, x) (connections r)) /\ (exists l, pget (inputs_of r) n = Some l /\ forall x, In x l <-> feeds s n x) /\ pget (dangling_of r) (prom_of s n) <> None /\
       forall x u, feeds s n x -> In u (ulist s) -> ~ feeds s u x).
Proof.
  intros dfs order s r DF OR W K. destruct (setup_connections_ok dfs order s DF OR W) as [[F E]|[(NF & B & E)|(NF & NB & [[E X]|(r' & E & _ & _ & H)])]]; [congruence|congruence|congruence|].
  assert (r' = r) by congruence. subst. exact H.
Qed.
Print Assumptions unconnected_reported.

(** the depth first search of networkx has the specification assumed above *)
Theorem dfs_tree_spec_met : dfs_tree_spec dfs_edges.
Proof. exact dfs_edges_spec. Qed.
Print Assumptions dfs_tree_spec_met.

Ltac wf := match goal with
  | |- wf_sys (Comp _ _) => apply wf_comp; repeat constructor; cbn; intuition discriminate
  | |- wf_sys (Grp _ _) => apply wf_grp; [repeat constructor; cbn; intuition discriminate|];
      let n := fresh in let p := fresh in let c := fresh in let H := fresh in intros n p c H; cbn [In] in H;
      repeat (destruct H as [H|H]; [injection H; intros; subst; wf|]); destruct H
  end.
Definition all : list pattern := [fun _ => true].
Definition none : list pattern := [].

(** an explicit connection inside a group with indices, an input-to-input connection
    with indices at the top, an implicit connection, an unconnected input *)
Example connections_case :
  let s := Grp [("p", (none, Comp [] ["y"]));
                ("g", (none, Grp [("b", (none, Comp ["x"] ["z"])); ("c", (none, Comp ["x"; "w"] []))] []));
                ("q", (all, Comp [] ["m"])); ("r", (all, Comp ["m"; "n"] []))]
               [(["g"; "c"; "x"], [(["g"; "b"; "x"], Some [1])]); (["g"; "b"; "x"], [(["p"; "y"], Some [5; 6; 7])])] in
  wf_sys s /\ setup_connections dfs_edges (fun l => l) s =
    Ok (mkRes [(["g"; "b"; "x"], (["p"; "y"], Some [5; 6; 7])); (["g"; "c"; "x"], (["p"; "y"], Some [6])); (["r"; "m"], (["q"; "m"], None))] []
              [(["g"; "c"; "w"], [["g"; "c"; "w"]]); (["n"], [["r"; "n"]])] [(["g"; "c"; "w"], [["g"; "c"; "w"]]); (["r"; "n"], [["r"; "n"]])]).
Proof. cbv zeta. split; [wf|vm_compute; reflexivity]. Qed.

(** ** What does not hold *)
(** Three params share a name and the second is connected inside its group: the first
    takes that source, the third has neither a source nor a report. *)
Theorem third_input_refuted : exists s r, wf_sys s /\ setup_connections dfs_edges (fun l => l) s = Ok r /\
    connections r = [(["g"; "b"; "x"], (["g"; "s"; "y"], None)); (["a"; "x"], (["g"; "s"; "y"], None))] /\ multiple r = [] /\ dangling_of r = [] /\ In ["c"; "x"] (plist s) /\ prom_of s ["c"; "x"] = prom_of s ["a"; "x"].
Proof.
  exists (Grp [("a", (all, Comp ["x"] [])); ("g", (([fun n => String.eqb n "x"]), Grp [("s", (none, Comp [] ["y"])); ("b", (all, Comp ["x"] []))] [(["x"], [(["s"; "y"], None)])])); ("c", (all, Comp ["x"] []))] []).
  eexists. split; [wf|]. split; [vm_compute; reflexivity|]. split; [reflexivity|]. split; [reflexivity|]. split; [reflexivity|]. split; [cbn; auto|reflexivity].
Qed.
Print Assumptions third_input_refuted.

(** The indices of an explicit connection are lost if the same param and unknown are
    also connected implicitly. *)
Theorem indices_kept_refuted : exists s r, wf_sys s /\ setup_connections dfs_edges (fun l => l) s = Ok r /\
    explicit_conn s ["p"; "x"] ["c"; "x"] (Some [2]) /\ connections r = [(["c"; "x"], (["p"; "x"], None))] /\ multiple r = [].
Proof.
  exists (Grp [("p", (all, Comp [] ["x"])); ("c", (all, Comp ["x"] []))] [(["x"], [(["x"], Some [2])])]).
  eexists. split; [wf|]. split; [vm_compute; reflexivity|]. split; [|split; reflexivity].
  exists [], [("p", (all, Comp [] ["x"])); ("c", (all, Comp ["x"] []))], [(["x"], [(["x"], Some [2])])], ["x"], [(["x"], Some [2])], ["x"], ["p"; "x"], ["c"; "x"].
  split; [apply at_self|]. split; [left; reflexivity|]. split; [left; reflexivity|]. split; [split; [reflexivity|left; cbn; auto]|]. split; [split; [reflexivity|cbn; auto]|]. split; reflexivity.
Qed.
Print Assumptions indices_kept_refuted.

(** A param connected to a param with a source takes the whole source, not the
    entries the other param takes. *)
Theorem upstream_indices_refuted : exists s r, wf_sys s /\ setup_connections dfs_edges (fun l => l) s = Ok r /\
    explicit_conn s ["a"; "x"] ["b"; "x"] None /\ connections r = [(["b"; "x"], (["p"; "y"], Some [2])); (["a"; "x"], (["p"; "y"], None))].
Proof.
  set (subs := [("p", (none, Comp [] ["y"])); ("a", (none, Comp ["x"] [])); ("b", (none, Comp ["x"] []))]).
  set (src := [(["b"; "x"], [(["p"; "y"], Some [2]); (["a"; "x"], @None (list nat))])]).
  exists (Grp subs src). eexists. split; [unfold subs; wf|]. split; [vm_compute; reflexivity|]. split; [|reflexivity].
  exists [], subs, src, ["b"; "x"], [(["p"; "y"], Some [2]); (["a"; "x"], @None (list nat))], ["a"; "x"], ["a"; "x"], ["b"; "x"].
  split; [apply at_self|]. split; [left; reflexivity|]. split; [right; left; reflexivity|]. split; [split; [reflexivity|right; split; [cbn; auto|]]|].
  - intros u [<-|[]]. discriminate.
  - split; [split; [reflexivity|cbn; auto]|]. split; reflexivity.
Qed.
Print Assumptions upstream_indices_refuted.

(** Inputs connected in a circle have neither a source nor a report. *)
Theorem input_cycle_refuted : exists s, wf_sys s /\ setup_connections dfs_edges (fun l => l) s = Ok (mkRes [] [] [] []) /\ plist s = [["a"; "x"]; ["b"; "x"]].
Proof.
  exists (Grp [("a", (none, Comp ["x"] [])); ("b", (none, Comp ["x"] []))] [(["a"; "x"], [(["b"; "x"], None)]); (["b"; "x"], [(["a"; "x"], None)])]).
  split; [wf|]. split; vm_compute; reflexivity.
Qed.
Print Assumptions input_cycle_refuted.

(** An input connected to two inputs with different sources takes the first of them,
    and this is not reported. *)
Theorem upstream_conflict_refuted : exists s r, wf_sys s /\ setup_connections dfs_edges (fun l => l) s = Ok r /\ multiple r = [] /\
    connections r = [(["b"; "x"], (["p"; "y"], None)); (["c"; "x"], (["p"; "z"], None)); (["a"; "x"], (["p"; "y"], None))] /\
    link s ["a"; "x"] ["b"; "x"] /\ link s ["a"; "x"] ["c"; "x"].
Proof.
  set (subs := [("p", (none, Comp [] ["y"; "z"])); ("a", (none, Comp ["x"] [])); ("b", (none, Comp ["x"] [])); ("c", (none, Comp ["x"] []))]).
  set (src := [(["b"; "x"], [(["p"; "y"], @None (list nat)); (["a"; "x"], None)]); (["c"; "x"], [(["p"; "z"], None); (["a"; "x"], None)])]).
  exists (Grp subs src). eexists. split; [unfold subs; wf|]. split; [vm_compute; reflexivity|]. split; [reflexivity|]. split; [reflexivity|].
  split; left; exists None.
  - exists [], subs, src, ["b"; "x"], [(["p"; "y"], @None (list nat)); (["a"; "x"], None)], ["a"; "x"], ["a"; "x"], ["b"; "x"].
    split; [apply at_self|]. split; [left; reflexivity|]. split; [right; left; reflexivity|]. split; [split; [reflexivity|right; split; [cbn; auto|]]|].
    + intros u [<-|[<-|[]]]; discriminate.
    + split; [split; [reflexivity|cbn; auto]|]. split; reflexivity.
  - exists [], subs, src, ["c"; "x"], [(["p"; "z"], @None (list nat)); (["a"; "x"], None)], ["a"; "x"], ["a"; "x"], ["c"; "x"].
    split; [apply at_self|]. split; [right; left; reflexivity|]. split; [right; left; reflexivity|]. split; [split; [reflexivity|right; split; [cbn; auto|]]|].
    + intros u [<-|[<-|[]]]; discriminate.
    + split; [split; [reflexivity|cbn; auto]|]. split; reflexivity.
Qed.
Print Assumptions upstream_conflict_refuted.

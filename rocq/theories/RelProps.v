(** Theorems about relevance (C39). *)
From Verif Require Import Base BaseFacts GraphSpec GraphProofs OrderModel OrderSpec OrderProofs2 RelModel RelSpec RelProofs.
Local Open Scope string_scope.
Local Open Scope list_scope.

(** Setting: a tree of systems, its connections, inputs and outputs of interest,
    all belonging to systems of the tree; r is the result of the graph search. *)
Definition setting (dfs : graph path -> path -> list path) abs prom t conns ins outs (r : list (string * list path)) : Prop :=
  dfs_spec dfs /\ wf_tree t /\ (forall n, In n ins \/ In n outs -> removelast (abs n) <> [] /\ find t (removelast (abs n)) <> None /\ prom (abs n) = n) /\
  r = relevant0 dfs abs (sys_graph (subsystems [] t) conns) ins outs.

(** Every system on a path from input i to output o, and every system above it, is
    relevant to o, *)
Theorem systems_relevant_to_output : forall dfs abs prom t conns ins outs r, setting dfs abs prom t conns ins outs r ->
    forall i o c p, In i ins -> In o outs -> on_path conns (abs i) (abs o) c -> p = c \/ above p c -> is_relevant_system r (Some o) p = Ok true.
Proof.
  intros dfs abs prom t conns ins outs r (DFS & WT & K & ->) i o c p Hi Ho HP Hp.
  assert (KI : forall x, In x ins -> known abs t x) by (intros x Hx; destruct (K x) as (A & B & _); [auto|split; assumption]).
  assert (KO : forall x, In x outs -> known abs t x) by (intros x Hx; destruct (K x) as (A & B & _); [auto|split; assumption]).
  set (r := relevant0 _ _ _ _ _). destruct (system_iff r o p) as (b & E & H); [apply (rel_keys dfs DFS abs t conns WT ins KI outs o KO); auto|]. rewrite E. f_equal. apply H.
  exists c. split; [eapply rel_out; eauto|]. destruct Hp as [->|Hp]; [auto|]. destruct (path_dec p c); auto.
Qed.
Print Assumptions systems_relevant_to_output.
(** and to i, unless i is itself handled as an output after o *)
Theorem systems_relevant_to_input : forall dfs abs prom t conns ins outs r, setting dfs abs prom t conns ins outs r ->
    forall i o pre post c p, In i ins -> outs = pre ++ o :: post -> ~ In i post -> on_path conns (abs i) (abs o) c -> p = c \/ above p c -> is_relevant_system r (Some i) p = Ok true.
Proof.
  intros dfs abs prom t conns ins outs r (DFS & WT & K & ->) i o pre post c p Hi Eo Hn HP Hp.
  assert (KI : forall x, In x ins -> known abs t x) by (intros x Hx; destruct (K x) as (A & B & _); [auto|split; assumption]).
  assert (KO : forall x, In x outs -> known abs t x) by (intros x Hx; destruct (K x) as (A & B & _); [auto|split; assumption]).
  set (r := relevant0 _ _ _ _ _). destruct (system_iff r i p) as (b & E & H); [apply (rel_keys dfs DFS abs t conns WT ins KI outs i KO); auto|]. rewrite E. f_equal. apply H.
  exists c. split; [unfold r; subst outs; apply rel_in; assumption|]. destruct Hp as [->|Hp]; [auto|]. destruct (path_dec p c); auto.
Qed.
Print Assumptions systems_relevant_to_input.

Lemma vars_relevant : forall dfs abs prom t conns ins outs r n i o v, setting dfs abs prom t conns ins outs r -> In i ins -> In o outs -> In n ins \/ In n outs ->
    (forall c, on_path conns (abs i) (abs o) c -> In c (get r n)) -> var_on_path conns (abs i) (abs o) v -> is_relevant abs prom conns r n (prom v) = true.
Proof.
  intros dfs abs prom t conns ins outs r n i o v (DFS & WT & K & ->) Hi Ho Hn H HV.
  assert (KI : forall x, In x ins -> known abs t x) by (intros x Hx; destruct (K x) as (A & B & _); [auto|split; assumption]).
  assert (KO : forall x, In x outs -> known abs t x) by (intros x Hx; destruct (K x) as (A & B & _); [auto|split; assumption]).
  set (r := relevant0 _ _ _ _ _) in *. pose proof (fun x => rel_keys dfs DFS abs t conns WT ins KI outs x KO) as RK. fold r in RK. apply var_iff; [apply RK; exact Hn|]. destruct HV as [[[->| ->] F]|(s & d & w & HC & HV & F1 & F2)].
  - left. rewrite (proj2 (proj2 (K i (or_introl Hi)))). split; [|apply H; split; [apply flow_refl|exact F]].
    destruct (in_dec string_dec i (dkeys r)) as [Y|N]; [exact Y|]. exfalso. apply (proj2 (RK i)); [auto|]. apply (dget_none String.eqb String.eqb_eq). exact N.
  - left. rewrite (proj2 (proj2 (K o (or_intror Ho)))). split; [|apply H; split; [exact F|apply flow_refl]].
    destruct (in_dec string_dec o (dkeys r)) as [Y|N]; [exact Y|]. exfalso. apply (proj2 (RK o)); [auto|]. apply (dget_none String.eqb String.eqb_eq). exact N.
  - right. exists s, d, w. split; [exact HC|]. split; [destruct HV as [->| ->]; auto|]. assert (SD : flow conns (removelast s) (removelast d)) by (eapply flow_step; [exact HC|apply flow_refl]).
    split; apply H; split; eauto using flow_trans.
Qed.
(** The same for variables: those at the ends of the path and those at the ends of
    each of its connections. *)
Theorem vars_relevant_to_output : forall dfs abs prom t conns ins outs r, setting dfs abs prom t conns ins outs r ->
    forall i o v, In i ins -> In o outs -> var_on_path conns (abs i) (abs o) v -> is_relevant abs prom conns r o (prom v) = true.
Proof.
  intros dfs abs prom t conns ins outs r ST i o v Hi Ho HV. eapply vars_relevant; [exact ST|exact Hi|exact Ho|auto| |exact HV]. destruct ST as (DFS & WT & K & ->). intros c Hc.
  eapply rel_out; eauto; intros x Hx; (destruct (K x) as (A & B & _); [auto|split; assumption]).
Qed.
Print Assumptions vars_relevant_to_output.
Theorem vars_relevant_to_input : forall dfs abs prom t conns ins outs r, setting dfs abs prom t conns ins outs r ->
    forall i o pre post v, In i ins -> outs = pre ++ o :: post -> ~ In i post -> var_on_path conns (abs i) (abs o) v -> is_relevant abs prom conns r i (prom v) = true.
Proof.
  intros dfs abs prom t conns ins outs r ST i o pre post v Hi Eo Hn HV. assert (Ho : In o outs) by (subst; apply in_or_app; right; left; reflexivity).
  eapply vars_relevant; [exact ST|exact Hi|exact Ho|auto| |exact HV]. destruct ST as (DFS & WT & K & ->). intros c Hc. subst outs.
  apply rel_in; try assumption; intros x Hx; (destruct (K x) as (A & B & _); [auto|split; assumption]).
Qed.
Print Assumptions vars_relevant_to_input.

(** Nothing else is relevant: a relevant system lies on a path between the variable
    and one of the other kind, or above such a system; a relevant variable belongs
    to such systems. *)
Theorem relevant_only_on_paths : forall dfs abs prom t conns ins outs r, setting dfs abs prom t conns ins outs r ->
    forall n, In n ins \/ In n outs ->
    let between := fun c => (In n ins /\ exists o, In o outs /\ on_path conns (abs n) (abs o) c) \/ (In n outs /\ exists i, In i ins /\ on_path conns (abs i) (abs n) c) in
    (forall p, is_relevant_system r (Some n) p = Ok true -> exists c, between c /\ (p = c \/ above p c)) /\
    (forall v, is_relevant abs prom conns r n v = true ->
       ((In v ins \/ In v outs) /\ between (removelast (abs v))) \/ exists s d w, In (s, d, w) conns /\ (v = prom s \/ v = prom d) /\ between (removelast s) /\ between (removelast d)).
Proof.
  intros dfs abs prom t conns ins outs r (DFS & WT & K & ->) n Hn.
  assert (KI : forall x, In x ins -> known abs t x) by (intros x Hx; destruct (K x) as (A & B & _); [auto|split; assumption]).
  assert (KO : forall x, In x outs -> known abs t x) by (intros x Hx; destruct (K x) as (A & B & _); [auto|split; assumption]).
  cbv zeta. set (r := relevant0 _ _ _ _ _) in *. pose proof (fun x => rel_keys dfs DFS abs t conns WT ins KI outs x KO) as RK. fold r in RK.
  pose proof (fun c => rel_sound dfs DFS abs t conns WT ins KI outs n c KO) as SND. fold r in SND. split.
  - intros p H. destruct (system_iff r n p) as (b & E & S); [apply RK; exact Hn|]. rewrite E in H. injection H as ->. destruct (proj1 S eq_refl) as (c & Hc & Hp). exists c. split; [apply SND; exact Hc|]. tauto.
  - intros v H. apply var_iff in H; [|apply RK; exact Hn]. destruct H as [[H1 H2]|(s & d & w & H1 & H2 & H3 & H4)].
    + left. split; [|apply SND; exact H2]. apply RK. intros E. apply (dget_none String.eqb String.eqb_eq) in E. contradiction.
    + right. exists s, d, w. split; [exact H1|]. split; [exact H2|]. split; apply SND; assumption.
Qed.
Print Assumptions relevant_only_on_paths.

(** without a variable of interest everything is relevant *)
Theorem relevant_to_none : forall r p, is_relevant_system r None p = Ok true.
Proof. reflexivity. Qed.
Print Assumptions relevant_to_none.
(** to a name that is not a variable of interest every variable is relevant, and asking
    for the systems relevant to it is an error *)
Theorem relevant_to_other : forall dfs abs prom t conns ins outs r, setting dfs abs prom t conns ins outs r ->
    forall n, ~ In n ins -> ~ In n outs -> (forall v, is_relevant abs prom conns r n v = true) /\ forall p, is_relevant_system r (Some n) p = Err KeyError.
Proof.
  intros dfs abs prom t conns ins outs r (DFS & WT & K & ->) n Ni No.
  assert (KI : forall x, In x ins -> known abs t x) by (intros x Hx; destruct (K x) as (A & B & _); [auto|split; assumption]).
  assert (KO : forall x, In x outs -> known abs t x) by (intros x Hx; destruct (K x) as (A & B & _); [auto|split; assumption]).
  set (r := relevant0 _ _ _ _ _). assert (E : sget r n = None).
  { destruct (sget r n) eqn:E; [|reflexivity]. exfalso. destruct (proj1 (rel_keys dfs DFS abs t conns WT ins KI outs n KO)); [fold r; rewrite E; discriminate|contradiction|contradiction]. }
  unfold is_relevant, is_relevant_system, relvars, relsystems. rewrite (sget_map2 (fun l => vois abs r l ++ conn_vars prom conns l)), (sget_map (fun l => l ++ flat_map ancestors l)), E. split; reflexivity.
Qed.
Print Assumptions relevant_to_other.

Theorem dfs_spec_met : forall N (N_dec : forall x y : N, {x = y} + {x <> y}), exists dfs : graph N -> N -> list N, dfs_spec dfs.
Proof. exact dfs_exists. Qed.
Print Assumptions dfs_spec_met.

(** A design variable that is also a constraint, listed after the objective, loses
    what lies between it and the objective: whatever the graph search, with the
    connections x -> c -> f the component c is not relevant to x. *)
Definition chain_tree : tree := Node [("p", Leaf); ("c", Leaf); ("d", Leaf)].
Definition chain_conns : list (path * path * nat) := [(["p"; "x"], ["c"; "x"], 1%nat); (["c"; "y"], ["d"; "y"], 1%nat)].
Definition chain_abs (n : string) : path := if String.eqb n "x" then ["p"; "x"] else if String.eqb n "f" then ["d"; "f"] else [n; n].
Definition chain_prom (p : path) : string := if path_dec p ["p"; "x"] then "x" else if path_dec p ["d"; "f"] then "f" else String.concat "." p.
Lemma chain_setting : forall dfs outs, dfs_spec dfs -> incl outs ["x"; "f"] ->
    setting dfs chain_abs chain_prom chain_tree chain_conns ["x"] outs (relevant0 dfs chain_abs (sys_graph (subsystems [] chain_tree) chain_conns) ["x"] outs).
Proof.
  intros dfs outs D I. split; [exact D|]. split; [|split; [|reflexivity]].
  - constructor; [repeat constructor; cbn; intuition discriminate|]. intros n c [E|[E|[E|[]]]]; injection E as <- <-; constructor.
  - intros n Hn. assert (K : In n ["x"; "f"]) by (destruct Hn as [[<-|[]]|Hn]; [left; reflexivity|apply I; exact Hn]). destruct K as [<-|[<-|[]]]; cbn; repeat split; discriminate.
Qed.
Theorem relevant_to_input_refuted : forall dfs, dfs_spec dfs ->
    let r := relevant0 dfs chain_abs (sys_graph (subsystems [] chain_tree) chain_conns) ["x"] ["f"; "x"] in
    on_path chain_conns (chain_abs "x") (chain_abs "f") ["c"] /\ is_relevant_system r (Some "x") ["c"] = Ok false /\ is_relevant_system r (Some "f") ["c"] = Ok true.
Proof.
  intros dfs D r. assert (ON : on_path chain_conns (chain_abs "x") (chain_abs "f") ["c"]).
  { split.
    - apply (flow_step chain_conns ["p"; "x"] ["c"; "x"] 1%nat ["c"]); [left; reflexivity|apply flow_refl].
    - apply (flow_step chain_conns ["c"; "y"] ["d"; "y"] 1%nat ["d"]); [right; left; reflexivity|apply flow_refl]. }
  assert (ST : setting dfs chain_abs chain_prom chain_tree chain_conns ["x"] ["f"; "x"] r) by (apply chain_setting; [exact D|intros n [<-|[<-|[]]]; cbn; auto]).
  split; [exact ON|]. split.
  - assert (KN : forall n, In n ["x"; "f"] -> known chain_abs chain_tree n) by (intros n [<-|[<-|[]]]; split; cbn; discriminate).
    assert (KI : forall n, In n ["x"] -> known chain_abs chain_tree n) by (intros n [<-|[]]; apply KN; cbn; auto).
    assert (KO : forall n, In n ["f"; "x"] -> known chain_abs chain_tree n) by (intros n [<-|[<-|[]]]; apply KN; cbn; auto).
    destruct ST as (_ & WT & _). destruct (system_iff r "x" ["c"]) as (b & E & H); [apply (rel_keys dfs D chain_abs chain_tree chain_conns WT ["x"] KI ["f"; "x"] "x" KO); cbn; auto|].
    rewrite E. destruct b; [|reflexivity]. exfalso. destruct (proj1 H eq_refl) as (q & Hq & Hp).
    assert (SNK : forall a b, flow chain_conns a b -> b = ["p"] -> a = ["p"]).
    { intros a b F. induction F as [|s t w e HIn F IH]; [auto|]. intros Eb. specialize (IH Eb). destruct HIn as [X|[X|[]]]; injection X as <- <- _; cbn in IH; discriminate. }
    unfold r in Hq. change ["f"; "x"] with (["f"] ++ ["x"]) in Hq. unfold relevant0 in Hq. rewrite fold_left_app in Hq. cbn [fold_left] in Hq.
    apply (output_step_iff dfs D chain_abs chain_tree chain_conns WT ["x"]) in Hq; [|exact KI|apply KN; cbn; auto]. cbn [String.eqb] in Hq. destruct Hq as (i & [<-|[]] & _ & F). cbn in F. pose proof (SNK _ _ F eq_refl) as ->.
    destruct Hp as [K|[[_ (x & K)] _]]; discriminate.
  - eapply systems_relevant_to_output; [exact ST|left; reflexivity|left; reflexivity|exact ON|left; reflexivity].
Qed.
Print Assumptions relevant_to_input_refuted.

(** with the constraint listed first nothing is lost *)
Example relevant_case : forall dfs, dfs_spec dfs ->
    let r := relevant0 dfs chain_abs (sys_graph (subsystems [] chain_tree) chain_conns) ["x"] ["x"; "f"] in
    is_relevant_system r (Some "x") ["c"] = Ok true /\ is_relevant chain_abs chain_prom chain_conns r "x" "c.y" = true.
Proof.
  intros dfs D r. assert (ST : setting dfs chain_abs chain_prom chain_tree chain_conns ["x"] ["x"; "f"] r) by (apply chain_setting; [exact D|apply incl_refl]).
  assert (F1 : flow chain_conns ["p"] ["c"]) by (apply (flow_step chain_conns ["p"; "x"] ["c"; "x"] 1%nat ["c"]); [left; reflexivity|apply flow_refl]).
  assert (F2 : flow chain_conns ["c"] ["d"]) by (apply (flow_step chain_conns ["c"; "y"] ["d"; "y"] 1%nat ["d"]); [right; left; reflexivity|apply flow_refl]). split.
  - eapply (systems_relevant_to_input _ _ _ _ _ _ _ _ ST "x" "f" ["x"] []); [left; reflexivity|reflexivity|intros []|split; eassumption|left; reflexivity].
  - apply (vars_relevant_to_input _ _ _ _ _ _ _ _ ST "x" "f" ["x"] [] ["c"; "y"]); [left; reflexivity|reflexivity|intros []|]. right. exists ["c"; "y"], ["d"; "y"], 1%nat.
    split; [right; left; reflexivity|]. split; [left; reflexivity|]. split; [exact F1|apply flow_refl].
Qed.

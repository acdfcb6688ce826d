(** The design of experiments over local processes (C44). *)
From Coq Require Import Permutation.
From Verif Require Import Base EvalSpec MpModel MpProofs.
Local Open Scope nat_scope.

(** For all cases and every number of workers, if no worker dies and none refuses cases
    after a fatal failure (with load_balance=True none does): under every schedule the
    run ends and all workers have exited.  Every case that was handed out was run
    exactly once, under its own number; a case is recorded exactly once, with its number
    and the values of its run, if it did not fail fatally, and not recorded if it did.
    Cases were not handed out only if some case failed fatally. *)
Theorem mp_run : forall C V (ev : nat * C -> outcome V -> Prop), (forall t, exists o, ev t o) -> (forall t, ~ ev t Crash) -> (forall t, ~ ev t (Fatal true)) ->
  forall cs n, 1 <= n ->
  always_ends (step ev) (init cs n) (fun s =>
    finished s /\ Permutation (combine (seq 0 (length cs)) cs) (map fst (runs s) ++ combine (seq (iter_count s) (length (left s))) (left s)) /\
    (forall t o, In (t, o) (runs s) -> ev t o) /\
    Permutation (recorded s) (flat_map (fun e => match snd e with Good v => [(fst (fst e), v)] | _ => [] end) (runs s)) /\
    (left s <> [] -> exists t b, In (t, Fatal b) (runs s))).
Proof. intros C V ev T NC NS cs n N. exact (run_done C V ev cs n N T NC NS). Qed.
Print Assumptions mp_run.

(** If no case fails fatally, all cases are run and recorded. *)
Theorem mp_all_recorded : forall C V (ev : nat * C -> outcome V -> Prop), (forall t, exists o, ev t o) -> (forall t o, ev t o -> exists v, o = Good v) ->
  forall cs n, 1 <= n ->
  always_ends (step ev) (init cs n) (fun s =>
    finished s /\ Permutation (map fst (runs s)) (combine (seq 0 (length cs)) cs) /\
    Permutation (map fst (recorded s)) (seq 0 (length cs)) /\
    (forall k v, In (k, v) (recorded s) -> exists c, nth_error cs k = Some c /\ ev (k, c) (Good v))).
Proof.
  intros C V ev T G cs n N. destruct (mp_run C V ev T) with (cs := cs) (n := n) as [B F]; [intros t E; destruct (G _ _ E); discriminate|intros t E; destruct (G _ _ E); discriminate|exact N|]. split; [exact B|]. intros s X NS. destruct (F s X NS) as (F1 & F2 & F3 & F4 & F5).
  assert (L : left s = []). { destruct (left s) as [|c l]; [reflexivity|]. destruct F5 as (t & b & H); [discriminate|]. apply F3 in H. destruct (G _ _ H); discriminate. }
  rewrite L in F2. cbn in F2. rewrite app_nil_r in F2. split; [exact F1|]. split; [symmetry; exact F2|]. split.
  - transitivity (map fst (map fst (runs s))).
    + rewrite F4. replace (map fst (flat_map (fun e => match snd e with Good v => [(fst (fst e), v)] | _ => [] end) (runs s))) with (map fst (map fst (runs s))); [reflexivity|].
      assert (K : forall t o, In (t, o) (runs s) -> exists v, o = Good v) by (intros t o H; exact (G _ _ (F3 _ _ H))). clear -K. induction (runs s) as [|[t o] r IH]; [reflexivity|]. destruct (K t o (or_introl eq_refl)) as (v & ->). cbn. f_equal. apply IH. intros t' o' H. apply (K t'). right. exact H.
    + rewrite <- F2. clear. generalize 0. induction cs as [|c cs IH]; intros k; [reflexivity|]. cbn. apply perm_skip. apply IH.
  - intros k v H. rewrite F4 in H. apply in_flat_map in H. destruct H as ([[k' c] o] & H1 & H2). cbn in H2. destruct o as [v'| |]; [|destruct H2|destruct H2]. destruct H2 as [H2|[]]. injection H2 as -> ->. exists c. split; [|exact (F3 _ _ H1)].
    assert (I : In (k, c) (combine (seq 0 (length cs)) cs)) by (rewrite F2; apply (in_map fst _ _ H1)). clear -I. assert (K : forall j, In (k, c) (combine (seq j (length cs)) cs) -> j <= k /\ nth_error cs (k - j) = Some c); [|destruct (K 0 I) as [_ K']; rewrite Nat.sub_0_r in K'; exact K'].
    clear I. induction cs as [|x cs IH]; intros j I; [destruct I|]. cbn in I. destruct I as [I|I]; [injection I as -> ->; split; [lia|]; rewrite Nat.sub_diag; reflexivity|]. destruct (IH (S j) I) as [K1 K2]. split; [lia|]. replace (k - j) with (S (k - S j)) by lia. exact K2.
Qed.
Print Assumptions mp_all_recorded.

(** an evaluation: case 9 raises an exception that is not an AnalysisError, while
    load_balance is [lb]; case 7 kills the worker; the others give their own value *)
Definition ex_ev (lb : bool) (t : nat * nat) (o : outcome nat) : Prop := o = if snd t =? 9 then Fatal (negb lb) else if snd t =? 7 then Crash else Good (snd t).
Example mp_run_used : exists s, exec (step (ex_ev true)) (init [3; 9; 5; 6] 2) s /\ finished s /\ recorded s = [(0, 3); (2, 5)] /\ left s = [6].
Proof.
  eexists. split; [|split; [|split]].
  - unfold init. cbn. eapply exec_cons; [apply s_start|]. cbn.
    eapply exec_cons; [apply (s_take _ _ _ _ _ _ _ _ _ _ _ [] _ [_])|]; cbn. eapply exec_cons; [apply (s_take _ _ _ _ _ _ _ _ _ _ _ [_] _ [])|]; cbn.
    eapply exec_cons; [eapply (s_run _ _ _ _ _ _ _ _ _ _ [] _ _ _ [_]); [reflexivity|discriminate]|]; cbn. eapply exec_cons; [apply (s_get _ _ _ _ _ _ _ [] _ _ []); lia|]; cbn.
    eapply exec_cons; [eapply (s_run _ _ _ _ _ _ _ _ _ _ [_] _ _ _ []); [reflexivity|discriminate]|]; cbn. eapply exec_cons; [apply (s_get _ _ _ _ _ _ _ [] _ _ []); lia|]; cbn.
    eapply exec_cons; [apply (s_take _ _ _ _ _ _ _ _ _ _ _ [] _ [_])|]; cbn. eapply exec_cons; [eapply (s_run _ _ _ _ _ _ _ _ _ _ [] _ _ _ [_]); [reflexivity|discriminate]|]; cbn.
    eapply exec_cons; [apply (s_drain _ _ _ _ _ _ _ _ [] _ _ [])|]; cbn. eapply exec_cons; [apply s_drained|]; cbn.
    eapply exec_cons; [apply (s_exit _ _ _ _ _ _ _ _ _ _ [_] _ [])|]; cbn. eapply exec_cons; [apply (s_exit _ _ _ _ _ _ _ _ _ _ [] _ [_])|]; cbn.
    eapply exec_cons; [apply s_join; cbn; repeat constructor|]; cbn. apply exec_nil.
  - split; [reflexivity|]. cbn. repeat constructor.
  - reflexivity.
  - reflexivity.
Qed.

Ltac stuck := let u := fresh "u" in let H := fresh "H" in intros u H; inversion H; subst;
  try match goal with E : _ ++ _ :: _ = [] |- _ => apply app_eq_nil in E; destruct E; discriminate end;
  try match goal with E : ?p ++ _ :: _ = [_; _] |- _ => destruct p as [|? [|? [|? ?]]]; cbn in E; discriminate E end.
(** With load_balance=False, the default: a worker whose case failed fatally drops the next
    case it takes, and the main process waits for its response for ever. *)
Theorem mp_fatal_hang_refuted : can_hang (step (ex_ev false)) (init [9; 3] 2) finished.
Proof.
  eexists. split; [|split].
  - unfold init. cbn. eapply exec_cons; [apply s_start|]. cbn.
    eapply exec_cons; [apply (s_take _ _ _ _ _ _ _ _ _ _ _ [] _ [_])|]; cbn. eapply exec_cons; [eapply (s_run _ _ _ _ _ _ _ _ _ _ [] _ _ _ [_]); [reflexivity|discriminate]|]; cbn.
    eapply exec_cons; [apply (s_take _ _ _ _ _ _ _ _ _ _ _ [] _ [_])|]; cbn.
    eapply exec_cons; [apply (s_get _ _ _ _ _ _ _ [] _ _ []); lia|]; cbn.
    eapply exec_cons; [apply (s_exit _ _ _ _ _ _ _ _ _ _ [] _ [_])|]; cbn. eapply exec_cons; [apply (s_exit _ _ _ _ _ _ _ _ _ _ [_] _ [])|]; cbn. apply exec_nil.
  - stuck.
  - intros [H _]. discriminate H.
Qed.
Print Assumptions mp_fatal_hang_refuted.
(** When setting the design variables of a case raises, the worker dies and the main
    process waits for ever. *)
Theorem mp_crash_hang_refuted : can_hang (step (ex_ev true)) (init [7] 2) finished.
Proof.
  eexists. split; [|split].
  - unfold init. cbn. eapply exec_cons; [apply s_start|]. cbn.
    eapply exec_cons; [apply (s_take _ _ _ _ _ _ _ _ _ _ _ [] _ [_])|]; cbn. eapply exec_cons; [eapply (s_crash _ _ _ _ _ _ _ _ _ _ [] _ _ [_]); reflexivity|]; cbn.
    eapply exec_cons; [apply (s_exit _ _ _ _ _ _ _ _ _ _ [_] _ [])|]; cbn. apply exec_nil.
  - stuck.
  - intros [H _]. discriminate H.
Qed.
Print Assumptions mp_crash_hang_refuted.

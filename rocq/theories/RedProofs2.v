(** Proofs for RedProps.v: the variables found relevant by relevance.py suffice. *)
From Verif Require Import Base BaseFacts GraphSpec OrderModel OrderSpec OrderProofs2 RelModel RelSpec RelProofs RelProps LinModel LinSpec GradModel GradSpec RedModel RedSpec.
Local Open Scope nat_scope.
Local Open Scope list_scope.

Section Link.
  Context {F : Type} (F1 : F) (fmul : F -> F -> F) (fopp : F -> F).
  Variables (dfs : graph path -> path -> list path) (abs : string -> path) (prom : path -> string) (t : tree) (conns : list (path * path * nat))
    (ins outs : list string) (r : list (string * list path)).
  Hypothesis ST : setting dfs abs prom t conns ins outs r.
  Variables (owner : nat -> path) (s : sys (F:=F)).
  Hypothesis NF : names_fit prom abs conns (ins ++ outs) owner s.

  Lemma comp_of : forall n k, In k (rows s) -> In n ins \/ In n outs ->
      let between := fun c => (In n ins /\ exists o, In o outs /\ on_path conns (abs n) (abs o) c) \/ (In n outs /\ exists i, In i ins /\ on_path conns (abs i) (abs n) c) in
      is_relevant abs prom conns r n (prom (owner k)) = true -> between (removelast (owner k)).
  Proof.
    intros n k Hk Hn between H. destruct (NF k Hk) as [N1 N2].
    destruct (relevant_only_on_paths dfs abs prom t conns ins outs r ST n Hn) as [_ V]. destruct (V _ H) as [[Hv B]|(a & b & w & Hc & Hv & B1 & B2)].
    - rewrite (N2 (prom (owner k))) by (auto; apply in_or_app; tauto). exact B.
    - rewrite (N1 a b w Hc Hv). exact B1.
  Qed.
  Definition is_in (l : list path) (c : path) : bool := if in_dec path_dec c l then true else false.
  Lemma is_in_iff : forall l c, is_in l c = true <-> In c l.
  Proof. intros l c. unfold is_in. destruct (in_dec path_dec c l); intuition discriminate. Qed.
  Lemma is_known : forall n, In n ins \/ In n outs -> known abs t n.
  Proof. intros n Hn. destruct ST as (_ & _ & K & _). destruct (K n Hn) as (A & B & _). split; assumption. Qed.

  Lemma suffices_fwd : forall n, In n ins -> ~ In n outs ->
    let keep := fun k => is_relevant abs prom conns r n (prom (owner k)) in
    through F1 fmul fopp conns owner keep s -> forall froms asked,
    (forall q, In q froms -> owner q = abs n) -> (forall k, In k asked -> exists o, In o outs /\ owner k = abs o) ->
    (forall a b, depends F1 fmul fopp s a b -> In a (rows s)) ->
    relevant F1 fmul fopp keep true s froms asked.
  Proof.
    intros n Hn No keep T froms asked Hf Ha Hd.
    pose proof ST as (DFS & WT & K & Er).
    set (g := sys_graph (subsystems [] t) conns).
    assert (Fi : forall c, is_in (from dfs abs g n) c = true <-> flow conns (removelast (abs n)) c).
    { intros c. rewrite is_in_iff. apply (from_iff dfs DFS abs t conns WT n c). apply is_known. auto. }
    assert (KB : forall k, In k (rows s) -> keep k = true -> exists o, In o outs /\ on_path conns (abs n) (abs o) (removelast (owner k))).
    { intros k Hk Kk. destruct (comp_of n k Hk (or_introl Hn) Kk) as [[_ H]|[H _]]; [exact H|contradiction]. }
    exists (fun k => is_in (from dfs abs g n) (removelast (owner k))). split; [|split; [|split; [|split]]].
    - intros q Hq. apply Fi. rewrite (Hf q Hq). apply flow_refl.
    - intros a b D H. apply Fi in H. apply Fi. destruct (T a b D) as [->|[(tgt & w & Hc & E)|[E _]]]; [exact H| |rewrite E; exact H].
      apply (flow_trans conns _ _ _ H). rewrite <- E. apply (flow_step conns (owner b) tgt w _ Hc). apply flow_refl.
    - intros k Hk Kk. apply Fi. destruct (KB k Hk Kk) as (o & _ & [H _]). exact H.
    - intros a b D Ka Rb. apply Fi in Rb. destruct (T a b D) as [->|[(tgt & w & Hc & E)|[_ E]]]; [exact Ka| |rewrite <- E; exact Ka].
      destruct (KB a (Hd a b D) Ka) as (o & Ho & [_ H2]). unfold keep.
      destruct (in_split o outs Ho) as (pre & post & Eo).
      apply (vars_relevant_to_input dfs abs prom t conns ins outs r ST n o pre post (owner b) Hn Eo).
      + intros Hp. apply No. rewrite Eo. apply in_or_app. right. right. exact Hp.
      + right. exists (owner b), tgt, w. rewrite E. auto.
    - intros k Hk Rk. apply Fi in Rk. destruct (Ha k Hk) as (o & Ho & E). unfold keep. destruct (in_split o outs Ho) as (pre & post & Eo).
      apply (vars_relevant_to_input dfs abs prom t conns ins outs r ST n o pre post (owner k) Hn Eo).
      + intros Hp. apply No. rewrite Eo. apply in_or_app. right. right. exact Hp.
      + left. rewrite E in Rk |- *. auto.
  Qed.
  Lemma suffices_rev : forall n, In n outs -> ~ In n ins ->
    let keep := fun k => is_relevant abs prom conns r n (prom (owner k)) in
    through F1 fmul fopp conns owner keep s -> forall froms asked,
    (forall q, In q froms -> owner q = abs n) -> (forall k, In k asked -> exists i, In i ins /\ owner k = abs i) ->
    (forall a b, depends F1 fmul fopp s a b -> In b (rows s)) ->
    relevant F1 fmul fopp keep false s froms asked.
  Proof.
    intros n Hn No keep T froms asked Hf Ha Hd.
    pose proof ST as (DFS & WT & K & Er).
    set (g := sys_graph (subsystems [] t) conns).
    assert (Fi : forall c, is_in (from dfs abs (reverse g) n) c = true <-> flow conns c (removelast (abs n))).
    { intros c. rewrite is_in_iff. apply (from_rev_iff dfs DFS abs t conns WT n c). apply is_known. auto. }
    set (fed := fun c => existsb (fun i => is_in (from dfs abs g i) c) ins).
    assert (Fe : forall c, fed c = true <-> exists i, In i ins /\ flow conns (removelast (abs i)) c).
    { intros c. unfold fed. rewrite existsb_exists. split; intros (i & Hi & H); exists i; (split; [exact Hi|]).
      - apply is_in_iff in H. apply (from_iff dfs DFS abs t conns WT i c) in H; [exact H|apply is_known; auto].
      - apply is_in_iff. apply (from_iff dfs DFS abs t conns WT i c); [apply is_known; auto|exact H]. }
    assert (KB : forall k, In k (rows s) -> keep k = true -> exists i, In i ins /\ on_path conns (abs i) (abs n) (removelast (owner k))).
    { intros k Hk Kk. destruct (comp_of n k Hk (or_intror Hn) Kk) as [[H _]|[_ H]]; [contradiction|exact H]. }
    assert (VI : forall i v, In i ins -> var_on_path conns (abs i) (abs n) v -> is_relevant abs prom conns r n (prom v) = true)
      by (intros i v Hi H; exact (vars_relevant_to_output dfs abs prom t conns ins outs r ST i n v Hi Hn H)).
    set (R := fun k => is_in (from dfs abs (reverse g) n) (removelast (owner k)) && (negb (fed (removelast (owner k))) || keep k)).
    assert (Ri : forall k, R k = true <-> flow conns (removelast (owner k)) (removelast (abs n)) /\ (fed (removelast (owner k)) = true -> keep k = true)).
    { intros k. unfold R. rewrite andb_true_iff, Fi. destruct (fed (removelast (owner k))); cbn; intuition congruence. }
    assert (Fc : forall a b tgt w, In (owner b, tgt, w) conns -> removelast tgt = removelast (owner a) -> fed (removelast (owner b)) = true -> fed (removelast (owner a)) = true).
    { intros a b tgt w Hc E H. apply Fe in H. destruct H as (i & Hi & H). apply Fe. exists i. split; [exact Hi|].
      apply (flow_trans conns _ _ _ H). rewrite <- E. apply (flow_step conns (owner b) tgt w _ Hc). apply flow_refl. }
    exists R. split; [|split; [|split; [|split]]].
    - intros q Hq. apply Ri. rewrite (Hf q Hq). split; [apply flow_refl|]. intros H. apply Fe in H. destruct H as (i & Hi & H).
      unfold keep. rewrite (Hf q Hq). apply (VI i (abs n) Hi). left. split; [auto|exact H].
    - intros a b D H. apply Ri in H. destruct H as [H1 H2]. destruct (T a b D) as [->|[(tgt & w & Hc & E)|[E Ek]]].
      + apply Ri. auto.
      + assert (S : flow conns (removelast (owner b)) (removelast (owner a))) by (rewrite <- E; apply (flow_step conns (owner b) tgt w _ Hc); apply flow_refl).
        apply Ri. split; [exact (flow_trans conns _ _ _ S H1)|]. intros Hb. apply Fe in Hb. destruct Hb as (i & Hi & Hb).
        apply (VI i (owner b) Hi). right. exists (owner b), tgt, w. rewrite E. split; [exact Hc|]. split; [auto|]. split; [exact Hb|exact H1].
      + apply Ri. rewrite <- E, <- Ek. auto.
    - intros k Hk Kk. apply Ri. split; [|auto]. destruct (KB k Hk Kk) as (i & _ & [_ H]). exact H.
    - intros a b D Kb Ra. apply Ri in Ra. destruct Ra as [_ Ra].
      assert (Fb : fed (removelast (owner b)) = true).
      { apply Fe. destruct (KB b (Hd a b D) Kb) as (i & Hi & [H _]). exists i. auto. }
      destruct (T a b D) as [->|[(tgt & w & Hc & E)|[E Ek]]]; [exact Kb| |congruence].
      apply Ra. exact (Fc a b tgt w Hc E Fb).
    - intros k Hk Rk. apply Ri in Rk. destruct Rk as [_ Rk]. apply Rk. destruct (Ha k Hk) as (i & Hi & E). apply Fe. exists i. split; [exact Hi|].
      rewrite E. apply flow_refl.
  Qed.
End Link.

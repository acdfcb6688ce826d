(** Lemmas about the execution order. *)
From Coq Require Import Permutation.
From Verif Require Import Base BaseFacts GraphSpec GraphProofs OrderModel OrderSpec.
Local Open Scope nat_scope.

Section Break.
  Context {N : Type}.
  Variable N_dec : forall x y : N, {x = y} + {x <> y}.
  Variable lt : N -> N -> bool.
  Variable sccs : graph N -> list (list N).
  Hypothesis SCC : scc_spec sccs.

  Lemma nodein_iff : forall l x, nodein N_dec l x = true <-> In x l.
  Proof. intros l x. unfold nodein. destruct (in_dec N_dec x l); split; congruence || tauto. Qed.
  Lemma eqN_iff : forall x y, eqN N_dec x y = true <-> x = y.
  Proof. intros x y. unfold eqN. destruct (N_dec x y); split; congruence. Qed.

  Lemma edge_sub : forall g ns u v, edge (subgraph N_dec g ns) u v <-> edge g u v /\ In u ns /\ In v ns.
  Proof.
    intros g ns u v. unfold edge, subgraph. cbn [snd]. split.
    - intros [w H]. apply filter_In in H. destruct H as [H K]. cbn in K. apply Bool.andb_true_iff in K. rewrite !nodein_iff in K. split; [exists w; exact H|exact K].
    - intros [[w H] [H1 H2]]. exists w. apply filter_In. split; [exact H|]. cbn. apply Bool.andb_true_iff. rewrite !nodein_iff. auto.
  Qed.
  Lemma edge_rem : forall g es u v, edge (remove_edges N_dec g es) u v <-> edge g u v /\ ~ In (u, v) es.
  Proof.
    intros g es u v. unfold edge, remove_edges. cbn [snd].
    assert (K : forall w : nat, existsb (fun p : N * N => eqN N_dec (fst p) (fst (fst (u, v, w))) && eqN N_dec (snd p) (snd (fst (u, v, w)))) es = true <-> In (u, v) es).
    { intros w. rewrite existsb_exists. cbn. split.
      - intros ([a b] & Hin & H). cbn in H. apply Bool.andb_true_iff in H. rewrite !eqN_iff in H. destruct H as [-> ->]. exact Hin.
      - intros H. exists (u, v). split; [exact H|]. cbn. apply Bool.andb_true_iff. rewrite !eqN_iff. auto. }
    split.
    - intros [w H]. apply filter_In in H. destruct H as [H E]. apply Bool.negb_true_iff in E. split; [exists w; exact H|]. intros Hin. apply (proj2 (K w)) in Hin. congruence.
    - intros [[w H] Hn]. exists w. apply filter_In. split; [exact H|]. apply Bool.negb_true_iff. destruct (existsb _ es) eqn:E; [|reflexivity]. apply (proj1 (K w)) in E. contradiction.
  Qed.
  Lemma wf_sub : forall g ns, wf_graph g -> wf_graph (subgraph N_dec g ns).
  Proof.
    intros g ns [ND W]. split; [cbn; apply NoDup_filter; exact ND|]. intros u v H. apply edge_sub in H. destruct H as (H & Hu & Hv). destruct (W u v H) as (W1 & W2 & W3).
    cbn. rewrite !filter_In, !nodein_iff. auto.
  Qed.
  Lemma wf_edges : forall (g h : graph N), wf_graph g -> fst h = fst g -> (forall u v, edge h u v -> edge g u v) -> wf_graph h.
  Proof. intros g h [ND W] E M. split; [rewrite E; exact ND|]. intros u v H. rewrite E. apply W. apply M. exact H. Qed.
  Lemma acyclic_mono : forall (g h : graph N), (forall u v, edge h u v -> edge g u v) -> acyclic g -> acyclic h.
  Proof. intros g h M A u v E R. apply (A u v); [apply M; exact E|]. eapply reach_mono; eassumption. Qed.

  Lemma concat_same : forall (L : list (list N)) s s' x, NoDup (concat L) -> In s L -> In s' L -> In x s -> In x s' -> s = s'.
  Proof.
    induction L as [|l L IH]; intros s s' x ND Hs Hs' Hx Hx'; [destruct Hs|]. cbn in ND.
    assert (D : forall y, In y l -> ~ In y (concat L)).
    { intros y Hy Hy'. clear -ND Hy Hy'. induction l as [|z l IHl]; [destruct Hy|]. cbn in ND. inversion ND; subst. destruct Hy as [->|Hy]; [apply H1; apply in_or_app; right; exact Hy'|]. apply IHl; assumption. }
    assert (ND' : NoDup (concat L)) by (clear -ND; induction l; [exact ND|]; inversion ND; auto).
    destruct Hs as [<-|Hs], Hs' as [<-|Hs']; auto.
    - exfalso. apply (D x Hx). apply in_concat. eauto.
    - exfalso. apply (D x Hx'). apply in_concat. eauto.
    - eapply IH; eassumption.
  Qed.
  Lemma concat_nodup : forall (L : list (list N)) s, NoDup (concat L) -> In s L -> NoDup s.
  Proof.
    induction L as [|l L IH]; intros s ND Hs; [destruct Hs|]. cbn in ND. destruct Hs as [<-|Hs].
    - clear -ND. induction l as [|a l IHl]; [constructor|]. cbn in ND. inversion ND; subst. constructor; [intros K; apply H1; apply in_or_app; left; exact K|apply IHl; assumption].
    - apply IH; [|exact Hs]. clear -ND. induction l; [exact ND|]. inversion ND; auto.
  Qed.
  Lemma scc_nodup : forall g s, wf_graph g -> In s (sccs g) -> NoDup s /\ incl s (fst g).
  Proof.
    intros g s WF Hs. destruct (SCC g WF) as [P _]. assert (ND : NoDup (concat (sccs g))) by (apply (Permutation_NoDup (Permutation_sym P)); apply (proj1 WF)).
    split; [eapply concat_nodup; eassumption|]. intros x Hx. apply (Permutation_in _ P). apply in_concat. eauto.
  Qed.
  Lemma two_in : forall (s : list N) m, NoDup s -> 1 < length s -> exists w, In w s /\ w <> m.
  Proof.
    intros [|a [|b s]] m ND L; cbn in L; try lia. destruct (N_dec a m) as [->|Hne]; [|exists a; split; [left; reflexivity|exact Hne]].
    exists b. split; [right; left; reflexivity|]. intros ->. inversion ND as [|? ? NI _]; subst. apply NI. left. reflexivity.
  Qed.
  Lemma one_in : forall (s : list N) u v, In u s -> In v s -> u <> v -> 1 < length s.
  Proof. intros [|a [|b s]] u v Hu Hv Hne; cbn in *; try lia; try tauto. destruct Hu as [->|[]], Hv as [->|[]]. congruence. Qed.

  (** breaking all components makes the graph acyclic *)
  Lemma glue : forall g h, wf_graph g -> (forall u v, edge h u v -> edge g u v) ->
      (forall s, In s (sccs g) -> 1 < length s -> acyclic (subgraph N_dec h s)) -> acyclic h.
  Proof.
    intros g h WF M A u v E R. pose proof (SCC g WF) as [P C]. assert (ND : NoDup (concat (sccs g))) by (apply (Permutation_NoDup (Permutation_sym P)); apply (proj1 WF)).
    destruct (proj2 WF u v (M u v E)) as (Hu & Hv & Hne). pose proof (reach_mono h g M v u R) as RG.
    destruct (proj2 (C u v Hu Hv) (conj (reach_edge g u v (M u v E)) RG)) as (s & Hs & Us & Vs).
    apply (A s Hs (one_in s u v Us Vs Hne) u v); [apply edge_sub; auto|].
    assert (K : forall x, reach h x u -> reach g u x -> In x s -> reach (subgraph N_dec h s) x u).
    { intros x H. induction H as [x|x y z Exy H IH]; intros Rx Hx; [apply reach_refl|].
      assert (Ry : reach g z y) by (eapply reach_snoc; [exact Rx|apply M; exact Exy]).
      destruct (proj2 WF x y (M x y Exy)) as (_ & Hy & _).
      destruct (proj2 (C z y Hu Hy) (conj Ry (reach_mono h g M y z H))) as (s' & Hs' & Us' & Ys').
      rewrite (concat_same _ s' s z ND Hs' Hs Us' Us) in Ys'. eapply reach_step; [apply edge_sub; split; [exact Exy|split; assumption]|]. auto. }
    apply K; [exact R|apply reach_edge; apply M; exact E|exact Vs].
  Qed.

  Lemma pick_some : forall sg scc acc, (acc = None -> scc <> []) -> (forall m sc i, acc = Some (m, sc, i) -> In m scc \/ True) ->
      exists m sc i, fold_left (pick_step N_dec lt sg) scc acc = Some (m, sc, i) /\ (In m scc \/ exists sc' i', acc = Some (m, sc', i')).
  Proof.
    intros sg. induction scc as [|n scc IH]; intros acc H _.
    - destruct acc as [[[m sc] i]|]; [|destruct H; reflexivity]. exists m, sc, i. split; [reflexivity|right; eauto].
    - cbn [fold_left]. destruct (IH (pick_step N_dec lt sg acc n)) as (m & sc & i & E & D).
      + intros K. exfalso. unfold pick_step in K. destruct acc as [[[m sc] i]|]; [|discriminate]. destruct (_ || _); discriminate.
      + auto.
      + exists m, sc, i. split; [exact E|]. destruct D as [D|(sc' & i' & D)]; [left; right; exact D|]. unfold pick_step in D. destruct acc as [[[m0 sc0] i0]|].
        * destruct (_ || _) in D; injection D as D1 D2 D3; subst; [left; left; reflexivity|right; eauto].
        * injection D as -> _ _. left. left. reflexivity.
  Qed.

  (** the result of breaking: a graph without the edges [es] *)
  Definition broken_to (parent : graph N) (broken : list (N * N)) (r : option (graph N * list (N * N))) (inside : N -> N -> Prop) (parent' : graph N) : Prop :=
    exists es, r = Some (parent', broken ++ es) /\ fst parent' = fst parent /\ (forall u v, edge parent' u v <-> edge parent u v /\ ~ In (u, v) es) /\
               (forall u v, In (u, v) es -> edge parent u v /\ inside u v).

  Lemma fold_break : forall (F : list N -> nat) Ls,
      (forall s, In s Ls -> forall parent broken, wf_graph parent -> incl s (fst parent) ->
          exists parent', broken_to parent broken (break_scc N_dec lt sccs (F s) parent broken s) (fun u v => In u s /\ In v s) parent' /\ acyclic (subgraph N_dec parent' s)) ->
      (forall parent broken, wf_graph parent -> (forall s, In s Ls -> incl s (fst parent)) ->
          exists parent', broken_to parent broken (fold_left (fun acc s => match acc with Some (p, b) => break_scc N_dec lt sccs (F s) p b s | None => None end) Ls (Some (parent, broken)))
                                    (fun u v => exists s, In s Ls /\ In u s /\ In v s) parent' /\ forall s, In s Ls -> acyclic (subgraph N_dec parent' s)).
  Proof.
    intros F. induction Ls as [|s Ls IH]; intros B parent broken WF I.
    - exists parent. split; [|intros s []]. exists []. cbn. rewrite app_nil_r. repeat split; auto; intros; tauto.
    - cbn [fold_left]. destruct (B s (or_introl eq_refl) parent broken WF (I s (or_introl eq_refl))) as (p1 & (es1 & E1 & F1 & D1 & X1) & A1). rewrite E1.
      assert (WF1 : wf_graph p1) by (apply (wf_edges parent); [exact WF|exact F1|]; intros u v H; apply D1 in H; tauto).
      destruct (IH (fun s' Hs' => B s' (or_intror Hs')) p1 (broken ++ es1) WF1) as (p2 & (es2 & E2 & F2 & D2 & X2) & A2).
      { intros s' Hs'. rewrite F1. apply I. right. exact Hs'. }
      exists p2. split.
      + exists (es1 ++ es2). rewrite E2, app_assoc. split; [reflexivity|]. split; [congruence|]. split.
        * intros u v. rewrite D2, D1, in_app_iff. tauto.
        * intros u v H. apply in_app_or in H. destruct H as [H|H].
          -- destruct (X1 u v H) as [Y Z]. split; [exact Y|]. exists s. split; [left; reflexivity|exact Z].
          -- destruct (X2 u v H) as [Y (s' & Hs' & Z)]. apply D1 in Y. split; [tauto|]. exists s'. split; [right; exact Hs'|exact Z].
      + intros s' [<-|Hs']; [|apply A2; exact Hs']. apply (acyclic_mono (subgraph N_dec p1 s)); [|exact A1]. intros u v H. apply edge_sub in H. apply edge_sub. rewrite D2 in H. tauto.
  Qed.

  Lemma in_edges_iff : forall g m u v w, In (u, v, w) (in_edges N_dec g m) <-> In (u, v, w) (snd g) /\ v = m.
  Proof. intros. unfold in_edges. rewrite filter_In. cbn. rewrite eqN_iff. reflexivity. Qed.
  Lemma out_edges_iff : forall g m u v w, In (u, v, w) (out_edges N_dec g m) <-> In (u, v, w) (snd g) /\ u = m.
  Proof. intros. unfold out_edges. rewrite filter_In. cbn. rewrite eqN_iff. reflexivity. Qed.

  Lemma break_scc_ok : forall fuel parent broken scc, wf_graph parent -> NoDup scc -> incl scc (fst parent) -> scc <> [] -> length scc <= fuel ->
      exists parent', broken_to parent broken (break_scc N_dec lt sccs fuel parent broken scc) (fun u v => In u scc /\ In v scc) parent' /\ acyclic (subgraph N_dec parent' scc).
  Proof.
    induction fuel as [|f IH]; intros parent broken scc WF ND I NE L; [destruct scc; [congruence|cbn in L; lia]|].
    cbn [break_scc]. set (sg := subgraph N_dec parent scc). assert (WS : wf_graph sg) by (apply wf_sub; exact WF).
    destruct (pick_some sg scc None (fun _ => NE) (fun _ _ _ _ => or_intror Logic.I)) as (m & sc & i & E & [Hm|(? & ? & K)]); [|discriminate]. rewrite E.
    set (es := map fst (if i then in_edges N_dec sg m else out_edges N_dec sg m)).
    assert (ES : forall u v, In (u, v) es <-> edge sg u v /\ (if i then v = m else u = m)).
    { intros u v. unfold es. rewrite in_map_iff. split.
      - intros ([[a b] w] & Eq & H). cbn in Eq. injection Eq as -> ->. destruct i; [apply in_edges_iff in H|apply out_edges_iff in H]; destruct H as [H ->]; split; auto; exists w; exact H.
      - intros [[w H] K]. exists (u, v, w). split; [reflexivity|]. destruct i; [apply in_edges_iff|apply out_edges_iff]; auto. }
    set (sg' := remove_edges N_dec sg es). assert (WS' : wf_graph sg') by (apply (wf_edges sg); [exact WS|reflexivity|]; intros u v H; apply edge_rem in H; tauto).
    set (Ls := filter (fun s => 1 <? length s) (sccs sg')). set (p0 := remove_edges N_dec parent es).
    assert (WP0 : wf_graph p0) by (apply (wf_edges parent); [exact WF|reflexivity|]; intros u v H; apply edge_rem in H; tauto).
    assert (LS : forall s, In s Ls -> In s (sccs sg') /\ 1 < length s) by (intros s H; apply filter_In in H; destruct H as [H K]; apply Nat.ltb_lt in K; auto).
    assert (SG : incl (fst sg') scc) by (intros x H; cbn in H; apply filter_In in H; destruct H as [_ H]; apply nodein_iff in H; exact H).
    destruct (fold_break (fun _ => f) Ls) with (parent := p0) (broken := broken ++ es) as (p2 & (es2 & E2 & F2 & D2 & X2) & A2).
    - intros s Hs parent1 broken1 WF1 I1. destruct (LS s Hs) as [Hs1 Hs2]. destruct (scc_nodup sg' s WS' Hs1) as [NDs Is].
      apply IH; auto; [intros ->; cbn in Hs2; lia|].
      assert (Hms : ~ In m s).
      { intros Hin. destruct (two_in s m NDs Hs2) as (w & Hw & Hwm). destruct (SCC sg' WS') as [_ C].
        assert (MR : reach sg' w m /\ reach sg' m w) by (apply C; [apply Is; exact Hw|apply Is; exact Hin|]; exists s; auto). destruct MR as [R1 R2].
        destruct i.
        - destruct (reach_last sg' w m R1) as [Heq|(x & _ & Ex)]; [congruence|]. apply edge_rem in Ex. destruct Ex as [Ex Hn]. apply Hn. apply ES. auto.
        - destruct (reach_first sg' m w R2) as [Heq|(x & Ex & _)]; [congruence|]. apply edge_rem in Ex. destruct Ex as [Ex Hn]. apply Hn. apply ES. auto. }
      assert (Q : length (m :: s) <= length scc) by (apply NoDup_incl_length; [constructor; assumption|]; intros x [<-|Hx]; [exact Hm|apply SG; apply Is; exact Hx]).
      cbn in Q. lia.
    - exact WP0.
    - intros s Hs x Hx. destruct (LS s Hs) as [Hs1 _]. destruct (scc_nodup sg' s WS' Hs1) as [_ Is]. apply I. apply SG. apply Is. exact Hx.
    - exists p2. split.
      + exists (es ++ es2). cbv beta in E2. rewrite E2, app_assoc. split; [reflexivity|]. split; [rewrite F2; reflexivity|]. split.
        * intros u v. rewrite D2. unfold p0. rewrite edge_rem, in_app_iff. tauto.
        * intros u v H. apply in_app_or in H. destruct H as [H|H].
          -- apply ES in H. destruct H as [H _]. unfold sg in H. apply edge_sub in H. tauto.
          -- destruct (X2 u v H) as [Y (s & Hs & Us & Vs)]. apply edge_rem in Y. split; [tauto|]. destruct (LS s Hs) as [Hs1 _]. destruct (scc_nodup sg' s WS' Hs1) as [_ Is].
             split; apply SG; apply Is; assumption.
      + apply (glue sg'); [exact WS'| |].
        * intros u v H. apply edge_sub in H. destruct H as (H & Hu & Hv). apply D2 in H. destruct H as [H _]. apply edge_rem in H. destruct H as [H Hn].
          apply edge_rem. split; [apply edge_sub; auto|exact Hn].
        * intros s Hs Hl. apply (acyclic_mono (subgraph N_dec p2 s)); [|apply A2; apply filter_In; split; [exact Hs|apply Nat.ltb_lt; exact Hl]].
          intros u v H. apply edge_sub in H. destruct H as (H & Hu & Hv). apply edge_sub in H. apply edge_sub. tauto.
  Qed.

  Lemma break_cycles_ok : forall g, wf_graph g ->
      exists h broken, break_cycles N_dec lt sccs g = Some (h, broken) /\ fst h = fst g /\ (forall u v, edge h u v <-> edge g u v /\ ~ In (u, v) broken) /\
        (forall u v, In (u, v) broken -> edge g u v /\ reach g v u) /\ acyclic h.
  Proof.
    intros g WF. unfold break_cycles. set (Ls := filter (fun s => 1 <? length s) (sccs g)).
    assert (LS : forall s, In s Ls -> In s (sccs g) /\ 1 < length s) by (intros s H; apply filter_In in H; destruct H as [H K]; apply Nat.ltb_lt in K; auto).
    destruct (fold_break (fun s => length s) Ls) with (parent := g) (broken := @nil (N * N)) as (h & (es & E & F & D & X) & A).
    - intros s Hs parent broken WF1 I1. destruct (LS s Hs) as [Hs1 Hs2]. apply break_scc_ok; auto; [apply (scc_nodup g s WF Hs1)|]. intros ->. cbn in Hs2. lia.
    - exact WF.
    - intros s Hs. destruct (LS s Hs) as [Hs1 _]. apply (scc_nodup g s WF Hs1).
    - exists h, es. split; [exact E|]. split; [exact F|]. split; [exact D|]. split.
      + intros u v H. destruct (X u v H) as [Y (s & Hs & Us & Vs)]. split; [exact Y|]. destruct (LS s Hs) as [Hs1 _]. destruct (SCC g WF) as [_ C].
        destruct (scc_nodup g s WF Hs1) as [_ Is]. apply (proj1 (C u v (Is u Us) (Is v Vs)) (ex_intro _ s (conj Hs1 (conj Us Vs)))).
      + apply (glue g h WF); [intros u v H; apply D in H; tauto|]. intros s Hs Hl. apply A. apply filter_In. split; [exact Hs|apply Nat.ltb_lt; exact Hl].
  Qed.

  Variable topo : graph N -> option (list N).
  Hypothesis TOPO : topo_spec topo.
  Lemma sorted_ok : forall g, wf_graph g ->
      exists o broken, sorted_nodes N_dec lt sccs topo g = Some (o, broken) /\ Permutation o (fst g) /\
        (forall u v, edge g u v -> ~ In (u, v) broken -> before o u v) /\ (forall u v, In (u, v) broken -> edge g u v /\ reach g v u).
  Proof.
    intros g WF. destruct (break_cycles_ok g WF) as (h & broken & E & F & D & X & A). unfold sorted_nodes. rewrite E.
    assert (WH : wf_graph h) by (apply (wf_edges g); [exact WF|exact F|]; intros u v H; apply D in H; tauto).
    destruct (TOPO h WH A) as (o & O & P & B). rewrite O. exists o, broken. split; [reflexivity|]. split; [rewrite P, F; reflexivity|]. split; [|exact X].
    intros u v H Hn. apply B. apply D. auto.
  Qed.
End Break.

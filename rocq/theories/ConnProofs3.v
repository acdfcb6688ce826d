(** Lemmas about connections: implicit connections and the graph of inputs. *)
From Verif Require Import Base BaseFacts GraphSpec GraphProofs OrderModel PathModel OrderProofs2 NameModel NameSpec NameProofs ConnModel ConnSpec ConnProofs ConnProofs2.
Local Open Scope nat_scope.

Lemma map_app_nil : forall l : list path, map (app []) l = l.
Proof. intros l. rewrite <- (map_id l) at 2. apply map_ext. reflexivity. Qed.

(** ** implicit connections *)
Lemma fold_params_in : forall u l cs, let r := fold_left (fun cs p => append cs p (u, @None (list nat))) l cs in
    (forall a b j, cin r a b j <-> cin cs a b j \/ (In b l /\ a = u /\ j = None)) /\ (forall k, In k (dkeys r) -> In k (dkeys cs) \/ In k l) /\ (NoDup (dkeys cs) -> NoDup (dkeys r)).
Proof.
  intros u. induction l as [|t l IH]; intros cs; cbv zeta; cbn [fold_left].
  - split; [cbn; intuition|]. auto.
  - destruct (IH (append cs t (u, None))) as (I1 & I2 & I3). split; [|split].
    + intros a b j. rewrite I1, cin_append. cbn [In]. split.
      * intros [[H|[ -> H]]|(H & -> & ->)]; auto. injection H as -> ->. auto.
      * intros [H|([ ->|H] & -> & ->)]; auto.
    + intros k Hk. apply I2 in Hk. rewrite keys_append in Hk. cbn. intuition.
    + intros N. apply I3. apply nodup_append. exact N.
Qed.
Lemma implicit_fold : forall d L cs, let r := fold_left (fun cs (e : path * list path) => match pget (abs_u d) (fst e) with
                                              | Some u => fold_left (fun cs p => append cs p (u, None)) (snd e) cs
                                              | None => cs
                                              end) L cs in
    (forall a b i, cin r a b i <-> cin cs a b i \/ (i = None /\ exists m l, In (m, l) L /\ pget (abs_u d) m = Some a /\ In b l)) /\
    (forall k, In k (dkeys r) -> In k (dkeys cs) \/ exists m l, In (m, l) L /\ In k l) /\ (NoDup (dkeys cs) -> NoDup (dkeys r)).
Proof.
  intros d. induction L as [|[m l] L IH]; intros cs; cbv zeta; cbn [fold_left].
  - split; [|split; auto]. intros a b i. split; [auto|]. intros [H|(_ & m & l & [] & _)]. exact H.
  - cbn [fst snd] in *. match goal with |- context [fold_left _ L ?x] => set (c1 := x) end. destruct (IH c1) as (I1 & I2 & I3).
    assert (C : (forall a b i, cin c1 a b i <-> cin cs a b i \/ (i = None /\ pget (abs_u d) m = Some a /\ In b l)) /\ (forall k, In k (dkeys c1) -> In k (dkeys cs) \/ In k l) /\ (NoDup (dkeys cs) -> NoDup (dkeys c1))).
    { unfold c1. destruct (pget (abs_u d) m) as [u|] eqn:E.
      - destruct (fold_params_in u l cs) as (F1 & F2 & F3). split; [|split; assumption]. intros a b i. rewrite F1. split; [intros [H|(H & -> & ->)]; auto|intros [H|(-> & H & H')]; [auto|injection H as ->; auto]].
      - split; [|split; auto]. intros a b i. split; [auto|]. intros [H|(_ & H & _)]; [exact H|discriminate]. }
    destruct C as (C1 & C2 & C3). split; [|split; [|auto]].
    + intros a b i. rewrite I1, C1. split.
      * intros [[H|(-> & H & H')]|(-> & m' & l' & H & H')]; [auto| |].
        -- right. split; [reflexivity|]. exists m, l. split; [left; reflexivity|auto].
        -- right. split; [reflexivity|]. exists m', l'. split; [right; exact H|auto].
      * intros [H|(-> & m' & l' & [H|H] & H')]; [auto| |].
        -- injection H as <- <-. left. right. auto.
        -- right. split; [reflexivity|]. exists m', l'. auto.
    + intros k Hk. apply I2 in Hk. destruct Hk as [Hk|(m' & l' & H & H')].
      * apply C2 in Hk. destruct Hk as [Hk|Hk]; [auto|]. right. exists m, l. split; [left; reflexivity|exact Hk].
      * right. exists m', l'. split; [right; exact H|exact H'].
Qed.

(** ** the graph of inputs *)
Definition ed (g : igraph) (a b : path) : Prop := In (a, b) (dkeys (snd g)).
Lemma edge_ed : forall g a b, edge (shape g) a b <-> ed g a b.
Proof.
  intros g a b. unfold edge, shape, ed, dkeys. cbn [snd]. split.
  - intros (w & H). apply in_map_iff in H. destruct H as ([[x y] i] & E & H). cbn in E. injection E as E1 E2 E3. subst. apply (in_map fst) in H. exact H.
  - intros H. apply in_map_iff in H. destruct H as ([[x y] i] & E & H). cbn in E. injection E as E1 E2. subst. exists 0. apply in_map_iff. exists (a, b, i). auto.
Qed.
Lemma eeqb_eq : forall a b, eeqb a b = true <-> a = b.
Proof. intros a b. unfold eeqb. destruct (pair_dec a b); split; congruence. Qed.

(** what the edges of a graph are labelled with *)
Definition labelled (g : igraph) (R : path -> path -> idxs -> Prop) : Prop :=
  (forall a b, ed g a b <-> exists i, R a b i) /\ (forall a b, ed g a b -> R a b (edge_idxs g a b)).
Lemma add_edge_label : forall g s t i R, labelled g R -> labelled (add_edge g s t i) (fun a b j => R a b j \/ (a = s /\ b = t /\ j = i)).
Proof.
  intros g s t i R [L1 L2]. assert (E : forall a b, ed (add_edge g s t i) a b <-> ed g a b \/ (a, b) = (s, t)).
  { intros a b. unfold ed, add_edge. cbn [snd]. destruct (in_dec pair_dec (s, t) (dkeys (snd g))) as [H|H].
    - rewrite (dkeys_dset_in eeqb eeqb_eq _ _ _ H). split; [auto|]. intros [K|K]; [exact K|]. rewrite K. exact H.
    - rewrite (dkeys_dset_new eeqb eeqb_eq _ _ _ H). rewrite in_app_iff. cbn. intuition. }
  split.
  - intros a b. rewrite E, L1. split.
    + intros [(j & H)|H]; [exists j; auto|]. injection H as -> ->. exists i. auto.
    + intros (j & [H|(-> & -> & _)]); [left; exists j; exact H|auto].
  - intros a b H. unfold edge_idxs, add_edge. cbn [snd]. rewrite (dget_dset eeqb eeqb_eq). destruct (eeqb (a, b) (s, t)) eqn:K.
    + apply eeqb_eq in K. injection K as -> ->. auto.
    + left. apply L2. apply E in H. destruct H as [H|H]; [exact H|]. apply eeqb_eq in H. congruence.
Qed.
Lemma labelled_ext : forall g R R', labelled g R -> (forall a b i, R a b i <-> R' a b i) -> labelled g R'.
Proof.
  intros g R R' [L1 L2] H. split.
  - intros a b. rewrite L1. split; intros (i & K); exists i; apply H; exact K.
  - intros a b K. apply H. apply L2. exact K.
Qed.
Lemma add_edge_nodes : forall g s t i n, In n (fst (add_edge g s t i)) <-> In n (fst g) \/ n = s \/ n = t.
Proof. intros. unfold add_edge. cbn [fst]. rewrite !add_node_in. tauto. Qed.

Lemma conn_srcs : forall t srcs g R, labelled g R -> let r := fold_left (fun g (x : path * idxs) => add_edge g (fst x) t (snd x)) srcs g in
    labelled r (fun a b j => R a b j \/ (b = t /\ In (a, j) srcs)) /\ forall n, In n (fst r) <-> In n (fst g) \/ (exists x, In x srcs /\ (n = fst x \/ n = t)).
Proof.
  intros t. induction srcs as [|[s i] srcs IH]; intros g R L; cbv zeta; cbn [fold_left fst snd].
  - split; [eapply labelled_ext; [exact L|]; cbn; intuition|]. intros n. split; [auto|]. intros [H|(x & [] & _)]. exact H.
  - destruct (IH (add_edge g s t i) _ (add_edge_label g s t i R L)) as [I1 I2]. split.
    + eapply labelled_ext; [exact I1|]. intros a b j. cbn [In]. split.
      * intros [[H|(-> & -> & ->)]|[-> H]]; auto.
      * intros [H|[-> [H|H]]]; [auto| |auto]. injection H as -> ->. auto.
    + intros n. rewrite I2, add_edge_nodes. split.
      * intros [[H|H]|(x & H & K)]; [auto| |].
        -- right. exists (s, i). cbn. intuition.
        -- right. exists x. cbn. auto.
      * intros [H|(x & [<-|H] & K)]; [auto| |]; [left; right; exact K|]. right. exists x. auto.
Qed.
Lemma conn_edges_ok : forall cs g R, labelled g R ->
    labelled (conn_edges cs g) (fun a b j => R a b j \/ exists l, In (b, l) cs /\ In (a, j) l) /\
    forall n, In n (fst (conn_edges cs g)) <-> In n (fst g) \/ (exists t l x, In (t, l) cs /\ In x l /\ (n = fst x \/ n = t)).
Proof.
  unfold conn_edges. induction cs as [|[t srcs] cs IH]; intros g R L; cbn [fold_left].
  - split; [eapply labelled_ext; [exact L|]; intros a b j; split; [auto|intros [H|(l & [] & _)]; exact H]|]. intros n. split; [auto|]. intros [H|(t & l & x & [] & _)]. exact H.
  - cbn [fst snd]. destruct (conn_srcs t srcs g R L) as [S1 S2]. destruct (IH _ _ S1) as [I1 I2]. split.
    + eapply labelled_ext; [exact I1|]. intros a b j. split.
      * intros [[H|[ -> H]]|(l & H & K)]; [auto| |].
        -- right. exists srcs. split; [left; reflexivity|exact H].
        -- right. exists l. split; [right; exact H|exact K].
      * intros [H|(l & [H|H] & K)]; [auto| |].
        -- injection H as <- <-. left. right. auto.
        -- right. exists l. auto.
    + intros n. rewrite I2, S2. split.
      * intros [[H|(x & H & K)]|(t' & l & x & H & K)]; [auto| |].
        -- right. exists t, srcs, x. split; [left; reflexivity|auto].
        -- right. exists t', l, x. split; [right; exact H|exact K].
      * intros [H|(t' & l & x & [H|H] & K)]; [auto| |].
        -- injection H as <- <-. left. right. exists x. exact K.
        -- right. exists t', l, x. auto.
Qed.
Lemma star_edges : forall st r g R, labelled g R -> let g' := fold_left (fun g p => add_edge g st p (@None (list nat))) r g in
    labelled g' (fun a b j => R a b j \/ (a = st /\ In b r /\ j = None)) /\ forall n, In n (fst g') <-> In n (fst g) \/ (r <> [] /\ n = st) \/ In n r.
Proof.
  intros st. induction r as [|p r IH]; intros g R L; cbv zeta; cbn [fold_left].
  - split; [eapply labelled_ext; [exact L|]; cbn; intuition|]. intros n. cbn. intuition.
  - destruct (IH _ _ (add_edge_label g st p None R L)) as [I1 I2]. split.
    + eapply labelled_ext; [exact I1|]. intros a b j. cbn [In]. split; intros H; decompose [or and] H; subst; auto.
    + intros n. rewrite I2, add_edge_nodes. cbn [In]. split; [intros H; decompose [or and] H; subst; auto; right; left; (split; [discriminate|reflexivity])|intros H; decompose [or and] H; subst; auto].
Qed.
Lemma star_ok : forall d g e R, labelled g R ->
    labelled (star d g e) (fun a b j => R a b j \/ (noconns d (fst e) = true /\ j = None /\ exists r, snd e = a :: r /\ In b r)) /\
    forall n, In n (fst (star d g e)) <-> In n (fst g) \/ In n (snd e).
Proof.
  intros d g [m l] R L. unfold star. cbn [fst snd]. assert (N : forall ns n, In n (fold_left add_node l ns) <-> In n ns \/ In n l).
  { clear. induction l as [|x l IH]; intros ns n; cbn [fold_left]; [cbn; intuition|]. rewrite IH, add_node_in. cbn. intuition. }
  assert (L1 : labelled (fold_left add_node l (fst g), snd g) R) by exact L. destruct (noconns d m) eqn:E.
  - destruct l as [|st r].
    + split; [eapply labelled_ext; [exact L|]; intros a b j; split; [auto|intros [H|(_ & _ & r & K & _)]; [exact H|discriminate]]|]. intros n. cbn. intuition.
    + destruct (star_edges st r _ _ L1) as [S1 S2]. split.
      * eapply labelled_ext; [exact S1|]. intros a b j. split.
        -- intros [H|(-> & H & ->)]; [auto|]. right. split; [reflexivity|]. split; [reflexivity|]. exists r. auto.
        -- intros [H|(_ & -> & r' & K & H)]; [auto|]. injection K as <- <-. auto.
      * intros n. rewrite S2. cbn [fst]. rewrite N. cbn [In]. intuition.
  - split; [eapply labelled_ext; [exact L1|]; intros a b j; split; [auto|intros [H|(K & _)]; [exact H|discriminate]]|]. intros n. cbn [fst]. apply N.
Qed.
Lemma stars_ok : forall d L g R, labelled g R ->
    labelled (fold_left (star d) L g) (fun a b j => R a b j \/ (j = None /\ exists m r, In (m, a :: r) L /\ noconns d m = true /\ In b r)) /\
    forall n, In n (fst (fold_left (star d) L g)) <-> In n (fst g) \/ exists m l, In (m, l) L /\ In n l.
Proof.
  intros d. induction L as [|[m l] L IH]; intros g R Lg; cbn [fold_left].
  - split; [eapply labelled_ext; [exact Lg|]; intros a b j; split; [auto|intros [H|(_ & m & r & [] & _)]; exact H]|]. intros n. split; [auto|intros [H|(m & l & [] & _)]; exact H].
  - destruct (star_ok d g (m, l) R Lg) as [S1 S2]. cbn [fst snd] in *. destruct (IH _ _ S1) as [I1 I2]. split.
    + eapply labelled_ext; [exact I1|]. intros a b j. split.
      * intros [[H|(H & -> & r & -> & K)]|(-> & m' & r & H & K)]; [auto| |].
        -- right. split; [reflexivity|]. exists m, r. split; [left; reflexivity|auto].
        -- right. split; [reflexivity|]. exists m', r. split; [right; exact H|exact K].
      * intros [H|(-> & m' & r & [H|H] & K & K')]; [auto| |].
        -- injection H as <- ->. left. right. split; [exact K|]. split; [reflexivity|]. exists r. auto.
        -- right. split; [reflexivity|]. exists m', r. auto.
    + intros n. rewrite I2, S2. split.
      * intros [[H|H]|(m' & l' & H & K)]; [auto| |]; right; [exists m, l|exists m', l']; cbn; auto.
      * intros [H|(m' & l' & [H|H] & K)]; [auto| |]; [injection H as <- <-; auto|right; exists m', l'; auto].
Qed.

(** everything about the graph of a well-formed system *)
Section Top.
  Variables (s : sys) (d : data) (cs0 : conns_dict).
  Hypothesis W : wf_sys s.
  Hypothesis E : setup_variables [] s = Ok d.
  Hypothesis ND0 : NoDup (dkeys cs0).
  Hypothesis K0 : forall k, In k (dkeys cs0) -> In k (plist s).
  Hypothesis C0 : forall a b i, cin cs0 a b i <-> explicit_conn s a b i.
  Definition cs1 : conns_dict := implicit d cs0.
  Definition gr : igraph := input_graph d cs1.

  Lemma abs_p_entry : forall m l, In (m, l) (abs_p d) <-> pget (abs_p d) m = Some l.
  Proof.
    intros m l. destruct (setup_ok s W []) as [[_ E']|(_ & d' & E' & H & _)]; [congruence|]. assert (d' = d) by congruence. subst d'. split; [apply in_pget; exact (ok_keys _ _ _ H)|apply pget_in].
  Qed.
  Lemma abs_p_list : forall m l, pget (abs_p d) m = Some l -> l <> [] /\ l = filter (fun q => peqb (prom_of s q) m) (plist s).
  Proof.
    intros m l G. destruct (names_ok s [] d W E) as (_ & _ & _ & _ & _ & AP). specialize (AP m). rewrite G in AP. rewrite map_app_nil in AP. exact AP.
  Qed.
  Lemma abs_p_of : forall q, In q (plist s) -> exists l, pget (abs_p d) (prom_of s q) = Some l.
  Proof.
    intros q Hq. destruct (names_ok s [] d W E) as (_ & _ & _ & _ & _ & AP). specialize (AP (prom_of s q)). destruct (pget (abs_p d) (prom_of s q)) as [l|]; [exists l; reflexivity|]. exfalso. exact (AP q Hq eq_refl).
  Qed.
  Lemma abs_u_iff : forall m u, pget (abs_u d) m = Some u <-> In u (ulist s) /\ prom_of s u = m.
  Proof.
    intros m u. destruct (names_ok s [] d W E) as (_ & _ & _ & _ & AU & _). rewrite AU. cbn. split; [intros (q & A & -> & B); auto|intros (A & B); exists u; auto].
  Qed.
  Lemma params_eq : params d = plist s. Proof. destruct (names_ok s [] d W E) as (H & _). rewrite H. apply map_app_nil. Qed.
  Lemma unknowns_eq : unknowns d = ulist s. Proof. destruct (names_ok s [] d W E) as (_ & H & _). rewrite H. apply map_app_nil. Qed.

  Lemma cs1_ok : NoDup (dkeys cs1) /\ (forall k, In k (dkeys cs1) -> In k (plist s)) /\ (forall a b i, cin cs1 a b i <-> explicit_conn s a b i \/ (implicit_conn s a b /\ i = None)).
  Proof.
    unfold cs1, implicit. destruct (implicit_fold d (abs_p d) cs0) as (F1 & F2 & F3). split; [auto|]. split.
    - intros k Hk. apply F2 in Hk. destruct Hk as [Hk|(m & l & H & Hk)]; [auto|]. apply abs_p_entry in H. apply abs_p_list in H. destruct H as [_ ->]. apply filter_In in Hk. tauto.
    - intros a b i. rewrite F1, C0. split.
      + intros [H|(-> & m & l & H & HU & HB)]; [auto|]. right. split; [|reflexivity]. apply abs_p_entry in H. apply abs_p_list in H. destruct H as [_ ->]. apply filter_In in HB. destruct HB as [HB K]. apply peqb_eq in K. apply abs_u_iff in HU. unfold implicit_conn. intuition congruence.
      + intros [H|((H1 & H2 & H3) & ->)]; [auto|]. right. split; [reflexivity|]. destruct (abs_p_of b H2) as (l & G). exists (prom_of s b), l. split; [apply abs_p_entry; exact G|]. split; [apply abs_u_iff; auto|]. apply abs_p_list in G. destruct G as [_ ->]. apply filter_In. split; [exact H2|apply peqb_eq; reflexivity].
  Qed.
  Lemma cs1_entry : forall a b i, (exists l, In (b, l) cs1 /\ In (a, i) l) <-> cin cs1 a b i.
  Proof. intros a b i. destruct cs1_ok as [ND _]. unfold cin. split; intros (l & H & K); exists l; (split; [|exact K]); [apply in_pget; assumption|apply pget_in; exact H]. Qed.

  Lemma shared_iff : forall a b, shared s a b <-> exists m r, In (m, a :: r) (abs_p d) /\ noconns d m = true /\ In b r.
  Proof.
    assert (NC : forall m, noconns d m = true <-> forall u, In u (ulist s) -> prom_of s u <> m).
    { intros m. unfold noconns. destruct (pget (abs_u d) m) as [u|] eqn:G.
      - apply abs_u_iff in G. split; [discriminate|]. intros H. exfalso. destruct G as [G1 G2]. exact (H u G1 G2).
      - split; [|reflexivity]. intros _ u Hu Eu. assert (K : pget (abs_u d) m = Some u) by (apply abs_u_iff; auto). congruence. }
    intros a b. split.
    - intros (H1 & r & H2 & H3). exists (prom_of s a), r. split; [|split; [apply NC; exact H1|exact H3]]. apply abs_p_entry.
      assert (HA : In a (plist s)) by (assert (K : In a (a :: r)) by (left; reflexivity); rewrite <- H2 in K; apply filter_In in K; tauto).
      destruct (abs_p_of a HA) as (l & G). rewrite G. apply abs_p_list in G. destruct G as [_ ->]. rewrite H2. reflexivity.
    - intros (m & r & H & HN & HB). apply abs_p_entry in H. apply abs_p_list in H. destruct H as [_ H].
      assert (Em : prom_of s a = m) by (assert (K : In a (a :: r)) by (left; reflexivity); rewrite H in K; apply filter_In in K; apply peqb_eq; tauto). subst m. split; [apply NC; exact HN|]. exists r. auto.
  Qed.
  Lemma shared_param : forall a b, shared s a b -> In a (plist s) /\ In b (plist s).
  Proof.
    intros a b (_ & r & H & K). split.
    - assert (X : In a (a :: r)) by (left; reflexivity). rewrite <- H in X. apply filter_In in X. tauto.
    - assert (X : In b (a :: r)) by (right; exact K). rewrite <- H in X. apply filter_In in X. tauto.
  Qed.
  Lemma explicit_vars : forall a b i, explicit_conn s a b i -> In b (plist s) /\ (In a (plist s) \/ In a (ulist s)).
  Proof.
    assert (SA : forall s p c, sub_at s p c -> (forall q, In q (plist c) -> In (p ++ q) (plist s)) /\ (forall q, In q (ulist c) -> In (p ++ q) (ulist s))).
    { induction 1 as [c|subs src n pats b p c HI SA [I1 I2]]; [auto|]. cbn [plist ulist]. split; intros q Hq; apply in_flat_map; exists (n, (pats, b)); (split; [exact HI|]); cbn; [apply (in_map (cons n)); auto|apply (in_map (cons n)); auto]. }
    intros a b i (p & subs & src & t & srcs & name & q1 & q2 & SA' & _ & _ & [_ S1] & [_ T1] & -> & ->). destruct (SA _ _ _ SA') as [A1 A2]. split; [auto|]. destruct S1 as [S1|[S1 _]]; auto.
  Qed.
  Lemma declared_vars : forall a b i, declared s a b i -> In b (plist s) /\ (In a (plist s) \/ In a (ulist s)).
  Proof.
    intros a b i [H|[[H|H] _]]; [eapply explicit_vars; exact H| |].
    - destruct H as (H1 & H2 & _). auto.
    - apply shared_param in H. tauto.
  Qed.
  Lemma gr_labelled : labelled gr (declared s).
  Proof.
    unfold gr, input_graph. assert (L0 : labelled (@nil path, @nil ((path * path) * idxs)) (fun _ _ _ => False)) by (split; [intros a b; split; [intros []|intros (i & [])]|intros a b []]).
    destruct (conn_edges_ok cs1 ([], []) _ L0) as [L1 _]. destruct (stars_ok d (abs_p d) _ _ L1) as [L2 _]. eapply labelled_ext; [exact L2|]. intros a b i. cbv beta. rewrite cs1_entry. destruct cs1_ok as (_ & _ & C). rewrite C.
    unfold declared. split.
    - intros [[[]|[H|[H ->]]]|(-> & H)]; [auto|auto|]. right. split; [right; apply shared_iff; exact H|reflexivity].
    - intros [H|[[H|H] ->]]; [auto|auto|]. right. split; [reflexivity|]. apply shared_iff. exact H.
  Qed.
  Lemma gr_nodes : forall n, In n (plist s) -> In n (fst gr).
  Proof.
    intros n Hn. unfold gr, input_graph. assert (L0 : labelled (@nil path, @nil ((path * path) * idxs)) (fun _ _ _ => False)) by (split; [intros a b; split; [intros []|intros (i & [])]|intros a b []]).
    destruct (conn_edges_ok cs1 ([], []) _ L0) as [L1 _]. destruct (stars_ok d (abs_p d) _ _ L1) as [_ N2]. apply N2. right. destruct (abs_p_of n Hn) as (l & G). exists (prom_of s n), l. split; [apply abs_p_entry; exact G|]. apply abs_p_list in G. destruct G as [_ ->]. apply filter_In. split; [exact Hn|apply peqb_eq; reflexivity].
  Qed.
  Lemma gr_nodes_vars : forall n, In n (fst gr) -> In n (plist s) \/ (In n (ulist s) /\ exists t, ed gr n t).
  Proof.
    intros n. unfold gr at 1, input_graph. assert (L0 : labelled (@nil path, @nil ((path * path) * idxs)) (fun _ _ _ => False)) by (split; [intros a b; split; [intros []|intros (i & [])]|intros a b []]).
    destruct (conn_edges_ok cs1 ([], []) _ L0) as [L1 N1]. destruct (stars_ok d (abs_p d) _ _ L1) as [_ N2]. rewrite N2, N1. intros [[[]|(t & l & [a i] & H1 & H2 & H3)]|(m & l & H1 & H2)].
    - assert (C : cin cs1 a t i) by (apply cs1_entry; exists l; auto). destruct cs1_ok as (_ & KP & CC). apply CC in C. assert (D : declared s a t i) by (destruct C as [C|[C ->]]; [left; exact C|right; auto]).
      destruct H3 as [ ->| ->]; cbn [fst].
      + destruct (declared_vars _ _ _ D) as [_ [K|K]]; [auto|]. right. split; [exact K|]. exists t. apply gr_labelled. exists i. exact D.
      + left. eapply declared_vars. exact D.
    - left. apply abs_p_entry in H1. apply abs_p_list in H1. destruct H1 as [_ ->]. apply filter_In in H2. tauto.
  Qed.
  Lemma usrcs_iff : forall u, In u (usrcs d cs1) <-> In u (ulist s) /\ exists t, ed gr u t.
  Proof.
    intros u. unfold usrcs. rewrite nodup_In, filter_In, in_flat_map, unknowns_eq. destruct cs1_ok as (_ & _ & C). split.
    - intros ((e & H1 & H2) & H3). destruct (in_dec path_dec u (ulist s)) as [HU|]; [|discriminate]. split; [exact HU|]. destruct e as [t l]. apply in_map_iff in H2. destruct H2 as ([a i] & H2 & H4). cbn in H2. subst a.
      exists t. apply gr_labelled. exists i. assert (K : cin cs1 u t i) by (apply cs1_entry; exists l; auto). apply C in K. destruct K as [K|[K ->]]; [left; exact K|right; auto].
    - intros (HU & t & H). apply (proj1 gr_labelled) in H. destruct H as (i & D). split; [|destruct (in_dec path_dec u (ulist s)); [reflexivity|contradiction]].
      assert (K : cin cs1 u t i). { apply C. destruct D as [D|[[D|D] ->]]; [auto|auto|]. exfalso. apply shared_param in D. destruct (vars_nodup s W) as (_ & _ & DJ). exact (DJ u (proj1 D) HU). }
      apply cs1_entry in K. destruct K as (l & K1 & K2). exists (t, l). split; [exact K1|]. apply in_map_iff. exists (u, i). auto.
  Qed.
End Top.

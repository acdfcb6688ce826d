(** Lemmas about connections: the result. *)
From Coq Require Import Permutation.
From Verif Require Import Base BaseFacts GraphSpec GraphProofs OrderModel PathModel OrderProofs2 NameModel NameSpec NameProofs ConnModel ConnSpec ConnProofs ConnProofs2 ConnProofs3 ConnProofs4.
Local Open Scope nat_scope.

Lemma fold_inv : forall A B (f : A -> B -> A) (P : A -> Prop) l a, P a -> (forall a b, P a -> P (f a b)) -> P (fold_left f l a).
Proof. intros A B f P. induction l as [|b l IH]; intros a Ha H; [exact Ha|]. cbn. apply IH; auto. Qed.
Lemma input_graph_nodup : forall d cs, NoDup (fst (input_graph d cs)).
Proof.
  intros d cs. unfold input_graph, conn_edges. apply (fold_inv _ _ (star d) (fun g => NoDup (fst g))).
  - apply (fold_inv _ _ _ (fun g : igraph => NoDup (fst g))); [constructor|]. intros g e H. apply (fold_inv _ _ _ (fun g : igraph => NoDup (fst g))); [exact H|]. intros g' x H'. unfold add_edge. cbn [fst]. apply add_node_nodup. apply add_node_nodup. exact H'.
  - intros g e H. unfold star. assert (K : NoDup (fold_left add_node (snd e) (fst g))) by (apply (fold_inv _ _ _ (fun ns => NoDup ns)); [exact H|]; intros; apply add_node_nodup; assumption).
    destruct (noconns d (fst e)); [|exact K]. destruct (snd e) as [|p r]; [exact K|]. apply (fold_inv _ _ _ (fun g : igraph => NoDup (fst g))); [exact K|]. intros g' x H'. unfold add_edge. cbn [fst]. apply add_node_nodup. apply add_node_nodup. exact H'.
Qed.

Definition at_most_one (s : sys) (r : result) : Prop :=
  NoDup (map fst (connections r)) /\
  forall t u i, In (t, (u, i)) (connections r) -> In t (plist s) /\ In u (ulist s) /\ joined s u t /\
    ((exists l, chain s u l t /\ forall V (v w : list V), picks l v = Some w -> pick i v = Some w) \/ (i = None /\ forall u', In u' (ulist s) -> ~ feeds s u' t)).
Definition honoured (s : sys) (r : result) : Prop :=
  (forall u t, In u (ulist s) -> u <> t -> feeds s u t -> exists u' i, In (t, (u', i)) (connections r) /\ feeds s u' t /\ (u' = u \/ In t (multiple r))) /\
  (forall t, In t (multiple r) <-> In t (plist s) /\ exists u u', In u (ulist s) /\ In u' (ulist s) /\ u <> u' /\ feeds s u t /\ feeds s u' t).
Definition roots (s : sys) (r : result) : Prop :=
  forall n, In n (plist s) -> (forall a, ~ link s a n) ->
    ((exists x, In (n, x) (connections r)) /\ pget (inputs_of r) n = None) \/
    ((forall x, ~ In (n, x) (connections r)) /\ (exists l, pget (inputs_of r) n = Some l /\ forall x, In x l <-> feeds s n x) /\ pget (dangling_of r) (prom_of s n) <> None /\
     forall x u, feeds s n x -> In u (ulist s) -> ~ feeds s u x).

Lemma setup_connections_ok : forall dfs order s, dfs_tree_spec dfs -> (forall l, Permutation (order l) l) -> wf_sys s ->
    (faulty s /\ setup_connections dfs order s = Err RuntimeError) \/
    (~ faulty s /\ bad_name s /\ setup_connections dfs order s = Err NameError) \/
    (~ faulty s /\ ~ bad_name s /\
       ((setup_connections dfs order s = Err IndexError /\ exists u t l, In u (ulist s) /\ chain s u l t /\ forall V (v : list V), picks l v = None) \/
        exists r, setup_connections dfs order s = Ok r /\ at_most_one s r /\ honoured s r /\ roots s r)).
Proof.
  intros dfs order s DF OR W. unfold setup_connections. destruct (setup_ok s W []) as [[F E]|(NF & d & E & H & _)]; rewrite E; cbn [bind]; [left; auto|]. right.
  destruct (explicit_ok s W NF []) as [[B E']|(NB & cs0 & E' & N0 & K0 & C0)]; rewrite E'; cbn [bind]; [left; auto|]. right. split; [exact NF|]. split; [exact NB|].
  assert (K0' : forall k, In k (dkeys cs0) -> In k (plist s)) by (intros k Hk; destruct (K0 k Hk) as (q & Hq & ->); exact Hq).
  assert (C0' : forall a b i, cin cs0 a b i <-> explicit_conn s a b i) by (intros a b i; rewrite C0; cbn; split; [intros (a' & b' & K & -> & ->); exact K|intros K; exists a, b; auto]).
  clear K0 C0 H E'. pose proof (gr_labelled s d cs0 W E N0 K0' C0') as LB. pose proof (usrcs_iff s d cs0 W E N0 K0' C0') as US. pose proof (gr_nodes s d cs0 W E) as GN.
  unfold resolve. fold (cs1 d cs0). change (input_graph d (cs1 d cs0)) with (gr d cs0). set (g := gr d cs0) in *. set (srcs := order (usrcs d (cs1 d cs0))).
  assert (SI : forall u, In u srcs <-> In u (ulist s) /\ exists t, ed g u t).
  { intros u. rewrite <- US. unfold srcs. split; apply Permutation_in; [apply OR|apply Permutation_sym; apply OR]. }
  assert (ND : NoDup srcs) by (unfold srcs; eapply Permutation_NoDup; [apply Permutation_sym; apply OR|]; unfold usrcs; apply NoDup_nodup).
  destruct (vars_nodup s W) as (_ & _ & DJ).
  assert (EP : forall a b, ed g a b -> In b (plist s)) by (intros a b K; apply (proj1 LB) in K; destruct K as (i & K); eapply declared_vars; exact K).
  assert (NE : forall a b, ed g a b -> ~ In b srcs) by (intros a b K C; apply SI in C; exact (DJ b (EP a b K) (proj1 C))).
  assert (LK : forall a b, link s a b <-> ed g a b).
  { intros a b. rewrite (proj1 LB). unfold link, declared. split.
    - intros [(i & K)|K]; [exists i; auto|exists None; auto].
    - intros (i & [K|[K _]]); [left; exists i; exact K|right; exact K]. }
  assert (FR : forall a b, feeds s a b <-> reach (shape g) a b).
  { intros a b. split; intros K; induction K; try constructor; econstructor; eauto; [apply edge_ed; apply LK; assumption|apply LK; apply edge_ed; assumption]. }
  assert (JL : forall a b, linked g a b -> joined s a b).
  { intros a b K. induction K; [constructor|eapply join_fwd|eapply join_bwd]; eauto; apply LK; assumption. }
  assert (FS : forall u t, In u (ulist s) -> u <> t -> feeds s u t -> In u srcs).
  { intros u t Hu Hn Hf. apply SI. split; [exact Hu|]. destruct Hf as [|a b c K _]; [congruence|]. exists b. apply LK. exact K. }
  pose proof (from_unknowns_ok s g LB dfs DF srcs ND NE srcs [] [] eq_refl) as FU. assert (F0 : found s g srcs [] []) by (split; [constructor|split; [intros u []|intros t _; cbn; intros u []]]). specialize (FU F0).
  destruct (from_unknowns dfs g srcs []) as [nc|e]; cbn [bind].
  2:{ left. destruct FU as (-> & u & t & Hu & l & C & P). split; [reflexivity|]. exists u, t, l. split; [apply SI; exact Hu|auto]. }
  right. assert (FO := FU). destruct FU as (U0 & U1 & U2).
  assert (I0 : inv g srcs nc d [] (mkSt nc [] [])).
  { split; [|split]; cbn [newc input_inputs].
    - split; [exact U0|]. split; auto.
    - intros n [].
    - intros n _ [R1 R2]. split; [|reflexivity]. specialize (U2 n R1). destruct (pget nc n) as [l|]; [|reflexivity]. exfalso. destruct U2 as (L1 & _ & L3 & _). destruct l as [|[u i] l]; [congruence|].
      destruct (proj1 (L3 u) (or_introl eq_refl)) as [A B]. destruct (reach_last _ _ _ B) as [ ->|(v & _ & K)]; [contradiction|]. apply edge_ed in K. exact (R2 v K). }
  destruct (upstream_ok s g dfs DF srcs NE nc FO d (fst g) [] (mkSt nc [] [])) as (st & ES & (SD & IN1 & _)); [apply input_graph_nodup|exact I0|]. rewrite ES. cbn [bind]. exists (finish st). split; [reflexivity|].
  destruct SD as (SD0 & SD1 & SD2). assert (SD : sound g srcs nc (newc st)) by (split; [|split]; assumption).
  (* the entries of the result *)
  assert (CE : forall t x, In (t, x) (connections (finish st)) <-> exists r, pget (newc st) t = Some (x :: r)).
  { intros t x. cbn [finish connections]. rewrite in_flat_map. split.
    - intros ([k l] & K1 & K2). cbn [fst snd] in K2. destruct l as [|y l]; [destruct K2|]. destruct K2 as [K2|[]]. injection K2 as -> ->. exists l. apply in_pget; assumption.
    - intros (r & K). exists (t, x :: r). split; [apply pget_in; exact K|left; reflexivity]. }
  assert (ME : forall t, In t (multiple (finish st)) <-> exists x y r, pget (newc st) t = Some (x :: y :: r)).
  { intros t. cbn [finish multiple]. rewrite in_flat_map. split.
    - intros ([k l] & K1 & K2). cbn [fst snd] in K2. destruct l as [|x [|y l]]; [destruct K2|destruct K2|]. destruct K2 as [K2|[]]. subst k. exists x, y, l. apply in_pget; assumption.
    - intros (x & y & r & K). exists (t, x :: y :: r). split; [apply pget_in; exact K|left; reflexivity]. }
  assert (KP : forall t l, pget (newc st) t = Some l -> l <> [] -> ~ In t srcs).
  { intros t l K Kn C. rewrite (SD1 t [] (U1 t C)) in K. congruence. }
  assert (LP : forall u t, In u srcs -> linked g u t -> u <> t -> In t (plist s) \/ In t (ulist s)).
  { intros u t Hu K Kn. apply linked_sym in K. destruct K as [|a b c K _|a b c K _]; [congruence| |left; eapply EP; exact K]. apply (proj1 LB) in K. destruct K as (i & K). destruct (declared_vars _ _ _ _ K) as [_ K']. exact K'. }
  split; [|split].
  - split.
    + cbn [finish connections]. clear -SD0. revert SD0. generalize (newc st). intros c. induction c as [|[k l] c IH]; cbn; intros N; [constructor|]. inversion N; subst. rewrite map_app. destruct l as [|x l]; [apply IH; assumption|]. cbn. constructor; [|apply IH; assumption].
      intros K. apply H1. apply in_map_iff in K. destruct K as ([k' y] & K1 & K2). cbn in K1. subst k'. apply in_flat_map in K2. destruct K2 as ([k' l'] & K2 & K3). cbn in K3. destruct l' as [|z l']; [destruct K3|]. destruct K3 as [K3|[]]. injection K3 as -> _. apply (in_map fst) in K2. exact K2.
    + intros t u i K. apply CE in K. destruct K as (r & K). assert (NT : ~ In t srcs) by (eapply KP; [exact K|discriminate]). pose proof (sound_src s g srcs nc FO (newc st) t SD NT) as SS. rewrite K in SS. destruct SS as [SS1 SS2].
      assert (UT : u <> t) by (intros ->; contradiction).
      assert (UL : In u (ulist s)) by (apply SI; exact SS1).
      assert (PT : In t (plist s)).
      { destruct (LP u t SS1 SS2 UT) as [K'|K']; [exact K'|]. exfalso. apply linked_sym in SS2. destruct SS2 as [|a b c Ka _|a b c Ka _]; [congruence| |exact (DJ a (EP b a Ka) K')].
        apply NT. apply SI. split; [exact K'|exists b; exact Ka]. }
      split; [exact PT|]. split; [exact UL|]. split; [apply JL; exact SS2|].
      destruct (SD2 t _ K) as [K'|(K' & u' & K1 & _ & _)].
      * left. specialize (U2 t NT). rewrite K' in U2. destruct U2 as (_ & _ & _ & L4). destruct (L4 u i (or_introl eq_refl)) as (l & C & M). exists l. split; [exact C|exact M].
      * right. injection K1 as <- <- _. split; [reflexivity|]. intros u' Hu' Hf. specialize (U2 t NT). rewrite K' in U2. destruct (path_dec u' t) as [ ->|Hne]; [exact (DJ t PT Hu')|]. apply (U2 u'); [eapply FS; eassumption|apply FR; exact Hf].
  - assert (FD : forall u t, In u (ulist s) -> u <> t -> feeds s u t -> exists l, pget (newc st) t = Some l /\ l <> [] /\ NoDup (map fst l) /\ forall x, In x (map fst l) <-> In x srcs /\ reach (shape g) x t).
    { intros u t Hu Hn Hf. assert (Hs : In u srcs) by (eapply FS; eassumption). assert (NT : ~ In t srcs) by (intros C; apply FR in Hf; apply (reach_src g srcs NE u t C) in Hf; congruence). specialize (U2 t NT).
      destruct (pget nc t) as [l|] eqn:EN; [|exfalso; apply (U2 u Hs); apply FR; exact Hf]. exists l. destruct U2 as (L1 & L2 & L3 & _). split; [apply SD1; exact EN|auto]. }
    split.
    + intros u t Hu Hn Hf. destruct (FD u t Hu Hn Hf) as (l & K & L1 & L2 & L3). destruct l as [|[u' i] l]; [congruence|]. exists u', i. split; [apply CE; exists l; exact K|]. split; [apply FR; apply L3; left; reflexivity|].
      destruct (path_dec u' u) as [|Hne]; [auto|]. right. apply ME. assert (KU : In u (map fst ((u', i) :: l))) by (apply L3; split; [eapply FS; eassumption|apply FR; exact Hf]). destruct KU as [KU|KU]; [cbn in KU; congruence|]. destruct l as [|y l]; [destruct KU|]. exists (u', i), y, l. exact K.
    + intros t. rewrite ME. split.
      * intros ([u i] & [u' i'] & r & K). assert (NT : ~ In t srcs) by (eapply KP; [exact K|discriminate]). destruct (SD2 t _ K) as [K'|(_ & u0 & K1 & _)]; [|discriminate]. specialize (U2 t NT). rewrite K' in U2. destruct U2 as (_ & L2 & L3 & _).
        destruct (proj1 (L3 u) (or_introl eq_refl)) as [A1 A2]. destruct (proj1 (L3 u') (or_intror (or_introl eq_refl))) as [B1 B2]. split.
        -- destruct (reach_last _ _ _ A2) as [ ->|(v & _ & Kv)]; [contradiction|]. apply edge_ed in Kv. eapply EP. exact Kv.
        -- exists u, u'. split; [apply SI; exact A1|]. split; [apply SI; exact B1|]. split; [|split; apply FR; assumption]. cbn in L2. inversion L2 as [|x0 l0 Hx _]. subst. intros ->. apply Hx. left. reflexivity.
      * intros (HP & u & u' & Hu & Hu' & Hne & Hf & Hf'). assert (N1 : u <> t) by (intros ->; exact (DJ t HP Hu)). assert (N2 : u' <> t) by (intros ->; exact (DJ t HP Hu')). destruct (FD u t Hu N1 Hf) as (l & K & L1 & L2 & L3).
        assert (I1 : In u (map fst l)) by (apply L3; split; [eapply FS; [exact Hu|exact N1|exact Hf]|apply FR; exact Hf]).
        assert (I2 : In u' (map fst l)) by (apply L3; split; [eapply FS; [exact Hu'|exact N2|exact Hf']|apply FR; exact Hf']).
        destruct l as [|x [|y l]]; [congruence| |exists x, y, l; exact K]. cbn in I1, I2. destruct I1 as [I1|[]]. destruct I2 as [I2|[]]. congruence.
  - intros n Hn HR. assert (RN : root g srcs n).
    { split; [intros C; apply SI in C; exact (DJ n Hn (proj1 C))|]. intros a K. apply (HR a). apply LK. exact K. }
    assert (NS : ~ In n srcs) by exact (proj1 RN). specialize (IN1 n (GN n Hn) RN). destruct IN1 as [[K1 K2]|(K1 & (r & K2 & K3) & K4 & K5)].
    + left. split; [|exact K2]. destruct (pget (newc st) n) as [[|x l]|] eqn:E1; [|exists x; apply CE; exists l; exact E1|congruence]. exfalso. pose proof (sound_src s g srcs nc FO (newc st) n SD NS) as SS. rewrite E1 in SS. exact SS.
    + right. split; [intros x K; apply CE in K; destruct K as (l & K); congruence|]. split.
      * exists (n :: r). split; [exact K2|]. intros x. rewrite (K3 x). symmetry. apply FR.
      * split.
        -- cbn [finish dangling_of]. destruct (names_ok s [] d W E) as (_ & _ & _ & PN & _). pose proof (PN n (or_introl Hn)) as K. cbn [app] in K. rewrite <- K. exact K4.
        -- intros x u Hx Hu Hf. destruct (path_dec u x) as [ ->|Hne].
           ++ apply FR in Hx. destruct (reach_last _ _ _ Hx) as [ ->|(v & _ & Kv)]; [exact (DJ x Hn Hu)|]. apply edge_ed in Kv. exact (DJ x (EP v x Kv) Hu).
           ++ apply (K5 x) with (u := u); [apply FR; exact Hx|eapply FS; eassumption|apply FR; exact Hf].
Qed.

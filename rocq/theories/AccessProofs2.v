(** Lemmas about reading and setting variables: the unconnected inputs in terms of links. *)
From Coq Require Import Permutation.
From Verif Require Import Base BaseFacts GraphSpec GraphProofs OrderModel PathModel OrderProofs2 NameModel NameSpec NameProofs ConnModel ConnSpec ConnProofs ConnProofs2 ConnProofs3 ConnProofs4 ConnProofs5 AccessModel AccessSpec AccessProofs.
Local Open Scope nat_scope.

Definition connected (r : result) (t : path) : Prop := exists x, In (t, x) (connections r).
Definition dangling_ok (s : sys) (r : result) : Prop :=
  (forall P l, pget (dangling_of r) P = Some l -> exists n, top_input s n /\ (forall x, In x l <-> feeds s n x) /\ ~ connected r n /\ exists m, In m l /\ prom_of s m = P) /\
  (forall n, top_input s n -> ~ connected r n -> forall x, feeds s n x -> pget (dangling_of r) (prom_of s x) <> None) /\
  (forall t, connected r t -> (exists u, In u (ulist s) /\ feeds s u t) \/ exists n x, top_input s n /\ feeds s n t /\ connected r n /\ feeds s n x /\
     ((exists u, In u (ulist s) /\ feeds s u x) \/ exists n', top_input s n' /\ n' <> n /\ feeds s n' x)).

Lemma feeds_param : forall s n x, In n (plist s) -> feeds s n x -> In x (plist s).
Proof.
  intros s n x Hn F. induction F as [a|a b c L F IH]; [exact Hn|]. apply IH.
  assert (declared s a b None \/ exists i, declared s a b i) as [D|(i & D)] by (unfold declared; destruct L as [(i & L)|[L|L]]; [right; exists i; auto|left; auto|left; auto]); apply (declared_vars s) in D; tauto.
Qed.

Lemma setup_dangling : forall dfs order s r, dfs_tree_spec dfs -> (forall l, Permutation (order l) l) -> wf_sys s -> setup_connections dfs order s = Ok r ->
    exists d, setup_variables [] s = Ok d /\ dangling_ok s r.
Proof.
  intros dfs order s r DF OR W OK. assert (OK0 := OK). unfold setup_connections in OK. destruct (setup_ok s W []) as [[F E]|(NF & d & E & H & _)]; rewrite E in OK; cbn [bind] in OK; [discriminate|]. exists d. split; [exact E|].
  destruct (explicit_ok s W NF []) as [[B E']|(NB & cs0 & E' & N0 & K0 & C0)]; rewrite E' in OK; cbn [bind] in OK; [discriminate|].
  assert (K0' : forall k, In k (dkeys cs0) -> In k (plist s)) by (intros k Hk; destruct (K0 k Hk) as (q & Hq & ->); exact Hq).
  assert (C0' : forall a b i, cin cs0 a b i <-> explicit_conn s a b i) by (intros a b i; rewrite C0; cbn; split; [intros (a' & b' & K & -> & ->); exact K|intros K; exists a, b; auto]).
  clear K0 C0 H E'. pose proof (gr_labelled s d cs0 W E N0 K0' C0') as LB. pose proof (usrcs_iff s d cs0 W E N0 K0' C0') as US. pose proof (gr_nodes s d cs0 W E) as GN. pose proof (gr_nodes_vars s d cs0 W E N0 K0' C0') as GV.
  unfold resolve in OK. fold (cs1 d cs0) in OK. change (input_graph d (cs1 d cs0)) with (gr d cs0) in OK. set (g := gr d cs0) in *. set (srcs := order (usrcs d (cs1 d cs0))) in *.
  assert (SI : forall u, In u srcs <-> In u (ulist s) /\ exists t, ed g u t).
  { intros u. rewrite <- US. unfold srcs. split; apply Permutation_in; [apply OR|apply Permutation_sym; apply OR]. }
  assert (ND : NoDup srcs) by (unfold srcs; eapply Permutation_NoDup; [apply Permutation_sym; apply OR|]; unfold usrcs; apply NoDup_nodup).
  destruct (vars_nodup s W) as (_ & _ & DJ).
  assert (EP : forall a b, ed g a b -> In b (plist s)) by (intros a b K; apply (proj1 LB) in K; destruct K as (i & K); eapply declared_vars; exact K).
  assert (NE : forall a b, ed g a b -> ~ In b srcs) by (intros a b K C; apply SI in C; exact (DJ b (EP a b K) (proj1 C))).
  assert (LK : forall a b, link s a b <-> ed g a b).
  { intros a b. rewrite (proj1 LB). unfold link, declared. split.
    - intros [(i & K)|K]; [exists i; auto|exists None; auto].
    - intros (i & [K|[K _]]); [left; exists i; exact K|right; exact K]. }
  assert (FR : forall a b, feeds s a b <-> reach (shape g) a b).
  { intros a b. split; intros K; induction K; try constructor; econstructor; eauto; [apply edge_ed; apply LK; assumption|apply LK; apply edge_ed; assumption]. }
  pose proof (from_unknowns_ok s g LB dfs DF srcs ND NE srcs [] [] eq_refl) as FU. assert (F0 : found s g srcs [] []) by (split; [constructor|split; [intros u []|intros t _; cbn; intros u []]]). specialize (FU F0).
  destruct (from_unknowns dfs g srcs []) as [nc|e]; cbn [bind] in OK; [|discriminate].
  assert (FO := FU). destruct FU as (U0 & U1 & U2).
  assert (I0 : inv g srcs nc d [] (mkSt nc [] [])).
  { split; [|split]; cbn [newc input_inputs].
    - split; [exact U0|]. split; auto.
    - intros n [].
    - intros n _ [R1 R2]. split; [|reflexivity]. specialize (U2 n R1). destruct (pget nc n) as [l|]; [|reflexivity]. exfalso. destruct U2 as (L1 & _ & L3 & _). destruct l as [|[u i] l]; [congruence|].
      destruct (proj1 (L3 u) (or_introl eq_refl)) as [A B]. destruct (reach_last _ _ _ B) as [ ->|(v & _ & K)]; [contradiction|]. apply edge_ed in K. exact (R2 v K). }
  destruct (upstream_ok s g dfs DF srcs NE nc FO d (fst g) [] (mkSt nc [] [])) as (st & ES & (SD & IN1 & _)); [apply input_graph_nodup|exact I0|].
  assert (D0 : dinv g srcs nc d [] (mkSt nc [] [])) by (split; [|split]; cbn; [intros P l K; discriminate|intros n []|intros t K; left; exact K]).
  pose proof (dangling_all s g dfs DF srcs NE nc FO d (fst g) [] _ st (input_graph_nodup _ _) I0 D0 ES) as (D1 & D2 & D3). cbn [app] in D1, D2, D3.
  rewrite ES in OK. cbn [bind] in OK. injection OK as <-.
  pose proof SD as (SD0 & SD1 & SD2).
  assert (CE : forall t, ~ In t srcs -> (connected (finish st) t <-> pget (newc st) t <> None)).
  { intros t NT. unfold connected. cbn [finish connections]. split.
    - intros (x & K). apply in_flat_map in K. destruct K as ([k l] & K1 & K2). cbn [fst snd] in K2. destruct l as [|y l]; [destruct K2|]. destruct K2 as [K2|[]]. injection K2 as -> ->. rewrite (in_pget _ _ t (x :: l) SD0 K1). discriminate.
    - intros K. pose proof (sound_src s g srcs nc FO (newc st) t SD NT) as SS. destruct (pget (newc st) t) as [[|x l]|] eqn:E1; [contradiction| |congruence]. exists x. apply in_flat_map. exists (t, x :: l). split; [apply pget_in; exact E1|left; reflexivity]. }
  assert (PS : forall t, In t (plist s) -> ~ In t srcs) by (intros t Ht C; apply SI in C; exact (DJ t Ht (proj1 C))).
  assert (PN : forall x, In x (plist s) -> to_prom_name d x = prom_of s x) by (intros x Hx; destruct (names_ok s [] d W E) as (_ & _ & _ & PN & _); exact (PN x (or_introl Hx))).
  assert (TR : forall n, top_input s n -> root g srcs n) by (intros n [Hn R]; split; [apply PS; exact Hn|]; intros a K; apply (R a); apply LK; exact K).
  assert (RT : forall n, root g srcs n -> In n (fst g) -> top_input s n).
  { intros n [R1 R2] Hg. split.
    - destruct (GV n Hg) as [K|[K1 K2]]; [exact K|]. exfalso. apply R1. apply SI. auto.
    - intros a K. apply (R2 a). apply LK. exact K. }
  assert (FP : forall n x, In n (plist s) -> reach (shape g) n x -> In x (plist s)).
  { intros n x Hn K. destruct (reach_last _ _ _ K) as [<-|(v & _ & K')]; [exact Hn|]. apply edge_ed in K'. eapply EP. exact K'. }
  split; [|split].
  - intros P l K. cbn [finish dangling_of] in K. destruct (D1 P l K) as (n & A & B & C & D & F). pose proof (RT n A C) as T. exists n. split; [exact T|]. split; [intros x; rewrite FR; apply B|]. split.
    + rewrite (CE n (proj1 A)). intros K'. apply K'. exact D.
    + apply in_map_iff in F. destruct F as (m & F1 & F2). exists m. split; [exact F2|]. rewrite <- F1. symmetry. apply PN. apply B in F2. exact (FP n m (proj1 T) F2).
  - intros n T NC x F. cbn [finish dangling_of]. rewrite <- PN.
    + apply (D2 n); [apply GN; exact (proj1 T)|apply TR; exact T| |apply FR; exact F]. destruct (pget (newc st) n) eqn:E1; [|reflexivity]. exfalso. apply NC. apply CE; [apply PS; exact (proj1 T)|]. congruence.
    + apply FR in F. exact (FP n x (proj1 T) F).
  - intros t CT. assert (NT : ~ In t srcs).
    { destruct CT as (x & K). cbn [finish connections] in K. apply in_flat_map in K. destruct K as ([k l] & K1 & K2). cbn [fst snd] in K2. destruct l as [|y l]; [destruct K2|]. destruct K2 as [K2|[]]. injection K2 as -> ->. intros C. assert (X : pget (newc st) t = Some (x :: l)) by (apply in_pget; assumption). rewrite (SD1 t [] (U1 t C)) in X. discriminate. }
    assert (FN : forall x, ~ In x srcs -> pget nc x <> None -> exists u, In u (ulist s) /\ feeds s u x).
    { intros x NX K. specialize (U2 x NX). destruct (pget nc x) as [l|]; [|congruence]. destruct U2 as (L1 & _ & L3 & _). destruct l as [|[u i] l]; [congruence|]. destruct (proj1 (L3 u) (or_introl eq_refl)) as [X Y]. exists u. split; [apply SI; exact X|apply FR; exact Y]. }
    assert (TN : forall n, root g srcs n -> pget (newc st) n <> None -> top_input s n).
    { intros n A CN. split; [|intros a K; apply (proj2 A a); apply LK; exact K]. destruct (SD2 n) with (l := match pget (newc st) n with Some l => l | None => [] end) as [K|(K & u & Ku & Hu & HL)]; [destruct (pget (newc st) n); [reflexivity|congruence]| |].
      - exfalso. specialize (U2 n (proj1 A)). rewrite K in U2. destruct U2 as (L1 & _ & L3 & _). destruct (match pget (newc st) n with Some l => l | None => [] end) as [|[u i] l']; [congruence|]. destruct (proj1 (L3 u) (or_introl eq_refl)) as [X Y]. apply (root_reach g srcs u n A) in Y. subst. exact (proj1 A X).
      - apply linked_sym in HL. destruct HL as [a|a b c L _|a b c L _]; [contradiction (proj1 A Hu)| |exfalso; exact (proj2 A b L)].
        apply (proj1 LB) in L. destruct L as (i & L). destruct (declared_vars s _ _ _ L) as [_ [L'|L']]; [exact L'|]. exfalso. apply (proj1 A). apply SI. split; [exact L'|]. exists b. apply (proj1 LB). exists i. exact L. }
    apply (CE t NT) in CT. destruct (D3 t CT) as [K|(n & x & A & B & C & D & F)].
    + left. apply FN; assumption.
    + right. exists n, x. pose proof (TN n A C) as T. split; [exact T|]. split; [apply FR; exact B|]. split; [apply CE; [exact (proj1 A)|exact C]|]. split; [apply FR; exact D|].
      destruct F as [F|(n' & F1 & F2 & F3 & F4)].
      * left. apply FN; [|exact F]. apply PS. exact (FP n x (proj1 T) D).
      * right. exists n'. split; [apply TN; assumption|]. split; [exact F2|apply FR; exact F3].
Qed.

(** ** with one link to each param *)
Lemma feeds_snoc : forall s a b c, feeds s a b -> link s b c -> feeds s a c.
Proof. intros s a b c F L. induction F as [a|a x y L' F IH]; [eapply feeds_step; [exact L|constructor]|eapply feeds_step; [exact L'|auto]]. Qed.
Lemma feeds_last : forall s a c, feeds s a c -> a = c \/ exists b, feeds s a b /\ link s b c.
Proof.
  intros s a c F. induction F as [a|a b c L F IH]; [auto|]. right. destruct IH as [ ->|(x & A & B)]; [exists a; split; [constructor|exact L]|]. exists x. split; [eapply feeds_step; eassumption|exact B].
Qed.
Lemma feeds_trans : forall s a b c, feeds s a b -> feeds s b c -> feeds s a c.
Proof. intros s a b c F G. induction F; [exact G|]. eapply feeds_step; eauto. Qed.
Lemma feeds_comparable : forall s, one_link s -> forall a x, feeds s a x -> forall b, feeds s b x -> feeds s a b \/ feeds s b a.
Proof.
  intros s O. enough (G : forall a x, feeds s a x -> forall b y, feeds s b y -> feeds s y x -> (feeds s a b \/ feeds s b a) ) by (intros a x F b F'; apply (G a x F b x F'); constructor).
  intros a x F. 
  assert (H : forall z, feeds s z x -> feeds s a z \/ feeds s z a).
  { intros z Z. revert a F. induction Z as [z|z w x L Z IH]; intros a F; [auto|]. destruct (IH a F) as [K|K]; [|right; eapply feeds_step; eassumption].
    destruct (feeds_last s a w K) as [ ->|(v & K1 & K2)]; [right; eapply feeds_step; [exact L|constructor]|]. left. rewrite (O z v w L K2). exact K1. }
  intros b y B Y. apply H. eapply feeds_trans; eassumption.
Qed.
Lemma top_feeds : forall s n m, top_input s n -> feeds s m n -> m = n.
Proof. intros s n m [_ T] F. destruct (feeds_last s m n F) as [K|(b & _ & K)]; [exact K|]. exfalso. exact (T b K). Qed.
Lemma unique_top : forall s n n' x, one_link s -> top_input s n -> top_input s n' -> feeds s n x -> feeds s n' x -> n = n'.
Proof. intros s n n' x O T T' F F'. destruct (feeds_comparable s O n x F n' F') as [K|K]; [apply (top_feeds s n' n T' K)|symmetry; apply (top_feeds s n n' T K)]. Qed.
Lemma free_unconnected : forall s r n, one_link s -> dangling_ok s r -> free_input s n -> forall x, feeds s n x -> ~ connected r x.
Proof.
  intros s r n O (_ & _ & D3) [T F] x X C. destruct (D3 x C) as [(u & A & B)|(m & y & A & B & _ & D & E)]; [exact (F x u X A B)|]. rewrite <- (unique_top s n m x O T A X B) in D, E.
  destruct E as [(u & E1 & E2)|(n' & E1 & E2 & E3)]; [exact (F y u D E1 E2)|]. apply E2. symmetry. exact (unique_top s n n' y O T E1 D E3).
Qed.
(** the first param of a name *)
Lemma first_fed : forall s n m f r, one_link s -> free_input s n -> feeds s n m -> filter (fun q => peqb (prom_of s q) (prom_of s m)) (plist s) = f :: r -> feeds s n f /\ prom_of s f = prom_of s m.
Proof.
  intros s n m f r O [T F] M E. assert (PF : prom_of s f = prom_of s m) by (assert (K : In f (f :: r)) by (left; reflexivity); rewrite <- E in K; apply filter_In in K; destruct K as [_ K]; apply peqb_eq; exact K). split; [|exact PF].
  assert (IM : In m (f :: r)) by (rewrite <- E; apply filter_In; split; [eapply feeds_param; [exact (proj1 T)|exact M]|apply peqb_refl]). destruct IM as [ ->|IM]; [exact M|].
  assert (L : link s f m).
  { right. right. split; [|exists r; rewrite PF; auto]. intros u Hu K. apply (F m u M Hu). eapply feeds_step; [|constructor]. right. left. split; [exact Hu|]. split; [eapply feeds_param; [exact (proj1 T)|exact M]|congruence]. }
  destruct (feeds_last s n m M) as [ ->|(b & B1 & B2)]; [exfalso; exact (proj2 T f L)|]. rewrite (O f b m L B2). exact B1.
Qed.
Lemma link_graph : forall s d cs0, wf_sys s -> setup_variables [] s = Ok d -> explicit [] s = Ok cs0 -> forall a b, link s a b <-> ed (gr d cs0) a b.
Proof.
  intros s d cs0 W E E' a b. destruct (setup_ok s W []) as [[F E1]|(NF & d' & E1 & _)]; [congruence|].
  destruct (explicit_ok s W NF []) as [[B E2]|(NB & cs' & E2 & N0 & K0 & C0)]; [congruence|]. assert (cs' = cs0) by congruence. subst cs'.
  assert (K0' : forall k, In k (dkeys cs0) -> In k (plist s)) by (intros k Hk; destruct (K0 k Hk) as (q & Hq & ->); exact Hq).
  assert (C0' : forall a b i, cin cs0 a b i <-> explicit_conn s a b i) by (intros x y i; rewrite C0; cbn; split; [intros (a' & b' & K & -> & ->); exact K|intros K; exists x, y; auto]).
  rewrite (proj1 (gr_labelled s d cs0 W E N0 K0' C0')). unfold link, declared. split.
  - intros [(i & K)|K]; [exists i; auto|exists None; auto].
  - intros (i & [K|[K _]]); [left; exists i; exact K|right; exact K].
Qed.

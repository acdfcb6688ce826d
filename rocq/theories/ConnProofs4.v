(** Lemmas about connections: the sources of the inputs. *)
From Coq Require Import Permutation.
From Verif Require Import Base BaseFacts GraphSpec GraphProofs OrderModel PathModel OrderProofs2 NameModel NameSpec NameProofs ConnModel ConnSpec ConnProofs ConnProofs2 ConnProofs3.
Local Open Scope nat_scope.

Lemma peqb_refl : forall p, peqb p p = true. Proof. intros p. apply peqb_eq. reflexivity. Qed.
Lemma peqb_neq : forall p q, p <> q -> peqb p q = false.
Proof. intros p q H. destruct (peqb p q) eqn:E; [apply peqb_eq in E; contradiction|reflexivity]. Qed.

(** ** indices *)
Lemma entries_nth : forall V (v : list V) s w, entries v s = Some w -> forall i, nth_error w i = match nth_error s i with Some x => nth_error v x | None => None end.
Proof.
  intros V v. induction s as [|a s IH]; intros w H i; cbn in H.
  - injection H as <-. destruct i; reflexivity.
  - destruct (nth_error v a) as [x|] eqn:E; [|discriminate]. destruct (entries v s) as [xs|]; [|discriminate]. injection H as <-. destruct i as [|i]; cbn; [symmetry; exact E|]. apply IH. reflexivity.
Qed.
Lemma entries_take : forall V (v w : list V) s t, entries v s = Some w ->
    match take s t with Ok r => entries w t = entries v r | Err e => e = IndexError /\ entries w t = None end.
Proof.
  intros V v w s t H. induction t as [|i t IH]; [reflexivity|]. cbn. rewrite (entries_nth V v s w H i). destruct (nth_error s i) as [x|]; [|auto].
  destruct (take s t) as [r|e]; cbn [bind]; [rewrite IH; reflexivity|]. destruct IH as [ -> ->]. split; [reflexivity|]. destruct (nth_error v x); reflexivity.
Qed.
Lemma take_err : forall s t e, take s t = Err e -> e = IndexError.
Proof. induction t as [|i t IH]; cbn; intros e H; [discriminate|]. destruct (nth_error s i); [|congruence]. destruct (take s t) as [r|e']; cbn in H; [discriminate|]. apply IH. congruence. Qed.
Definition means (l : list idxs) (i : idxs) : Prop := forall V (v w : list V), picks l v = Some w -> pick i v = Some w.
Lemma picks_snoc : forall V l j (v : list V), picks (l ++ [j]) v = match picks l v with Some w => pick j w | None => None end.
Proof. intros V l j v. unfold picks. rewrite fold_left_app. reflexivity. Qed.
Lemma compose_means : forall l i j, means l i -> match compose i j with Ok k => means (l ++ [j]) k | Err e => e = IndexError /\ forall V (v : list V), picks (l ++ [j]) v = None end.
Proof.
  intros l i j M. unfold compose. destruct j as [t|].
  - destruct i as [s|].
    + destruct (take s t) as [r|e] eqn:E; cbn [bind].
      * intros V v w H. rewrite picks_snoc in H. destruct (picks l v) as [w'|] eqn:P; [|discriminate]. apply M in P. cbn in *. pose proof (entries_take V v w' s t P) as K. rewrite E in K. congruence.
      * split; [eapply take_err; exact E|]. intros V v. rewrite picks_snoc. destruct (picks l v) as [w'|] eqn:P; [|reflexivity]. apply M in P. cbn in *. pose proof (entries_take V v w' s t P) as K. rewrite E in K. tauto.
    + intros V v w H. rewrite picks_snoc in H. destruct (picks l v) as [w'|] eqn:P; [|discriminate]. apply M in P. cbn in *. congruence.
  - intros V v w H. rewrite picks_snoc in H. destruct (picks l v) as [w'|] eqn:P; [|discriminate]. apply M in P. cbn in *. congruence.
Qed.

Section Resolve.
  Variable s : sys.
  Variable g : igraph.
  Hypothesis LB : labelled g (declared s).
  Definition flow (u t : path) (i : idxs) : Prop := exists l, chain s u l t /\ means l i.
  Definition dead (u t : path) : Prop := exists l, chain s u l t /\ forall V (v : list V), picks l v = None.

  Definition adds (nc nc' : conns_dict) (src t : path) : Prop :=
    exists i, flow src t i /\ pget nc' t = Some (match pget nc t with Some l => l ++ [(src, i)] | None => [(src, i)] end).
  Lemma walk_ok : forall src es si nc, NoDup (map snd es) ->
      (forall pre a b post, es = pre ++ (a, b) :: post -> ed g a b /\ (pget si a <> None \/ In a (map snd pre))) ->
      (forall x i, pget si x = Some i -> flow src x i) ->
      match walk g src es si nc with
      | Err e => e = IndexError /\ exists t, In t (map snd es) /\ dead src t
      | Ok nc' => (forall t, ~ In t (map snd es) -> pget nc' t = pget nc t) /\ (forall t, In t (map snd es) -> adds nc nc' src t) /\ (NoDup (dkeys nc) -> NoDup (dkeys nc'))
      end.
  Proof.
    intros src. induction es as [|[a b] es IH]; intros si nc ND HE HS; cbn [walk].
    - split; [auto|]. split; [intros t []|auto].
    - cbn in ND. inversion ND as [|x l Hb ND']; subst. destruct (HE [] a b es eq_refl) as [HED [HA|[]]]. unfold sidx. destruct (pget si a) as [ia|] eqn:EA; [|congruence]. destruct (HS a ia EA) as (l & CL & M).
      pose proof (compose_means l ia (edge_idxs g a b) M) as CM. assert (D : declared s a b (edge_idxs g a b)) by (apply (proj2 LB); exact HED).
      destruct (compose ia (edge_idxs g a b)) as [k|e]; cbn [bind].
      2:{ destruct CM as [ -> CM]. split; [reflexivity|]. exists b. split; [left; reflexivity|]. eexists. split; [eapply chain_snoc; eassumption|exact CM]. }
      assert (FB : flow src b k) by (eexists; split; [eapply chain_snoc; eassumption|exact CM]).
      specialize (IH (pset si b k) (append nc b (src, k)) ND'). assert (A1 : forall pre a0 b0 post, es = pre ++ (a0, b0) :: post -> ed g a0 b0 /\ (pget (pset si b k) a0 <> None \/ In a0 (map snd pre))).
      { intros pre a0 b0 post EE. destruct (HE ((a, b) :: pre) a0 b0 post) as [K1 K2]; [rewrite EE; reflexivity|]. split; [exact K1|]. rewrite pget_pset. destruct (peqb a0 b) eqn:P; [left; discriminate|]. cbn in K2. destruct K2 as [K2|[K2|K2]]; [auto| |auto]. subst a0. rewrite peqb_refl in P. discriminate. }
      assert (A2 : forall x i, pget (pset si b k) x = Some i -> flow src x i).
      { intros x i. rewrite pget_pset. destruct (peqb x b) eqn:P; [|apply HS]. apply peqb_eq in P. intros K. injection K as <-. subst x. exact FB. }
      specialize (IH A1 A2). destruct (walk g src es (pset si b k) (append nc b (src, k))) as [nc'|e].
      + destruct IH as (I1 & I2 & I3). split; [|split].
        * intros t Ht. cbn in Ht. rewrite I1 by tauto. unfold append. rewrite pget_pset, peqb_neq by (intros ->; tauto). reflexivity.
        * intros t [Ht|Ht].
          -- cbn in Ht. subst t. exists k. split; [exact FB|]. rewrite I1 by exact Hb. unfold append. rewrite pget_pset, peqb_refl. reflexivity.
          -- destruct (I2 t Ht) as (i & F & K). exists i. split; [exact F|]. rewrite K. unfold append. rewrite pget_pset, peqb_neq by (intros ->; contradiction). reflexivity.
        * intros N. apply I3. apply nodup_append. exact N.
      + destruct IH as (-> & t & Ht & K). split; [reflexivity|]. exists t. split; [right; exact Ht|exact K].
  Qed.

  Variable dfs : igraph -> path -> list (path * path).
  Hypothesis DF : dfs_tree_spec dfs.
  Lemma dfs_walk : forall src nc, match walk g src (dfs g src) [(src, None)] nc with
      | Err e => e = IndexError /\ exists t, reach (shape g) src t /\ dead src t
      | Ok nc' => (forall t, ~ (reach (shape g) src t /\ t <> src) -> pget nc' t = pget nc t) /\ (forall t, reach (shape g) src t -> t <> src -> adds nc nc' src t) /\ (NoDup (dkeys nc) -> NoDup (dkeys nc'))
      end.
  Proof.
    intros src nc. destruct (DF g src) as (D1 & D2 & D3). pose proof (walk_ok src (dfs g src) [(src, None)] nc D1) as H.
    assert (A1 : forall pre a b post, dfs g src = pre ++ (a, b) :: post -> ed g a b /\ (pget [(src, @None (list nat))] a <> None \/ In a (map snd pre))).
    { intros pre a b post E. destruct (D3 pre a b post E) as [K1 K2]. split; [apply edge_ed; exact K1|]. destruct K2 as [ ->|K2]; [|auto]. left. unfold pget. cbn. rewrite peqb_refl. discriminate. }
    specialize (H A1). assert (A2 : forall x i, pget [(src, @None (list nat))] x = Some i -> flow src x i).
    { intros x i. unfold pget. cbn. destruct (peqb x src) eqn:P; [|discriminate]. apply peqb_eq in P. intros K. injection K as <-. subst x. exists []. split; [constructor|]. intros V v w K. injection K as <-. reflexivity. }
    specialize (H A2). destruct (walk g src (dfs g src) [(src, None)] nc) as [nc'|e].
    - destruct H as (H1 & H2 & H3). split; [|split; [|exact H3]].
      + intros t Ht. apply H1. rewrite D2. exact Ht.
      + intros t Ht Hn. apply H2. apply D2. auto.
    - destruct H as (-> & t & Ht & K). split; [reflexivity|]. exists t. split; [apply D2; exact Ht|exact K].
  Qed.

  (** what newconns holds after the sources in done *)
  Definition found (srcs done : list path) (nc : conns_dict) : Prop :=
    NoDup (dkeys nc) /\ (forall u, In u done -> pget nc u = Some []) /\
    (forall t, ~ In t done -> match pget nc t with
                              | None => forall u, In u done -> ~ reach (shape g) u t
                              | Some l => l <> [] /\ NoDup (map fst l) /\ (forall u, In u (map fst l) <-> In u done /\ reach (shape g) u t) /\ (forall u i, In (u, i) l -> flow u t i)
                              end).
  Variable srcs : list path.
  Hypothesis ND : NoDup srcs.
  Hypothesis NE : forall a b, ed g a b -> ~ In b srcs.
  Lemma reach_src : forall u t, In t srcs -> reach (shape g) u t -> u = t.
  Proof. intros u t Ht R. destruct (reach_last _ _ _ R) as [K|(v & _ & K)]; [exact K|]. exfalso. apply edge_ed in K. exact (NE v t K Ht). Qed.
  Lemma from_unknowns_ok : forall post done nc, srcs = done ++ post -> found srcs done nc ->
      match from_unknowns dfs g post nc with
      | Err e => e = IndexError /\ exists u t, In u srcs /\ dead u t
      | Ok nc' => found srcs srcs nc'
      end.
  Proof.
    induction post as [|u post IH]; intros done nc ES (F0 & F1 & F2); cbn [from_unknowns].
    - rewrite app_nil_r in ES. rewrite ES at 2. split; [|split]; assumption.
    - assert (Hu : In u srcs) by (rewrite ES; apply in_or_app; right; left; reflexivity).
      assert (Hn : ~ In u done) by (intros K; rewrite ES in ND; apply NoDup_remove_2 in ND; apply ND; apply in_or_app; auto).
      pose proof (dfs_walk u (pset nc u [])) as H. destruct (walk g u (dfs g u) [(u, None)] (pset nc u [])) as [nc'|e]; cbn [bind].
      2:{ destruct H as (-> & t & _ & K). split; [reflexivity|]. exists u, t. auto. }
      destruct H as (H1 & H2 & H3). apply (IH (done ++ [u])); [rewrite <- app_assoc; exact ES|]. split; [|split].
      + apply H3. apply NoDup_dkeys_dset; [apply peqb_eq|exact F0].
      + intros x Hx. assert (HX : In x srcs) by (rewrite ES; apply in_app_or in Hx; apply in_or_app; destruct Hx as [Hx|[<-|[]]]; [auto|right; left; reflexivity]).
        rewrite H1; [|intros [K Kn]; apply Kn; symmetry; exact (reach_src u x HX K)]. rewrite pget_pset. destruct (peqb x u) eqn:P; [reflexivity|]. apply F1. apply in_app_or in Hx. destruct Hx as [Hx|[<-|[]]]; [exact Hx|]. rewrite peqb_refl in P. discriminate.
      + intros t Ht. assert (Ht1 : ~ In t done) by (intros K; apply Ht; apply in_or_app; auto). assert (Ht2 : t <> u) by (intros ->; apply Ht; apply in_or_app; right; left; reflexivity).
        specialize (F2 t Ht1). assert (PN : pget (pset nc u []) t = pget nc t) by (rewrite pget_pset, peqb_neq by exact Ht2; reflexivity).
        assert (RD : reach (shape g) u t \/ ~ reach (shape g) u t) by (destruct (DF g u) as (_ & D2 & _); destruct (in_dec path_dec t (map snd (dfs g u))) as [K|K]; rewrite D2 in K; [left; tauto|right; tauto]).
        destruct RD as [R|R].
        * destruct (H2 t R Ht2) as (i & FL & K). rewrite K, PN. destruct (pget nc t) as [l|].
          -- destruct F2 as (L1 & L2 & L3 & L4). split; [intros C; apply app_eq_nil in C; destruct C; discriminate|]. split; [|split].
             ++ rewrite map_app. cbn. apply NoDup_snoc; [exact L2|]. rewrite L3. tauto.
             ++ intros x. rewrite map_app, !in_app_iff, L3. cbn. split; [intros [[A B]|[<-|[]]]; auto|intros [[A|[<-|[]]] B]; auto].
             ++ intros x j Hx. apply in_app_or in Hx. destruct Hx as [Hx|[Hx|[]]]; [apply L4; exact Hx|]. injection Hx as <- <-. exact FL.
          -- split; [discriminate|]. split; [constructor; [intros []|constructor]|]. split.
             ++ intros x. cbn. rewrite in_app_iff. cbn. split; [intros [<-|[]]; auto|]. intros [[A|[<-|[]]] B]; [exfalso; exact (F2 x A B)|auto].
             ++ intros x j [Hx|[]]. injection Hx as <- <-. exact FL.
        * rewrite H1 by tauto. rewrite PN. destruct (pget nc t) as [l|].
          -- destruct F2 as (L1 & L2 & L3 & L4). split; [exact L1|]. split; [exact L2|]. split; [|exact L4]. intros x. rewrite L3, in_app_iff. cbn. split; [tauto|]. intros [[A|[<-|[]]] B]; tauto.
          -- intros x Hx B. apply in_app_or in Hx. destruct Hx as [Hx|[<-|[]]]; [exact (F2 x Hx B)|contradiction].
  Qed.

  (** ** the inputs that no unknown reaches *)
  Variable nc : conns_dict.
  Hypothesis FO : found srcs srcs nc.
  Inductive linked : path -> path -> Prop :=
  | lk_refl : forall a, linked a a
  | lk_fwd : forall a b c, ed g a b -> linked b c -> linked a c
  | lk_bwd : forall a b c, ed g b a -> linked b c -> linked a c.
  Lemma linked_trans : forall a b c, linked a b -> linked b c -> linked a c.
  Proof. intros a b c H K. induction H; [exact K| |]; [eapply lk_fwd|eapply lk_bwd]; eauto. Qed.
  Lemma linked_sym : forall a b, linked a b -> linked b a.
  Proof. intros a b H. induction H as [a|a b c E _ IH|a b c E _ IH]; [constructor| |]; (eapply linked_trans; [exact IH|]); [eapply lk_bwd|eapply lk_fwd]; try exact E; constructor. Qed.
  Lemma reach_linked : forall a b, reach (shape g) a b -> linked a b.
  Proof. intros a b H. induction H as [a|a b c E _ IH]; [constructor|]. eapply lk_fwd; [apply edge_ed; exact E|exact IH]. Qed.

  Definition sound (c : conns_dict) : Prop :=
    NoDup (dkeys c) /\ (forall t l, pget nc t = Some l -> pget c t = Some l) /\
    (forall t l, pget c t = Some l -> pget nc t = Some l \/ (pget nc t = None /\ exists u, l = [(u, None)] /\ In u srcs /\ linked u t)).
  Lemma sound_src : forall c t, sound c -> ~ In t srcs -> match pget c t with Some ((u, _) :: _) => In u srcs /\ linked u t | Some [] => False | None => forall u, In u srcs -> ~ reach (shape g) u t end.
  Proof.
    intros c t (_ & S1 & S2) Ht. destruct FO as (_ & _ & F2). specialize (F2 t Ht). specialize (S2 t). destruct (pget c t) as [l|] eqn:E.
    - destruct (S2 l eq_refl) as [K|(K & u & -> & Hu & Hl)]; [|auto]. rewrite K in F2. destruct F2 as (L1 & _ & L3 & _). destruct l as [|[u i] l]; [congruence|]. destruct (proj1 (L3 u) (or_introl eq_refl)) as [A B]. split; [exact A|]. apply reach_linked. exact B.
    - destruct (pget nc t) as [l|] eqn:N; [|exact F2]. rewrite (S1 t l N) in E. discriminate.
  Qed.
  Lemma scan_ok : forall c n, sound c ->
      forall es nosrc, (forall x, In x nosrc -> pget c x = None /\ reach (shape g) n x) -> (forall t, In t (map snd es) -> reach (shape g) n t /\ ~ In t srcs) ->
      match scan es nosrc c with
      | Err _ => False
      | Ok (Some u, r) => In u srcs /\ linked u n /\ (forall x, In x r -> pget c x = None /\ reach (shape g) n x) /\ incl nosrc r
      | Ok (None, r) => r = nosrc ++ map snd es /\ forall x, In x r -> pget c x = None
      end.
  Proof.
    intros c n SD. induction es as [|[a b] es IH]; intros nosrc HN HE; cbn [scan].
    - split; [cbn; rewrite app_nil_r; reflexivity|]. intros x Hx. apply HN. exact Hx.
    - destruct (HE b (or_introl eq_refl)) as [RB NB]. pose proof (sound_src c b SD NB) as SS. destruct (pget c b) as [[|[u i] l]|] eqn:E; [contradiction| |].
      + destruct SS as [SU SL]. split; [exact SU|]. split; [|split; [exact HN|apply incl_refl]]. eapply linked_trans; [exact SL|]. apply linked_sym. apply reach_linked. exact RB.
      + specialize (IH (nosrc ++ [b])). assert (A1 : forall x, In x (nosrc ++ [b]) -> pget c x = None /\ reach (shape g) n x) by (intros x Hx; apply in_app_or in Hx; destruct Hx as [Hx|[<-|[]]]; auto).
        assert (A2 : forall t, In t (map snd es) -> reach (shape g) n t /\ ~ In t srcs) by (intros t Ht; apply HE; right; exact Ht). specialize (IH A1 A2).
        destruct (scan es (nosrc ++ [b]) c) as [[[u|] r]|]; [| |exact IH].
        * destruct IH as (I1 & I2 & I3 & I4). split; [exact I1|]. split; [exact I2|]. split; [exact I3|]. intros x Hx. apply I4. apply in_or_app. auto.
        * destruct IH as [ -> I2]. split; [cbn; rewrite <- app_assoc; reflexivity|exact I2].
  Qed.
  Lemma fold_set : forall (x : list (path * idxs)) l c, let r := fold_left (fun nc m => pset nc m x) l c in
      (forall t, pget r t = if in_dec path_dec t l then Some x else pget c t) /\ (NoDup (dkeys c) -> NoDup (dkeys r)).
  Proof.
    intros x. induction l as [|m l IH]; intros c; cbv zeta; cbn [fold_left]; [split; [reflexivity|auto]|]. destruct (IH (pset c m x)) as [I1 I2]. split.
    - intros t. rewrite I1, pget_pset. destruct (in_dec path_dec t l) as [H|H].
      + destruct (in_dec path_dec t (m :: l)) as [|K]; [reflexivity|]. exfalso. apply K. right. exact H.
      + destruct (peqb t m) eqn:P.
        * apply peqb_eq in P. subst t. destruct (in_dec path_dec m (m :: l)) as [|K]; [reflexivity|]. exfalso. apply K. left. reflexivity.
        * destruct (in_dec path_dec t (m :: l)) as [[K|K]|]; [|contradiction|reflexivity]. subst. rewrite peqb_refl in P. discriminate.
    - intros N. apply I2. apply NoDup_dkeys_dset; [apply peqb_eq|exact N].
  Qed.
  Lemma fold_set_l : forall (x : list path) (f : path -> path) l (c : list (path * list path)), let r := fold_left (fun nc m => pset nc (f m) x) l c in
      (forall t, pget r t = if in_dec path_dec t (map f l) then Some x else pget c t).
  Proof.
    intros x f. induction l as [|m l IH]; intros c; cbv zeta; cbn [fold_left map]; [reflexivity|].
    intros t. rewrite IH, pget_pset. destruct (in_dec path_dec t (map f l)) as [H|H].
    + destruct (in_dec path_dec t (f m :: map f l)) as [|K]; [reflexivity|]. exfalso. apply K. right. exact H.
    + destruct (peqb t (f m)) eqn:P.
      * apply peqb_eq in P. subst t. destruct (in_dec path_dec (f m) (f m :: map f l)) as [|K]; [reflexivity|]. exfalso. apply K. left. reflexivity.
      * destruct (in_dec path_dec t (f m :: map f l)) as [[K|K]|]; [|contradiction|reflexivity]. subst. rewrite peqb_refl in P. discriminate.
  Qed.

  Variable d : data.
  (** an input nothing leads to *)
  Definition root (n : path) : Prop := ~ In n srcs /\ forall a, ~ ed g a n.
  Definition reached (n : path) (r : list path) : Prop := forall x, In x r <-> reach (shape g) n x.
  (** what is known of the nodes that were visited *)
  Definition settled (st : state) (n : path) : Prop :=
    (pget (newc st) n <> None /\ pget (input_inputs st) n = None) \/
    (pget (newc st) n = None /\ (exists r, pget (input_inputs st) n = Some (n :: r) /\ reached n (n :: r)) /\ pget (dangling st) (to_prom_name d n) <> None /\
     forall x, reach (shape g) n x -> forall u, In u srcs -> ~ reach (shape g) u x).
  Definition inv (done : list path) (st : state) : Prop :=
    sound (newc st) /\ (forall n, In n done -> root n -> settled st n) /\ (forall n, ~ In n done -> root n -> pget (newc st) n = None /\ pget (input_inputs st) n = None).
  Lemma has_pred_iff : forall n, has_pred g n = true <-> exists a, ed g a n.
  Proof.
    intros n. unfold has_pred. rewrite existsb_exists. unfold ed, dkeys. split.
    - intros ([[a b] i] & H & K). cbn in K. apply peqb_eq in K. subst b. exists a. apply (in_map fst) in H. exact H.
    - intros (a & H). apply in_map_iff in H. destruct H as ([[x y] i] & K & H). cbn in K. injection K as -> ->. exists (a, n, i). split; [exact H|]. cbn. apply peqb_refl.
  Qed.
  Lemma root_reach : forall m n, root n -> reach (shape g) m n -> m = n.
  Proof. intros m n [_ R] H. destruct (reach_last _ _ _ H) as [K|(v & _ & K)]; [exact K|]. exfalso. apply edge_ed in K. exact (R v K). Qed.
  Lemma upstream_step_ok : forall done st n, inv done st -> ~ In n done ->
      exists st', upstream_step dfs d g st n = Ok st' /\ inv (done ++ [n]) st'.
  Proof.
    intros done st n (SD & I1 & I2) Hn.
    assert (KEEP : (root n -> settled st n) -> inv (done ++ [n]) st).
    { intros HR. split; [exact SD|]. split.
      - intros m Hm R. apply in_app_or in Hm. destruct Hm as [Hm|[<-|[]]]; [apply I1; assumption|apply HR; exact R].
      - intros m Hm R. apply I2; [|exact R]. intros K. apply Hm. apply in_or_app. auto. }
    unfold upstream_step. destruct (pget (newc st) n) as [l|] eqn:EN.
    { exists st. split; [reflexivity|]. apply KEEP. intros R. destruct (I2 n Hn R) as [K _]. congruence. }
    destruct (has_pred g n) eqn:HP.
    { exists st. split; [reflexivity|]. apply KEEP. intros [_ R]. apply has_pred_iff in HP. destruct HP as (a & K). exfalso. exact (R a K). }
    assert (NS : ~ In n srcs). { intros K. destruct FO as (_ & F1 & _). destruct SD as (_ & S1 & _). rewrite (S1 n [] (F1 n K)) in EN. discriminate. }
    assert (RN : root n) by (split; [exact NS|]; intros a K; assert (has_pred g n = true) by (apply has_pred_iff; exists a; exact K); congruence).
    destruct (I2 n Hn RN) as [_ IIN].
    destruct (DF g n) as (D1 & D2 & D3).
    assert (A1 : forall x, In x [n] -> pget (newc st) x = None /\ reach (shape g) n x) by (intros x [<-|[]]; split; [exact EN|constructor]).
    assert (A2 : forall t, In t (map snd (dfs g n)) -> reach (shape g) n t /\ ~ In t srcs).
    { intros t Ht. split; [apply D2; exact Ht|]. intros K. apply D2 in Ht. destruct Ht as [Ht Htn]. apply Htn. symmetry. exact (reach_src n t K Ht). }
    pose proof (scan_ok (newc st) n SD (dfs g n) [n] A1 A2) as SC. destruct (scan (dfs g n) [n] (newc st)) as [[[u|] r]|e]; [| |contradiction]; cbn [bind]; eexists; (split; [reflexivity|]).
    - destruct SC as (U1 & U2 & U3 & U4). destruct (fold_set [(u, None)] r (newc st)) as [G1 G2]. destruct SD as (S0 & S1 & S2). split; [|split]; cbn [newc dangling input_inputs].
      + split; [apply G2; exact S0|]. split.
        * intros t l Hl. rewrite G1. destruct (in_dec path_dec t r) as [H|H]; [|apply S1; exact Hl]. destruct (U3 t H) as [K _]. rewrite (S1 t l Hl) in K. discriminate.
        * intros t l Hl. rewrite G1 in Hl. destruct (in_dec path_dec t r) as [H|H]; [|apply S2; exact Hl]. injection Hl as <-. right. destruct (U3 t H) as [K R]. split.
          -- destruct (pget nc t) as [l|] eqn:N; [|reflexivity]. rewrite (S1 t l N) in K. discriminate.
          -- exists u. split; [reflexivity|]. split; [exact U1|]. eapply linked_trans; [exact U2|]. apply reach_linked. exact R.
      + intros m Hm R. assert (IN : In n r) by (apply U4; left; reflexivity). apply in_app_or in Hm. destruct Hm as [Hm|[<-|[]]].
        * assert (NR : ~ In m r) by (intros K; destruct (U3 m K) as [_ K']; apply (root_reach n m R) in K'; subst m; contradiction).
          unfold settled. cbn [newc dangling input_inputs]. rewrite G1. destruct (in_dec path_dec m r) as [|_]; [contradiction|]. exact (I1 m Hm R).
        * left. cbn [newc input_inputs]. rewrite G1. destruct (in_dec path_dec n r) as [_|]; [|contradiction]. split; [discriminate|exact IIN].
      + intros m Hm R. rewrite G1. assert (MN : m <> n) by (intros ->; apply Hm; apply in_or_app; right; left; reflexivity).
        destruct (in_dec path_dec m r) as [K|_]; [destruct (U3 m K) as [_ K']; apply (root_reach n m R) in K'; congruence|]. apply I2; [|exact R]. intros K. apply Hm. apply in_or_app. auto.
    - destruct SC as [ -> U3]. set (r := [n] ++ map snd (dfs g n)) in *. assert (RR : reached n r).
      { intros x. unfold r. cbn [app In]. rewrite D2. split; [intros [<-|[K _]]; [constructor|exact K]|]. intros K. destruct (path_dec x n) as [ ->|Hx]; [auto|auto]. }
      pose proof (fold_set_l r (fun m => m) r (input_inputs st)) as G1. pose proof (fold_set_l r (to_prom_name d) r (dangling st)) as G2. cbv zeta in G1, G2. rewrite map_id in G1. split; [exact SD|]. split; cbn [newc].
      + intros m Hm R. apply in_app_or in Hm. destruct Hm as [Hm|[<-|[]]].
        * assert (NR : ~ In m r) by (intros K; apply RR in K; apply (root_reach n m R) in K; subst m; contradiction).
          assert (K : settled st m) by (apply I1; assumption). unfold settled in *. cbn [newc dangling input_inputs]. rewrite G1, G2. destruct (in_dec path_dec m r) as [|_]; [contradiction|].
          destruct K as [K|(K1 & K2 & K3 & K4)]; [auto|]. right. split; [exact K1|]. split; [exact K2|]. split; [|exact K4]. destruct (in_dec path_dec (to_prom_name d m) _); [discriminate|exact K3].
        * right. cbn [newc dangling input_inputs]. rewrite G1, G2. assert (IN : In n r) by (left; reflexivity). destruct (in_dec path_dec n r) as [_|]; [|contradiction].
          destruct (in_dec path_dec (to_prom_name d n) (map (to_prom_name d) r)) as [_|K]; [|exfalso; apply K; apply in_map; exact IN].
          split; [exact EN|]. split; [exists (map snd (dfs g n)); split; [reflexivity|exact RR]|]. split; [discriminate|]. intros x Rx u Hu. apply RR in Rx. assert (NX : ~ In x srcs).
          { intros K. apply RR in Rx. apply (reach_src n x K) in Rx. subst x. contradiction. }
          pose proof (sound_src (newc st) x SD NX) as SS. rewrite (U3 x Rx) in SS. apply SS. exact Hu.
      + intros m Hm R. cbn [input_inputs]. rewrite G1. assert (MN : m <> n) by (intros ->; apply Hm; apply in_or_app; right; left; reflexivity).
        destruct (in_dec path_dec m r) as [K|_]; [apply RR in K; apply (root_reach n m R) in K; congruence|]. apply I2; [|exact R]. intros K. apply Hm. apply in_or_app. auto.
  Qed.
  Lemma upstream_ok : forall ns done st, NoDup (done ++ ns) -> inv done st -> exists st', upstream dfs d g ns st = Ok st' /\ inv (done ++ ns) st'.
  Proof.
    induction ns as [|n ns IH]; intros done st N I; cbn [upstream].
    - exists st. rewrite app_nil_r. auto.
    - destruct (upstream_step_ok done st n I) as (st1 & E1 & I1).
      { intros K. apply NoDup_remove_2 in N. apply N. apply in_or_app. auto. }
      rewrite E1. cbn [bind]. destruct (IH (done ++ [n]) st1) as (st2 & E2 & I2); [rewrite <- app_assoc; exact N|exact I1|]. exists st2. split; [exact E2|]. rewrite <- app_assoc in I2. exact I2.
  Qed.
End Resolve.

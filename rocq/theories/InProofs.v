(** Lemmas about the comparison of inputs: the entries of the dictionary of inputs
    without a source. *)
From Coq Require Import Permutation.
From Verif Require Import Base BaseFacts GraphSpec GraphProofs OrderModel PathModel OrderProofs2 NameModel NameSpec NameProofs ConnModel ConnSpec ConnProofs ConnProofs2 ConnProofs3 ConnProofs4 ConnProofs5 AccessSpec AccessProofs AccessProofs2 InModel InSpec.
Local Open Scope nat_scope.
Local Open Scope list_scope.

Section Inputs.
  Variable s : sys.
  Variable g : igraph.
  Variable dfs : igraph -> path -> list (path * path).
  Hypothesis DF : dfs_tree_spec dfs.
  Variable srcs : list path.
  Hypothesis NE : forall a b, ed g a b -> ~ In b srcs.
  Variable nc : conns_dict.
  Hypothesis FO : found s g srcs srcs nc.
  Variable d : data.
  Notation root := (root g srcs).
  Definition iinv (done : list path) (st : state) : Prop :=
    NoDup (dkeys (input_inputs st)) /\
    (forall t l, pget (input_inputs st) t = Some l -> exists n, root n /\ reached g n l /\ In n done /\ pget (newc st) n = None /\ In t l) /\
    (forall n, In n done -> root n -> pget (newc st) n = None -> forall x, reach (shape g) n x -> pget (input_inputs st) x <> None).
  Lemma fold_keys : forall (x : list path) l (c : list (path * list path)), NoDup (dkeys c) -> NoDup (dkeys (fold_left (fun nc m => pset nc m x) l c)).
  Proof. intros x. induction l as [|m l IH]; intros c N; cbn [fold_left]; [exact N|]. apply IH. apply (NoDup_dkeys_dset peqb peqb_eq). exact N. Qed.
  Lemma inputs_step : forall done st n st', inv g srcs nc d done st -> iinv done st -> ~ In n done -> upstream_step dfs d g st n = Ok st' -> iinv (done ++ [n]) st'.
  Proof.
    intros done st n st' (SD & I1 & I2) (D0 & D1 & D2) Hn ES.
    assert (KEEP : ~ root n \/ pget (newc st) n <> None -> iinv (done ++ [n]) st).
    { intros HR. split; [exact D0|]. split.
      - intros P l K. destruct (D1 P l K) as (m & A & B & C & E). exists m. split; [exact A|]. split; [exact B|]. split; [apply in_or_app; auto|exact E].
      - intros m Hm R K. apply in_app_or in Hm. destruct Hm as [Hm|[<-|[]]]; [apply D2; assumption|]. exfalso. tauto. }
    unfold upstream_step in ES. destruct (pget (newc st) n) as [l|] eqn:EN.
    { injection ES as <-. apply KEEP. right. congruence. }
    destruct (has_pred g n) eqn:HP.
    { injection ES as <-. apply KEEP. left. intros [_ R]. apply has_pred_iff in HP. destruct HP as (a & K). exact (R a K). }
    clear KEEP. assert (NS : ~ In n srcs). { intros K. destruct FO as (_ & F1 & _). destruct SD as (_ & S1 & _). rewrite (S1 n [] (F1 n K)) in EN. discriminate. }
    assert (RN : root n) by (split; [exact NS|]; intros a K; assert (has_pred g n = true) by (apply has_pred_iff; exists a; exact K); congruence).
    destruct (DF g n) as (E1 & E2 & E3).
    assert (A1 : forall x, In x [n] -> pget (newc st) x = None /\ reach (shape g) n x) by (intros x [<-|[]]; split; [exact EN|constructor]).
    assert (A2 : forall t, In t (map snd (dfs g n)) -> reach (shape g) n t /\ ~ In t srcs).
    { intros t Ht. split; [apply E2; exact Ht|]. intros K. apply E2 in Ht. destruct Ht as [Ht Htn]. apply Htn. symmetry. exact (reach_src g srcs NE n t K Ht). }
    pose proof (scan_ok s g srcs nc FO (newc st) n SD (dfs g n) [n] A1 A2) as SC. destruct (scan (dfs g n) [n] (newc st)) as [[[u|] r]|e] eqn:ESC; [| |contradiction]; cbn [bind] in ES; injection ES as <-.
    - destruct SC as (U1 & U2 & U3 & U4). destruct (fold_set [(u, None)] r (newc st)) as [G1 _]. assert (IN : In n r) by (apply U4; left; reflexivity).
      assert (NR : forall m, root m -> m <> n -> ~ In m r) by (intros m R Hm K; destruct (U3 m K) as [_ K']; apply (root_reach g srcs n m R) in K'; congruence).
      split; [exact D0|]. split; cbn [newc input_inputs].
      + intros P l K. destruct (D1 P l K) as (m & A & B & C & E & F). exists m. split; [exact A|]. split; [exact B|]. split; [apply in_or_app; auto|]. split; [|exact F].
        rewrite G1. destruct (in_dec path_dec m r) as [H|_]; [|exact E]. exfalso. apply (NR m A); [|exact H]. intros ->. contradiction.
      + intros m Hm R K. rewrite G1 in K. destruct (in_dec path_dec m r) as [|H]; [discriminate|]. apply in_app_or in Hm. destruct Hm as [Hm|[<-|[]]]; [apply D2; assumption|contradiction].
    - destruct SC as [ -> U3]. set (r := [n] ++ map snd (dfs g n)) in *. assert (RR : reached g n r).
      { intros x. unfold r. cbn [app In]. rewrite E2. split; [intros [<-|[K _]]; [constructor|exact K]|]. intros K. destruct (path_dec x n) as [ ->|Hx]; [auto|auto]. }
      pose proof (fold_set_l r (fun x => x) r (input_inputs st)) as G2. cbv zeta beta in G2. rewrite map_id in G2. split; [apply fold_keys; exact D0|]. split; cbn [newc input_inputs].
      + intros P l K. rewrite G2 in K. destruct (in_dec path_dec P r) as [H|H].
        * injection K as <-. exists n. split; [exact RN|]. split; [exact RR|]. split; [apply in_or_app; right; left; reflexivity|]. split; [exact EN|exact H].
        * destruct (D1 P l K) as (m & A & B & C & E). exists m. split; [exact A|]. split; [exact B|]. split; [apply in_or_app; auto|exact E].
      + intros m Hm R K x Rx. rewrite G2. destruct (in_dec path_dec x r) as [|H]; [discriminate|]. apply in_app_or in Hm. destruct Hm as [Hm|[<-|[]]]; [eapply D2; eassumption|].
        exfalso. apply H. apply RR. exact Rx.
  Qed.
  Lemma inputs_all : forall ns done st st', NoDup (done ++ ns) -> inv g srcs nc d done st -> iinv done st -> upstream dfs d g ns st = Ok st' -> iinv (done ++ ns) st'.
  Proof.
    induction ns as [|n ns IH]; intros done st st' N I D E; cbn [upstream] in E.
    - injection E as <-. rewrite app_nil_r. exact D.
    - assert (Hn : ~ In n done) by (intros K; apply NoDup_remove_2 in N; apply N; apply in_or_app; auto).
      destruct (upstream_step_ok s g dfs DF srcs NE nc FO d done st n I Hn) as (st1 & E1 & I1). rewrite E1 in E. cbn [bind] in E.
      change (n :: ns) with ([n] ++ ns). rewrite app_assoc. apply (IH (done ++ [n]) st1 st'); [rewrite <- app_assoc; exact N|exact I1| |exact E]. eapply inputs_step; eassumption.
  Qed.
End Inputs.

Definition inputs_good (s : sys) (r : result) : Prop :=
  NoDup (dkeys (inputs_of r)) /\
  (forall t l, pget (inputs_of r) t = Some l -> exists n, start s r n /\ (forall x, In x l <-> feeds s n x) /\ In t l) /\
  (forall n, start s r n -> forall x, feeds s n x -> pget (inputs_of r) x <> None).

Lemma setup_inputs : forall dfs order s r, dfs_tree_spec dfs -> (forall l, Permutation (order l) l) -> wf_sys s -> setup_connections dfs order s = Ok r ->
    exists d, setup_variables [] s = Ok d /\ inputs_good s r.
Proof.
  intros dfs order s r DF OR W OK. unfold setup_connections in OK. destruct (setup_ok s W []) as [[F E]|(NF & d & E & H & _)]; rewrite E in OK; cbn [bind] in OK; [discriminate|]. exists d. split; [exact E|].
  destruct (explicit_ok s W NF []) as [[B E']|(NB & cs0 & E' & N0 & K0 & C0)]; rewrite E' in OK; cbn [bind] in OK; [discriminate|].
  assert (K0' : forall k, In k (dkeys cs0) -> In k (plist s)) by (intros k Hk; destruct (K0 k Hk) as (q & Hq & ->); exact Hq).
  assert (C0' : forall a b i, cin cs0 a b i <-> explicit_conn s a b i) by (intros a b i; rewrite C0; cbn; split; [intros (a' & b' & K & -> & ->); exact K|intros K; exists a, b; auto]).
  clear K0 C0 H E'. pose proof (gr_labelled s d cs0 W E N0 K0' C0') as LB. pose proof (usrcs_iff s d cs0 W E N0 K0' C0') as US. pose proof (gr_nodes s d cs0 W E) as GN. pose proof (gr_nodes_vars s d cs0 W E N0 K0' C0') as GV.
  unfold resolve in OK. fold (cs1 d cs0) in OK. change (input_graph d (cs1 d cs0)) with (gr d cs0) in OK. set (g := gr d cs0) in *. set (srcs := order (usrcs d (cs1 d cs0))) in *.
  assert (SI : forall u, In u srcs <-> In u (ulist s) /\ exists t, ed g u t).
  { intros u. rewrite <- US. unfold srcs. split; apply Permutation_in; [apply OR|apply Permutation_sym; apply OR]. }
  assert (ND : NoDup srcs) by (unfold srcs; eapply Permutation_NoDup; [apply Permutation_sym; apply OR|]; unfold usrcs; apply NoDup_nodup).
  destruct (vars_nodup s W) as (_ & _ & DJ).
  assert (EP : forall a b, ed g a b -> In b (plist s)) by (intros a b K; apply (proj1 LB) in K; destruct K as (i & K); eapply declared_vars; exact K).
  assert (NE : forall a b, ed g a b -> ~ In b srcs) by (intros a b K C; apply SI in C; exact (DJ b (EP a b K) (proj1 C))).
  assert (LK : forall a b, link s a b <-> ed g a b).
  { intros a b. rewrite (proj1 LB). unfold link, declared. split.
    - intros [(i & K)|K]; [exists i; auto|exists None; auto].
    - intros (i & [K|[K _]]); [left; exists i; exact K|right; exact K]. }
  assert (FR : forall a b, feeds s a b <-> reach (shape g) a b).
  { intros a b. split; intros K; induction K; try constructor; econstructor; eauto; [apply edge_ed; apply LK; assumption|apply LK; apply edge_ed; assumption]. }
  pose proof (from_unknowns_ok s g LB dfs DF srcs ND NE srcs [] [] eq_refl) as FU. assert (F0 : found s g srcs [] []) by (split; [constructor|split; [intros u []|intros t _; cbn; intros u []]]). specialize (FU F0).
  destruct (from_unknowns dfs g srcs []) as [nc|e]; cbn [bind] in OK; [|discriminate].
  assert (FO := FU). destruct FU as (U0 & U1 & U2).
  assert (I0 : inv g srcs nc d [] (mkSt nc [] [])).
  { split; [|split]; cbn [newc input_inputs].
    - split; [exact U0|]. split; auto.
    - intros n [].
    - intros n _ [R1 R2]. split; [|reflexivity]. specialize (U2 n R1). destruct (pget nc n) as [l|]; [|reflexivity]. exfalso. destruct U2 as (L1 & _ & L3 & _). destruct l as [|[u i] l]; [congruence|].
      destruct (proj1 (L3 u) (or_introl eq_refl)) as [A B]. destruct (reach_last _ _ _ B) as [ ->|(v & _ & K)]; [contradiction|]. apply edge_ed in K. exact (R2 v K). }
  destruct (upstream_ok s g dfs DF srcs NE nc FO d (fst g) [] (mkSt nc [] [])) as (st & ES & (SD & IN1 & _)); [apply input_graph_nodup|exact I0|].
  assert (D0 : iinv g srcs [] (mkSt nc [] [])) by (split; [|split]; cbn; [constructor|intros P l K; discriminate|intros n []]).
  pose proof (inputs_all s g dfs DF srcs NE nc FO d (fst g) [] _ st (input_graph_nodup _ _) I0 D0 ES) as (D1 & D2 & D3). cbn [app] in D1, D2, D3.
  rewrite ES in OK. cbn [bind] in OK. injection OK as <-.
  pose proof SD as (SD0 & SD1 & SD2).
  assert (CE : forall t, ~ In t srcs -> (connected (finish st) t <-> pget (newc st) t <> None)).
  { intros t NT. unfold connected. cbn [finish connections]. split.
    - intros (x & K). apply in_flat_map in K. destruct K as ([k l] & K1 & K2). cbn [fst snd] in K2. destruct l as [|y l]; [destruct K2|]. destruct K2 as [K2|[]]. injection K2 as -> ->. rewrite (in_pget _ _ t (x :: l) SD0 K1). discriminate.
    - intros K. pose proof (sound_src s g srcs nc FO (newc st) t SD NT) as SS. destruct (pget (newc st) t) as [[|x l]|] eqn:E1; [contradiction| |congruence]. exists x. apply in_flat_map. exists (t, x :: l). split; [apply pget_in; exact E1|left; reflexivity]. }
  assert (PS : forall t, In t (plist s) -> ~ In t srcs) by (intros t Ht C; apply SI in C; exact (DJ t Ht (proj1 C))).
  assert (TR : forall n, top_input s n -> root g srcs n) by (intros n [Hn R]; split; [apply PS; exact Hn|]; intros a K; apply (R a); apply LK; exact K).
  assert (RT : forall n, root g srcs n -> In n (fst g) -> top_input s n).
  { intros n [R1 R2] Hg. split.
    - destruct (GV n Hg) as [K|[K1 K2]]; [exact K|]. exfalso. apply R1. apply SI. auto.
    - intros a K. apply (R2 a). apply LK. exact K. }
  split; [exact D1|]. split.
  - intros t l K. cbn [finish inputs_of] in K. destruct (D2 t l K) as (n & A & B & C & D & F). pose proof (RT n A C) as T. exists n. split; [|split; [intros x; rewrite FR; apply B|exact F]]. split; [exact T|].
    intros x K'. assert (K2 : connected (finish st) n) by (exists x; exact K'). apply (CE n (proj1 A)) in K2. exact (K2 D).
  - intros n [T NC] x F. cbn [finish inputs_of]. apply (D3 n); [apply GN; exact (proj1 T)|apply TR; exact T| |apply FR; exact F]. destruct (pget (newc st) n) eqn:E1; [|reflexivity]. exfalso.
    assert (K : connected (finish st) n) by (apply CE; [apply PS; exact (proj1 T)|congruence]). destruct K as (y & K). exact (NC y K).
Qed.

(** ** what is reported *)
Section Report.
  Context {V T St : Type} (veq : V -> V -> bool) (teqb : T -> T -> bool) (seqb : St -> St -> bool) (eqv : V -> V -> Prop).
  Hypothesis VE : forall a b, veq a b = true <-> eqv a b.
  Hypothesis TE : forall a b, teqb a b = true <-> a = b.
  Hypothesis SE : forall a b, seqb a b = true <-> a = b.
  Variable pd : path -> @meta V T St.
  Lemma shape_eqb_eq : forall a b, shape_eqb a b = true <-> a = b.
  Proof.
    induction a as [|x a IH]; intros [|y b]; cbn [shape_eqb]; try (split; congruence). rewrite Bool.andb_true_iff, Nat.eqb_eq, IH. split; [intros [-> ->]; reflexivity|intros E; injection E as -> ->; auto].
  Qed.
  Lemma forallb_combine : forall (a b : list V), forallb (fun p => veq (fst p) (snd p)) (combine a b) = true <-> forall i x y, nth_error a i = Some x -> nth_error b i = Some y -> eqv x y.
  Proof.
    induction a as [|x a IH]; intros b; cbn [combine forallb].
    - split; [|auto]. intros _ [|i] x y K; discriminate.
    - destruct b as [|y b]; cbn [combine forallb]; [split; [intros _ i u v _ K; destruct i; discriminate|auto]|]. cbn [fst snd]. rewrite Bool.andb_true_iff, VE, IH. split.
      + intros [A B] [|i] u v K L; cbn in K, L; [injection K as <-; injection L as <-; exact A|exact (B i u v K L)].
      + intros H. split; [exact (H 0 x y eq_refl eq_refl)|]. intros i. exact (H (S i)).
  Qed.
  Lemma same_value_iff : forall t v, same_value veq teqb t v = true <-> equal_values eqv v t.
  Proof.
    intros [sh es|t a] [sh' es'|t' b]; cbn [same_value equal_values]; try (split; [discriminate|intros []]); rewrite Bool.andb_true_iff.
    - rewrite shape_eqb_eq, forallb_combine. tauto.
    - rewrite TE, VE. split; intros [-> H]; auto.
  Qed.
  Lemma ueqb_eq : forall a b, ueqb a b = true <-> a = b.
  Proof. intros [a|] [b|]; cbn [ueqb]; try (split; congruence). rewrite String.eqb_eq. split; congruence. Qed.
  Lemma units_none : forall t l, @units_report V T St pd t l = [] <-> forall x u, In x l -> i_units (pd x) = Some u -> i_units (pd t) = Some u.
  Proof.
    intros t l. unfold units_report. destruct (existsb _ _) eqn:E.
    - split; [discriminate|]. intros H. exfalso. apply existsb_exists in E. destruct E as (x & K & U). unfold diff_units in K. apply filter_In in K. destruct K as [K D]. destruct (i_units (pd x)) as [u|] eqn:Eu; [|discriminate].
      rewrite (H x u K Eu) in D. cbn in D. rewrite String.eqb_refl in D. discriminate.
    - split; [|auto]. intros _ x u K U. destruct (ueqb (i_units (pd x)) (i_units (pd t))) eqn:D; [apply ueqb_eq in D; congruence|]. exfalso.
      rewrite <- Bool.not_true_iff_false in E. apply E. apply existsb_exists. exists x. split; [apply filter_In; rewrite D; auto|]. rewrite U. reflexivity.
  Qed.
  Lemma values_none : forall t l, values_report veq teqb pd t l = [] <-> forall x, In x l -> equal_values eqv (i_val (pd x)) (i_val (pd t)).
  Proof.
    intros t l. unfold values_report. destruct (filter _ l) as [|y r] eqn:E.
    - split; [|auto]. intros _ x K. apply same_value_iff. destruct (same_value veq teqb (i_val (pd t)) (i_val (pd x))) eqn:D; [reflexivity|]. exfalso.
      assert (X : In x []) by (rewrite <- E; apply filter_In; rewrite D; auto). destruct X.
    - split; [discriminate|]. intros H. exfalso. assert (X : In y (y :: r)) by (left; reflexivity). rewrite <- E in X. apply filter_In in X. destruct X as [X D]. rewrite (proj2 (same_value_iff _ _) (H y X)) in D. discriminate.
  Qed.
  Lemma settings_keys : forall f names acc, NoDup (dkeys acc) -> NoDup (dkeys (fold_left (fun dct n => match f (pd n) with Some v => dset seqb dct v n | None => dct end) names acc)) /\
      forall a, In a (dkeys (fold_left (fun dct n => match f (pd n) with Some v => dset seqb dct v n | None => dct end) names acc)) <-> In a (dkeys acc) \/ exists n, In n names /\ f (pd n) = Some a.
  Proof.
    intros f. induction names as [|n names IH]; intros acc N; cbn [fold_left].
    - split; [exact N|]. intros a. split; [auto|]. intros [K|(m & [] & _)]. exact K.
    - destruct (f (pd n)) as [v|] eqn:E.
      + destruct (IH (dset seqb acc v n) (NoDup_dkeys_dset seqb SE _ _ _ N)) as [A B]. split; [exact A|]. intros a. rewrite B.
        assert (DK : In a (dkeys (dset seqb acc v n)) <-> a = v \/ In a (dkeys acc)).
        { assert (R : forall x, In x (dkeys (dset seqb acc v n)) <-> dget seqb (dset seqb acc v n) x <> None) by (intros x; pose proof (dget_none seqb SE (dset seqb acc v n) x) as Q; destruct (dget seqb (dset seqb acc v n) x) eqn:G; split; intros K; try congruence; [|tauto]; apply (dget_in seqb SE) in G; apply (in_map fst) in G; exact G).
          rewrite R, (dget_dset seqb SE). destruct (seqb a v) eqn:Q; [apply SE in Q; split; [auto|discriminate]|]. assert (a <> v) by (intros ->; rewrite (proj2 (SE v v) eq_refl) in Q; discriminate).
          pose proof (dget_none seqb SE acc a) as Z. destruct (dget seqb acc a) eqn:G; split; intros K; try congruence; [right; apply (dget_in seqb SE) in G; apply (in_map fst) in G; exact G|destruct K as [K|K]; [contradiction|tauto]]. }
        rewrite DK. split.
        * intros [[->|K]|(m & K & L)]; [right; exists n; split; [left; reflexivity|exact E]|auto|right; exists m; split; [right; exact K|exact L]].
        * intros [K|(m & [<-|K] & L)]; [auto|left; left; congruence|right; exists m; auto].
      + destruct (IH acc N) as [A B]. split; [exact A|]. intros a. rewrite B. split.
        * intros [K|(m & K & L)]; [auto|right; exists m; split; [right; exact K|exact L]].
        * intros [K|(m & [<-|K] & L)]; [auto|congruence|right; exists m; auto].
  Qed.
  Lemma settings_none : forall f names (R : list (@report)), R <> [] -> match settings seqb pd f names with _ :: _ :: _ => R | _ => [] end = [] <-> forall p q a b, In p names -> In q names -> f (pd p) = Some a -> f (pd q) = Some b -> a = b.
  Proof.
    intros f names R HR. destruct (settings_keys f names [] (NoDup_nil _)) as [N K]. unfold settings. set (c := fold_left _ names []) in *. destruct c as [|[v1 n1] [|[v2 n2] c]].
    - split; [|auto]. intros _ p q a b P Q A B. exfalso. apply (proj2 (K a)). right. exists p. auto.
    - split; [|auto]. intros _ p q a b P Q A B. assert (X : In a [v1]) by (apply (proj2 (K a)); right; exists p; auto). assert (Y : In b [v1]) by (apply (proj2 (K b)); right; exists q; auto). destruct X as [<-|[]]. destruct Y as [<-|[]]. reflexivity.
    - split; [intros E; congruence|]. intros H. exfalso. cbn [dkeys map fst] in N, K. destruct (proj1 (K v1) (or_introl eq_refl)) as [[]|(p & P & A)]. destruct (proj1 (K v2) (or_intror (or_introl eq_refl))) as [[]|(q & Q & B)].
      inversion N as [|? ? N1 _]; subst. apply N1. left. symmetry. exact (H p q v1 v2 P Q A B).
  Qed.
  Lemma steps_none : forall e, @steps_report V T St seqb pd e = [] <-> forall f, In f [@i_size V T St; @i_calc V T St; @i_form V T St] -> forall p q a b, In p (snd e) -> In q (snd e) -> f (pd p) = Some a -> f (pd q) = Some b -> a = b.
  Proof.
    intros [k names]. unfold steps_report. cbn [fst snd]. destruct names as [|x [|y names]].
    - split; [|auto]. intros _ f _ p q a b [].
    - split; [|auto]. intros _ f _ p q a b [<-|[]] [<-|[]]. congruence.
    - set (l := x :: y :: names). cbn [flat_map]. rewrite app_nil_r. assert (R : [@Steps k] <> []) by discriminate. split.
      + intros H f F. apply app_eq_nil in H. destruct H as [H1 H]. apply app_eq_nil in H. destruct H as [H2 H3]. destruct F as [<-|[<-|[<-|[]]]]; [exact (proj1 (settings_none _ _ _ R) H1)|exact (proj1 (settings_none _ _ _ R) H2)|exact (proj1 (settings_none _ _ _ R) H3)].
      + intros H. assert (G : forall f, In f [@i_size V T St; @i_calc V T St; @i_form V T St] -> match settings seqb pd f l with _ :: _ :: _ => [@Steps k] | _ => [] end = []) by (intros f F; apply (proj2 (settings_none f l _ R)); exact (H f F)).
        rewrite (G _ (or_introl eq_refl)), (G _ (or_intror (or_introl eq_refl))), (G _ (or_intror (or_intror (or_introl eq_refl)))). reflexivity.
  Qed.
  Lemma flat_map_nil : forall A B (f : A -> list B) l, flat_map f l = [] <-> forall x, In x l -> f x = [].
  Proof.
    intros A B f. induction l as [|x l IH]; cbn [flat_map]; [split; [intros _ x []|auto]|]. split.
    - intros E. apply app_eq_nil in E. destruct E as [E1 E2]. intros y [<-|K]; [exact E1|exact (proj1 IH E2 y K)].
    - intros H. rewrite (H x (or_introl eq_refl)), (proj2 IH); [reflexivity|]. intros y K. apply H. right. exact K.
  Qed.
  Lemma check_none : forall r d, check_input_diffs veq teqb seqb pd r d = [] <->
      (forall t l, In (t, l) (inputs_of r) -> (forall x u, In x l -> i_units (pd x) = Some u -> i_units (pd t) = Some u) /\ forall x, In x l -> equal_values eqv (i_val (pd x)) (i_val (pd t))) /\
      (forall k l, In (k, l) (abs_p d) -> forall f, In f [@i_size V T St; @i_calc V T St; @i_form V T St] -> forall p q a b, In p l -> In q l -> f (pd p) = Some a -> f (pd q) = Some b -> a = b).
  Proof.
    intros r d. unfold check_input_diffs. split.
    - intros E. apply app_eq_nil in E. destruct E as [E1 E2]. split.
      + intros t l K. pose proof (proj1 (flat_map_nil _ _ _ _) E1 (t, l) K) as H. cbn [fst snd] in H. apply app_eq_nil in H. destruct H as [H1 H2]. split; [apply units_none; exact H1|apply values_none; exact H2].
      + intros k l K. exact (proj1 (steps_none (k, l)) (proj1 (flat_map_nil _ _ _ _) E2 (k, l) K)).
    - intros [H1 H2]. rewrite (proj2 (flat_map_nil _ _ (fun e => units_report pd (fst e) (snd e) ++ values_report veq teqb pd (fst e) (snd e)) (inputs_of r))), (proj2 (flat_map_nil _ _ (steps_report seqb pd) (abs_p d))); [reflexivity| |].
      + intros [k l] K. apply steps_none. exact (H2 k l K).
      + intros [t l] K. cbn [fst snd]. destruct (H1 t l K) as [A B]. rewrite (proj2 (units_none t l) A), (proj2 (values_none t l) B). reflexivity.
  Qed.
  (** the settings in terms of the tree *)
  Lemma settings_tree : forall s d, wf_sys s -> setup_variables [] s = Ok d ->
      (forall k l, In (k, l) (abs_p d) -> forall f, In f [@i_size V T St; @i_calc V T St; @i_form V T St] -> forall p q a b, In p l -> In q l -> f (pd p) = Some a -> f (pd q) = Some b -> a = b) <->
      one_setting i_size pd s /\ one_setting i_calc pd s /\ one_setting i_form pd s.
  Proof.
    intros s d W E. destruct (setup_ok s W []) as [[F E1]|(NF & d' & E1 & H & _)]; [congruence|]. assert (d' = d) by congruence. subst d'. destruct (names_ok s [] d W E) as (_ & _ & _ & _ & _ & AP). pose proof (ok_keys _ _ _ H) as NK.
    assert (G : forall m l, In (m, l) (abs_p d) -> forall p, In p l <-> In p (plist s) /\ prom_of s p = m).
    { intros m l K p. specialize (AP m). rewrite (in_pget _ _ m l NK K) in AP. destruct AP as [_ ->]. rewrite map_id, filter_In, peqb_eq. reflexivity. }
    assert (X : forall p, In p (plist s) -> exists l, In (prom_of s p, l) (abs_p d) /\ forall q, In q l <-> In q (plist s) /\ prom_of s q = prom_of s p).
    { intros p Hp. specialize (AP (prom_of s p)). destruct (pget (abs_p d) (prom_of s p)) as [l|] eqn:Q; [|exfalso; exact (AP p Hp eq_refl)]. apply pget_in in Q. exists l. split; [exact Q|]. apply G. exact Q. }
    split.
    - intros K. assert (O : forall f, In f [@i_size V T St; @i_calc V T St; @i_form V T St] -> one_setting f pd s).
      { intros f F p q a b P Q PQ A B. destruct (X p P) as (l & L & LI). apply (K _ l L f F p q a b); [apply LI; auto|apply LI; auto|exact A|exact B]. }
      split; [apply O; left; reflexivity|split; apply O; [right; left|right; right; left]; reflexivity].
    - intros (O1 & O2 & O3) k l L f F p q a b P Q A B. apply (G k l L) in P. apply (G k l L) in Q. assert (PQ : prom_of s p = prom_of s q) by (rewrite (proj2 P), (proj2 Q); reflexivity).
      destruct F as [<-|[<-|[<-|[]]]]; [eapply (O1 p q)|eapply (O2 p q)|eapply (O3 p q)]; tauto.
  Qed.
End Report.

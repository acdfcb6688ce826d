(** C108: multi-fidelity co-kriging (openmdao/surrogate_models/multifi_cokriging.py). *)
From Verif Require Import Base CokModel CokSpec CokProofs.
From Coq Require Import Field Qcanon.
Local Open Scope list_scope.

Section C108.
  Context (K : numbers) (KG : good_num K) (L : lin K) (LG : good_lin K L).
  Context (nu : K) (d : nat) (regr rho : regression K).
  Notation "0" := (n0 K). Notation "1" := (n1 K).
  Infix "+" := (nadd K). Infix "*" := (nmul K). Infix "-" := (nsub K). Infix "/" := (ndiv K).
  Notation "- x" := (nopp K x).
  Notation total := (total K).
  Let Kfield := gn_field K KG.
  Add Field KF : Kfield.

  Notation train := (train K L nu d regr rho).
  Notation predict := (predict K L d regr rho).
  Notation surrogate_predict := (surrogate_predict K L d regr rho).

  Lemma last_rev : forall (s : data K) rest, last (map Some (rev (s :: rest))) None = Some s.
  Proof. intros. cbn [rev]. rewrite map_app. apply last_last. Qed.

  (** the prediction at a training point of the highest level (the first data set given):
      off its value by the nugget alone *)
  Theorem C108_nugget : forall a s rest rs ls a',
    train a (s :: rest) rs = Ok (ls, a') ->
    nested K None (rev (s :: rest)) -> settled K a (length (s :: rest)) rs ->
    Forall (factored K L nu d) ls ->
    forall ne xs k j, (k < ne)%nat -> (j < s_n K s)%nat -> xs k = s_X K s j ->
    exists mu mse e, predict ne xs ls = Ok (mu, mse)
      /\ off K nu d regr rho (s_X K s j) None None ls e
      /\ mu k = s_y K s j + e
      /\ (nu = 0 -> (forall l ft, In l ls -> l_fit K l = Some ft -> regular_upper K (l_p K l + l_q K l) (f_G K ft)) ->
          e = 0 /\ mse k = 0).
  Proof.
    intros a s rest rs ls a' H Hn Hs Hf ne xs k j Hk Hj Hx. unfold CokModel.train in H.
    apply (fit_inv K KG L LG nu d regr rho) in H. destruct H as [os [_ [Hd [Hg [_ [Hdist _]]]]]].
    rewrite rev_length in Hg. specialize (Hg Hs Hf).
    assert (In1 := nested_in K (s_X K s j) (rev (s :: rest)) None s j Hn (last_rev s rest) Hj eq_refl). destruct In1 as [In1 _].
    destruct (predict_levels_off K KG L LG nu d regr rho ne xs k (s_X K s j) Hk Hx ls None None None) as
      [mu [mse [e [Hp [Ho [[s' [j' [Hl [Hj' [Hx' [Hd' Hmu]]]]]] Hz]]]]]].
    - exact Hg.
    - rewrite Hd. exact Hn.
    - intros l Hl. apply In1. rewrite <- Hd. apply in_map. exact Hl.
    - exact I.
    - intros E. rewrite E in Hd. apply (f_equal (@length _)) in Hd. rewrite rev_length in Hd. discriminate.
    - rewrite Hd, last_rev in Hl. injection Hl as <-.
      assert (Ej : j' = j) by (apply Hd'; assumption). subst j'.
      unfold CokModel.predict. rewrite Hp. cbn [bind].
      do 3 eexists. split; [reflexivity|]. split; [exact Ho|]. split.
      + cbv beta. rewrite Hmu. ring.
      + intros Hnu HG. assert (HG' : Forall (G_ok K) ls) by (apply Forall_forall; intros l Hl ft Hft; apply (HG l ft Hl Hft)).
        destruct (Hz Hnu HG' I) as [He Hm]. split; [exact He|]. cbv beta. rewrite Hm. ring.
  Qed.

  (** without a nugget, nothing *)
  Lemma off_zero : forall x prev e0 ls e, nu = 0 -> off K nu d regr rho x prev e0 ls e ->
    (match e0 with Some e1 => e1 = 0 | None => True end) -> e = 0.
  Proof.
    intros x prev e0 ls e Hnu H. induction H as [prev e|prev below l ls ft g j e H1 H2 H3 H4 H5 IH]; intros Hb; [exact Hb|].
    apply IH. destruct below as [e1|]; [rewrite Hb|]; rewrite Hnu; ring.
  Qed.
  Theorem C108_interpolates : forall a s rest rs ls a',
    train a (s :: rest) rs = Ok (ls, a') ->
    nested K None (rev (s :: rest)) -> settled K a (length (s :: rest)) rs ->
    Forall (factored K L nu d) ls -> nu = 0 ->
    forall j, (j < s_n K s)%nat ->
    (exists m, surrogate_predict ls (s_X K s j) = Ok (s_y K s j, m))
    /\ forall ne xs k, (k < ne)%nat -> xs k = s_X K s j ->
       exists mu mse, predict ne xs ls = Ok (mu, mse) /\ mu k = s_y K s j.
  Proof.
    intros a s rest rs ls a' H Hn Hs Hf Hnu j Hj.
    assert (A : forall ne xs k, (k < ne)%nat -> xs k = s_X K s j ->
       exists mu mse, predict ne xs ls = Ok (mu, mse) /\ mu k = s_y K s j).
    { intros ne xs k Hk Hx.
      destruct (C108_nugget a s rest rs ls a' H Hn Hs Hf ne xs k j Hk Hj Hx) as [mu [mse [e [Hp [Ho [Hmu _]]]]]].
      exists mu, mse. split; [exact Hp|]. rewrite Hmu, (off_zero _ _ _ _ _ Hnu Ho I). ring. }
    split; [|exact A]. destruct (A 1%nat (fun _ => s_X K s j) O ltac:(lia) eq_refl) as [mu [mse [Hp Hmu]]].
    exists (mse O). unfold CokModel.surrogate_predict. rewrite Hp. cbn [bind]. rewrite Hmu. reflexivity.
  Qed.

  (** and the error estimate is zero there *)
  Theorem C108_mse : forall a s rest rs ls a',
    train a (s :: rest) rs = Ok (ls, a') ->
    nested K None (rev (s :: rest)) -> settled K a (length (s :: rest)) rs ->
    Forall (factored K L nu d) ls -> nu = 0 ->
    (forall l ft, In l ls -> l_fit K l = Some ft -> regular_upper K (l_p K l + l_q K l) (f_G K ft)) ->
    forall j, (j < s_n K s)%nat -> surrogate_predict ls (s_X K s j) = Ok (s_y K s j, 0).
  Proof.
    intros a s rest rs ls a' H Hn Hs Hf Hnu HG j Hj.
    destruct (C108_nugget a s rest rs ls a' H Hn Hs Hf 1%nat (fun _ => s_X K s j) O j ltac:(lia) Hj eq_refl) as [mu [mse [e [Hp [Ho [Hmu Hz]]]]]].
    destruct (Hz Hnu HG) as [He Hm]. unfold CokModel.surrogate_predict. rewrite Hp. cbn [bind]. rewrite Hmu, Hm, He.
    do 2 f_equal. ring.
  Qed.

  (** the coefficients of every level solve the normal equations of generalized least
      squares: (design)^T (covariance)^-1 (y - (design) beta) = 0 *)
  Lemma good_at : forall pre prev l post, good_levels K L nu d regr rho prev (pre ++ l :: post) ->
    good_levels K L nu d regr rho (last (map Some (map (l_data K) pre)) prev) (l :: post).
  Proof.
    induction pre as [|l0 pre IH]; intros prev l post H; [exact H|].
    cbn [map]. rewrite last_cons_default. apply IH. cbn [app good_levels] in H. apply H.
  Qed.
  Theorem C108_least_squares : forall a s rest rs ls a',
    train a (s :: rest) rs = Ok (ls, a') -> settled K a (length (s :: rest)) rs ->
    Forall (factored K L nu d) ls ->
    forall pre l post, ls = pre ++ l :: post ->
    let prev := last (map Some (map (l_data K) pre)) None in
    let c := (l_p K l + l_q K l)%nat in
    qr_exact K L nu d regr rho prev (l_data K l) c (l_theta K l) ->
    c = length (trend_row K d regr rho (value_below K prev (l_data K l) O) (s_X K (l_data K l) O))
    /\ exists ft g, l_fit K l = Some ft /\ residual_weights K nu d regr rho prev l (f_beta K ft) g
       /\ forall e, (e < c)%nat ->
          total (s_n K (l_data K l)) (fun i => design K d regr rho prev (l_data K l) i e * g i) = 0.
  Proof.
    intros a s rest rs ls a' H Hs Hf pre l post -> prev c HQ. unfold CokModel.train in H.
    apply (fit_inv K KG L LG nu d regr rho) in H. destruct H as [os [_ [Hd [Hg _]]]].
    rewrite rev_length in Hg. specialize (Hg Hs Hf). apply good_at in Hg. fold prev in Hg.
    cbn [good_levels] in Hg. destruct Hg as [HP [Ht [[ft [Hfit HS]] _]]].
    split.
    - destruct HP as [Hp [Hq _]]. unfold c. rewrite Hp, Hq. unfold trend_row, value_below, qcols.
      destruct prev; rewrite app_length, ?map_length, !row_length; cbn; lia.
    - destruct (normal_equations K KG L LG nu d regr rho l ft prev HP Ht HS HQ) as [g [W [N _]]].
      exists ft, g. split; [exact Hfit|]. split; [exact W|exact N].
  Qed.

  (** what is refused: two equal points in a level, fewer than two points, not more points
      than coefficients, a level with more points than the one below, a list of theta of
      another length *)
  Theorem C108_rejects : forall a ss rs ls a', train a ss rs = Ok (ls, a') ->
    map (l_data K) ls = rev ss
    /\ (forall s i j, In s ss -> (i < s_n K s)%nat -> (j < s_n K s)%nat -> s_X K s i = s_X K s j -> i = j)
    /\ (forall s, In s ss -> (1 < s_n K s)%nat)
    /\ (forall os, a = Many K os -> length os = length ss)
    /\ (forall pre l post, ls = pre ++ l :: post ->
        (l_p K l = length (row K d regr []) /\ l_q K l = match pre with [] => O | _ => length (row K d rho []) end
         /\ l_p K l + l_q K l < s_n K (l_data K l))%nat
        /\ forall pre' l', pre = pre' ++ [l'] -> (s_n K (l_data K l) <= s_n K (l_data K l'))%nat).
  Proof.
    intros a ss rs ls a' H. unfold CokModel.train in H. assert (H0 := H).
    apply (fit_inv K KG L LG nu d regr rho) in H. destruct H as [os [Ho [Hd [_ [_ [Hdist _]]]]]].
    rewrite Forall_forall in Hdist.
    split; [exact Hd|]. split; [|split; [|split]].
    - intros s i j Hin. apply (Hdist s). apply in_rev in Hin. exact Hin.
    - intros s Hin. apply (Hdist s). apply in_rev in Hin. exact Hin.
    - intros os0 ->. cbn in Ho. rewrite rev_length in Ho. destruct (Nat.eqb_spec (length os0) (length ss)); [assumption|discriminate].
    - unfold fit in H0. rewrite Ho in H0. cbn [bind] in H0.
      destruct (prepare_all _ _ _ _ _ _ _) as [ls0|] eqn:Ep; [|discriminate]. cbn [bind] in H0.
      destruct (fit_all _ _ _ _ _ _) as [r|] eqn:Ef; [|discriminate]. cbn [bind] in H0. injection H0 as <- _.
      intros pre l post Els.
      assert (G : forall single ss prev chs ls0 ls', prepare_all K d regr rho single prev ss = Ok ls0 -> fit_all K L nu d ls0 chs = Ok ls' ->
        forall pre l post, ls' = pre ++ l :: post ->
        l_p K l = cols K d regr /\ l_q K l = (match pre, prev with [], None => O | _, _ => cols K d rho end)
        /\ (l_p K l + l_q K l < s_n K (l_data K l))%nat
        /\ match last (map Some (map (l_data K) pre)) prev with Some t => (s_n K (l_data K l) <= s_n K t)%nat | None => True end).
      { clear - KG LG. intros single ss. induction ss as [|s ss IH]; intros prev chs ls0 ls' Hp Hf pre l post E; cbn [prepare_all] in Hp.
        - injection Hp as <-. destruct chs; injection Hf as <-; destruct pre; discriminate.
        - destruct (prepare K d regr rho single prev s) as [l0|] eqn:El; [|discriminate]. cbn [bind] in Hp.
          destruct (prepare_all K d regr rho single (Some s) ss) as [ls1|] eqn:Els; [|discriminate]. cbn [bind] in Hp. injection Hp as <-.
          destruct chs as [|ch chs]; [discriminate|]. cbn [fit_all] in Hf.
          destruct (fit_level K L nu d l0 ch) as [l'|] eqn:Ef; [|discriminate]. cbn [bind] in Hf.
          destruct (fit_all K L nu d ls1 chs) as [r|] eqn:Er; [|discriminate]. cbn [bind] in Hf. injection Hf as <-.
          destruct pre as [|l1 pre]; cbn in E; injection E as E1 E2.
          + subst l'. destruct (prepare_inv K KG d regr rho single prev s l0 El) as [P1 [[P2 [P3 _]] [_ [P4 [P5 _]]]]].
            destruct (fit_level_inv K KG L LG nu d l0 ch l Ef) as [(G1 & G2 & G3 & G4) _].
            rewrite G1, G2, G3, P1. split; [exact P2|]. split; [|split; [exact P4|cbn; destruct prev; exact P5]]. rewrite P3. destruct prev; reflexivity.
          + destruct (IH (Some s) chs ls1 r Els Er pre l post E2) as [A [B [C D]]]. split; [exact A|]. split; [|split; [exact C|]].
            * rewrite B. destruct pre; reflexivity.
            * cbn [map]. rewrite last_cons_default. subst l1.
              destruct (prepare_inv K KG d regr rho single prev s l0 El) as [P1 _].
              destruct (fit_level_inv K KG L LG nu d l0 ch l' Ef) as [(G1 & _) _]. rewrite G1, P1. exact D. }
      destruct (G _ _ _ _ _ _ Ep Ef pre l post Els) as [A [B [C D]]].
      rewrite !row_length. split; [split; [exact A|split; [|exact C]]; rewrite B; destruct pre; reflexivity|].
      intros pre' l' ->. rewrite !map_app in D. cbn [map] in D. rewrite last_last in D. exact D.
  Qed.

  (** REFUTED: "too few points are reported as such".  The message needs a variable that
      only a loop over the lower levels sets: with one level there is a NameError *)
  Theorem C108_undetermined_refuted : forall a s rs,
    (match a with One _ _ => True | Many _ os => length os = 1%nat end) ->
    (1 < s_n K s)%nat ->
    (forall i j, (i < j)%nat -> (j < s_n K s)%nat -> total d (fun k => nabs K (gap K (s_X K s i) (s_X K s j) k)) <> 0) ->
    (s_n K s <= length (row K d regr []))%nat ->
    train a [s] rs = Err NameError.
  Proof.
    intros a s rs Ha Hn Hd Hc. unfold CokModel.train, fit. cbn [rev app length].
    assert (E : exists os, per_level K a 1 = Ok os).
    { destruct a as [o|os]; cbn; [eexists; reflexivity|]. rewrite Ha. eexists. reflexivity. }
    destruct E as [os ->]. cbn [bind prepare_all Nat.eqb]. unfold prepare.
    replace (s_n K s <=? 1)%nat with false by (symmetry; apply Nat.leb_gt; exact Hn).
    destruct (existsb _ _) eqn:Ex.
    - exfalso. apply existsb_exists in Ex. destruct Ex as [D [HD Hz]]. unfold self_dists in HD. apply in_flat_map in HD.
      destruct HD as [i [Hi HD]]. apply in_map_iff in HD. destruct HD as [j [<- Hj]]. apply in_seq in Hi, Hj.
      apply (gn_zero K KG) in Hz. apply (Hd i j); [lia|lia|]. exact Hz.
    - rewrite row_length in Hc. rewrite Nat.add_0_r. apply Nat.leb_le in Hc. rewrite Hc. reflexivity.
  Qed.

  (** REFUTED: "a covariance that cannot be factored is reported" (the value returned then
      is 1e20, and the test is for infinity): fit succeeds, every prediction fails *)
  Theorem C108_cholesky_refuted : forall s th rs,
    (1 < s_n K s)%nat ->
    (forall i j, (i < j)%nat -> (j < s_n K s)%nat -> total d (fun k => nabs K (gap K (s_X K s i) (s_X K s j) k)) <> 0) ->
    (length (row K d regr []) < s_n K s)%nat -> (length th = 1 \/ length th = d)%nat ->
    chol K L (s_n K s) (cov K nu th d (s_X K s)) = None ->
    exists ls a', train (One K (Some th)) [s] rs = Ok (ls, a')
      /\ forall x, surrogate_predict ls x = Err ValueError.
  Proof.
    intros s th rs Hn Hd Hc Hth Hch. unfold CokModel.train, fit. cbn [rev app length per_level repeat bind prepare_all Nat.eqb]. unfold prepare.
    replace (s_n K s <=? 1)%nat with false by (symmetry; apply Nat.leb_gt; exact Hn).
    destruct (existsb _ _) eqn:Ex.
    - exfalso. apply existsb_exists in Ex. destruct Ex as [D [HD Hz]]. unfold self_dists in HD. apply in_flat_map in HD.
      destruct HD as [i [Hi HD]]. apply in_map_iff in HD. destruct HD as [j [<- Hj]]. apply in_seq in Hi, Hj.
      apply (gn_zero K KG) in Hz. apply (Hd i j); [lia|lia|]. exact Hz.
    - rewrite row_length in Hc. rewrite Nat.add_0_r. apply Nat.leb_gt in Hc. rewrite Hc.
      assert (Et : theta_ok K th d = true).
      { unfold theta_ok. apply orb_true_iff. destruct Hth as [E|E]; [left|right]; apply Nat.eqb_eq; exact E. }
      cbn [bind choices length seq combine map snd fst fit_all fit_level]. rewrite Et. unfold rlf. cbn [l_data].
      rewrite (chol_cov K KG L LG nu d) by exact Et. rewrite Hch. cbn [bind].
      do 2 eexists. split; [reflexivity|]. intros x. reflexivity.
  Qed.

  (** REFUTED: "any consistent data can be fitted".  Data that the regression reproduces (a
      constant response, say) make the likelihood infinite, which fit takes for a failure *)
  Theorem C108_exact_trend_refuted : forall s th rs b,
    (forall i, (i < s_n K s)%nat ->
       s_y K s i = total (length (row K d regr [])) (fun c => nth c (row K d regr (s_X K s i)) 0 * b c)) ->
    chol K L (s_n K s) (cov K nu th d (s_X K s)) <> None ->
    qr_exact K L nu d regr rho None s (length (row K d regr [])) th ->
    forall ls a', train (One K (Some th)) [s] rs <> Ok (ls, a').
  Proof.
    intros s th rs b Hb Hc HQ ls a' H. unfold CokModel.train, fit in H.
    cbn [rev app length per_level repeat bind prepare_all Nat.eqb] in H.
    destruct (prepare K d regr rho true None s) as [l|] eqn:Ep; [|discriminate].
    cbn [bind choices length seq combine map snd fst fit_all] in H.
    destruct (fit_level K L nu d l (Given K th)) as [l'|] eqn:Ef; [|discriminate]. clear H.
    destruct (prepare_inv K KG d regr rho true None s l Ep) as [P1 [P2 _]].
    unfold fit_level in Ef. destruct (theta_ok K th d) eqn:Et; [|discriminate].
    destruct (rlf K L nu d l th None) as [f inf] eqn:Er. destruct inf; [discriminate|]. injection Ef as <-.
    rewrite <- P1 in Hc. rewrite <- (chol_cov K KG L LG nu d) in Hc by exact Et.
    destruct (rlf_some K L nu d l th None Hc) as [ft E]. rewrite E in Er. injection Er as <- Hz.
    destruct (rlf_stored K L nu d l th None ft _ E Hc) as [HS _].
    set (l2 := mkLevel K (l_data K l) (l_p K l) (l_q K l) (l_F K l) th (Some ft)).
    assert (Hp := P2). destruct Hp as [Hp [Hq HFe]]. cbn [qcols] in Hq.
    assert (S2 : f_s2 K ft = 0).
    { apply (exact_trend_s2 K KG L LG nu d regr rho l2 ft None) with (b := b).
      - exact P2.
      - exact Et.
      - exact HS.
      - cbn [l2 l_data l_p l_q l_theta]. rewrite P1, Hp, Hq, Nat.add_0_r. rewrite row_length in HQ. exact HQ.
      - cbn [l2 l_data l_p l_q]. rewrite P1, Hp, Hq, Nat.add_0_r. intros i Hi. rewrite Hb by exact Hi. rewrite row_length. reflexivity. }
    apply (gn_zero K KG) in S2. congruence.
  Qed.

  (** REFUTED: "the model interpolates after theta has been optimized".  The factors kept are
      those of the last theta that the optimizer tried, the theta kept is the best one.  For
      two points and a constant trend, the prediction at the first point is its value if and
      only if the covariances of the two points for these two thetas differ by the nugget *)
  Theorem C108_stale_refuted : forall s rs pre t ls a',
    regr = Constant K -> s_n K s = 2%nat -> s_y K s 0%nat <> s_y K s 1%nat ->
    o_tried K (rs 0%nat) = pre ++ [t] ->
    chol K L 2 (cov K nu t d (s_X K s)) <> None -> qr_exact K L nu d regr rho None s 1 t ->
    train (One K None) [s] rs = Ok (ls, a') ->
    let x0 := s_X K s 0%nat in let x1 := s_X K s 1%nat in
    exists v m, surrogate_predict ls x0 = Ok (v, m)
      /\ (v = s_y K s 0%nat <-> kernel K (o_theta K (rs 0%nat)) d x0 x1 = kernel K t d x0 x1 - nu).
  Proof.
    intros s rs pre t ls a' Hr Hn Hy Htr Hc HQ H x0 x1. unfold CokModel.train, fit in H.
    cbn [rev app length per_level repeat bind prepare_all Nat.eqb] in H.
    destruct (prepare K d regr rho true None s) as [l|] eqn:Ep; [|discriminate].
    cbn [bind choices length seq combine map snd fst fit_all] in H. rewrite Htr in H.
    destruct (fit_level K L nu d l _) as [l'|] eqn:Ef; [|discriminate]. cbn [bind] in H. injection H as <- _.
    destruct (prepare_inv K KG d regr rho true None s l Ep) as [P1 [P2 _]].
    unfold fit_level in Ef. destruct (forallb _ _) eqn:Et; [|discriminate].
    destruct (o_inf K (rs 0%nat)); [discriminate|]. injection Ef as <-.
    cbn [forallb] in Et. apply andb_prop in Et. destruct Et as [Eth Etr].
    assert (Ett : theta_ok K t d = true).
    { rewrite forallb_forall in Etr. apply Etr. apply in_or_app. right. left. reflexivity. }
    rewrite fold_left_app. cbn [fold_left]. set (old := fold_left _ pre None).
    rewrite <- Hn in Hc. rewrite <- P1 in Hc. rewrite <- (chol_cov K KG L LG nu d) in Hc by exact Ett.
    destruct (rlf_some K L nu d l t old Hc) as [ft E]. rewrite E. cbn [fst].
    destruct (rlf_stored K L nu d l t old ft _ E Hc) as [HS _].
    set (l2 := mkLevel K (l_data K l) (l_p K l) (l_q K l) (l_F K l) t (Some ft)).
    set (l1 := mkLevel K (l_data K l) (l_p K l) (l_q K l) (l_F K l) (o_theta K (rs 0%nat)) (Some ft)).
    assert (Hp := P2). destruct Hp as [Hp [Hq HFe]]. cbn [qcols] in Hq. rewrite Hr in Hp. cbn [cols] in Hp.
    destruct (normal_equations K KG L LG nu d regr rho l2 ft None P2 Ett HS) as [g [W [N Eg]]].
    { cbn [l2 l_data l_p l_q l_theta]. rewrite P1, Hp, Hq. exact HQ. }
    cbn [l2 l_data l_p l_q l_theta] in N, Eg.
    assert (N0 := N 0%nat ltac:(lia)). rewrite P1, Hn in N0. cbn [CokSpec.total] in N0.
    assert (De : forall i, design K d regr rho None s i 0%nat = 1) by (intros i; rewrite Hr; reflexivity).
    rewrite !De in N0.
    assert (W0 := W 0%nat). assert (W1 := W 1%nat). cbn [l2 l_data l_p l_q l_theta] in W0, W1.
    rewrite P1, Hn, Hp, Hq in W0, W1. specialize (W0 ltac:(lia)). specialize (W1 ltac:(lia)).
    cbn [CokSpec.total Nat.add] in W0, W1. rewrite !De in W0, W1. unfold cov in W0, W1. cbn [Nat.eqb] in W0, W1.
    fold x0 x1 in W0, W1. rewrite (corr_sym K KG t d x1 x0) in W1.
    unfold CokModel.surrogate_predict, CokModel.predict. cbn [predict_levels]. unfold predict_level. cbn [l_fit]. cbn [bind].
    do 2 eexists. split; [reflexivity|].
    change (CokModel.sum K) with (CokSpec.total K). cbn [l_data l_p l_q].
    rewrite Hp, Hq in Eg. cbn [Nat.add] in Eg. rewrite P1 in Eg.
    change (l_p K l1) with (l_p K l). change (l_data K l1) with (l_data K l). change (l_F K l1) with (l_F K l).
    change (l_F K l2) with (l_F K l) in Eg.
    rewrite P1, Hp.
    assert (R0 := r_of_kernel K KG d 1 (fun _ => x0) l1 0 0 Eth ltac:(lia)).
    assert (R1 := r_of_kernel K KG d 1 (fun _ => x0) l1 0 1 Eth ltac:(lia)).
    change (l_data K l1) with (l_data K l) in R0, R1. change (l_theta K l1) with (o_theta K (rs 0%nat)) in R0, R1.
    rewrite P1, Hn in R0, R1. specialize (R0 ltac:(lia)). specialize (R1 ltac:(lia)).
    fold x0 in R0. fold x1 in R1. rewrite (kernel_self K KG) in R0.
    rewrite <- Eg. rewrite Hn. cbn [CokSpec.total]. rewrite R0, R1.
    replace (regr_at K regr x0 0%nat) with 1 by (rewrite Hr; reflexivity).
    set (k := kernel K (o_theta K (rs 0%nat)) d x0 x1) in *. set (k' := kernel K t d x0 x1) in *.
    assert (G1 : g 1%nat = - g 0%nat) by (transitivity (0 + 1 * g 0%nat + 1 * g 1%nat - g 0%nat); [ring|rewrite N0; ring]).
    rewrite G1 in *.
    assert (Y0 : s_y K s 0%nat = f_beta K ft 0%nat + (1 + nu - k') * g 0%nat).
    { transitivity (s_y K s 0%nat - (0 + 1 * f_beta K ft 0%nat) + f_beta K ft 0%nat); [ring|]. rewrite <- W0. ring. }
    assert (Y1 : s_y K s 1%nat = f_beta K ft 0%nat - (1 + nu - k') * g 0%nat).
    { transitivity (s_y K s 1%nat - (0 + 1 * f_beta K ft 0%nat) + f_beta K ft 0%nat); [ring|]. rewrite <- W1. ring. }
    assert (Gn : g 0%nat <> 0) by (intros E0; apply Hy; rewrite Y0, Y1, E0; ring).
    rewrite Y0. split; intros Hv.
    - assert (Z : (k - (k' - nu)) * g 0%nat = 0).
      { transitivity (f_beta K ft 0%nat + (1 + nu - k') * g 0%nat - (0 + 1 * (0 + 1 * f_beta K ft 0%nat + (0 + 1 * g 0%nat + k * - g 0%nat)))); [ring|].
        rewrite Hv. ring. }
      transitivity ((k - (k' - nu)) * g 0%nat / g 0%nat + (k' - nu)); [field; exact Gn|]. rewrite Z. field. exact Gn.
    - rewrite Hv. ring.
  Qed.

  (** REFUTED: "training again estimates theta again".  The first fit leaves its theta in the
      place of the user's: a later fit takes them for given ones, and one with another number
      of levels is refused *)
  Theorem C108_refit_refuted : forall a ss rs ls a', train a ss rs = Ok (ls, a') ->
    forall ss2 rs2,
    (length ss2 <> length ss -> train a' ss2 rs2 = Err ValueError)
    /\ (forall rs3, train a' ss2 rs2 = train a' ss2 rs3)
    /\ (forall ls2 a2, train a' ss2 rs2 = Ok (ls2, a2) -> map (l_theta K) ls2 = map (l_theta K) ls /\ a2 = a').
  Proof.
    intros a ss rs ls a' H ss2 rs2. unfold CokModel.train in *.
    apply (fit_inv K KG L LG nu d regr rho) in H. destruct H as [os [Ho [Hd [_ [_ [_ ->]]]]]].
    assert (Hlen : length ls = length ss) by (rewrite <- (rev_length ss), <- Hd, map_length; reflexivity).
    assert (Hch : forall rs, choices K (map (fun l => Some (l_theta K l)) ls) rs = map (fun l => Given K (l_theta K l)) ls).
    { intros rs0. unfold choices. rewrite map_length. generalize O. clear. induction ls as [|l ls IH]; intros b; [reflexivity|].
      cbn. f_equal. apply IH. }
    split; [|split].
    - intros Hne. unfold fit. cbn [per_level]. rewrite map_length, rev_length, Hlen.
      destruct (Nat.eqb_spec (length ss) (length ss2)); [congruence|]. reflexivity.
    - intros rs3. unfold fit. cbn [per_level]. destruct (_ =? _)%nat; [|reflexivity]. cbn [bind]. rewrite !Hch. reflexivity.
    - intros ls2 a2 H2. assert (H2' := H2). apply (fit_inv K KG L LG nu d regr rho) in H2'.
      destruct H2' as [os2 [Ho2 [Hd2 [_ [Ht2 [_ ->]]]]]]. cbn [per_level] in Ho2.
      destruct (_ =? _)%nat; [|discriminate]. injection Ho2 as <-. rewrite Hch, map_map in Ht2.
      split; [exact Ht2|]. f_equal. rewrite <- (map_map (l_theta K) Some), <- (map_map (l_theta K) Some ls), Ht2. reflexivity.
  Qed.

  (** REFUTED: "the Float surrogate returns the mean": it never returns *)
  Theorem C108_float_refuted : forall ls x v, float_predict K L d regr rho ls x <> Ok v
    /\ (forall w, surrogate_predict ls x = Ok w -> float_predict K L d regr rho ls x = Err AttributeError).
  Proof.
    intros ls x v. unfold float_predict. split.
    - destruct (CokModel.surrogate_predict K L d regr rho ls x); discriminate.
    - intros w ->. reflexivity.
  Qed.
End C108.

(** ** Examples, with the canonical rationals; exp is given at the values that occur *)
Definition qc (q : Q) : Qc := Q2Qc q.
Definition qis (q : Q) (x : Qc) : bool := Qc_eq_bool x (qc q).
Definition ex_exp (x : Qc) : Qc :=
  if qis 0 x then qc 1 else if qis (-1) x then qc (3#5) else if qis (-4) x then qc (1#17)
  else if qis (-3) x then qc (7#25) else if qis (-5) x then qc 1 else qc 0.
Definition ex_abs (x : Qc) : Qc := if Qle_bool 0 (this x) then x else Qcopp x.
Definition QN : numbers := mkNum Qc (qc 0) (qc 1) Qcplus Qcmult Qcminus Qcopp Qcdiv Qcinv ex_abs ex_exp (qis 0).
Definition ex_mat (rows : list (list Q)) : nat -> nat -> Qc := fun i j => qc (nth j (nth i rows []) 0%Q).
Definition ex_cands (n : nat) : list (nat -> nat -> QN) :=
  [ex_mat [[1; 0; 0; 0]; [0; 1; 0; 0]; [0; 0; 1; 0]; [0; 0; 0; 1]]%Q;
   ex_mat [[1; 0; 0]; [3#5; 4#5; 0]; [1#17; 12#17; 12#17]]%Q;
   ex_mat [[1; 0]; [7#25; 24#25]]%Q; ex_mat [[1; 0]; [3#5; 4#5]]%Q].
Definition ex_qr (n c : nat) (M : nat -> nat -> QN) : (nat -> nat -> QN) * (nat -> nat -> QN) :=
  if (c =? 1)%nat && (n =? 2)%nat then (ex_mat [[4#5]; [3#5]]%Q, ex_mat [[5#4]]%Q)
  else if (c =? 1)%nat then (ex_mat [[1#2]; [1#2]; [1#2]; [1#2]]%Q, ex_mat [[2]]%Q)
  else (ex_mat [[1; 0]; [0; 1]; [0; 0]]%Q, ex_mat [[1; 2]; [0; 1]]%Q).
Definition QL : lin QN := mkLin QN (find_chol QN ex_cands) (forward_sol QN) (backward_sol QN) ex_qr (fun _ M => M).
Definition ex_data (xs ys : list Q) : data QN :=
  mkData QN (length xs) (fun i => [qc (nth i xs 0%Q)] : list QN) (fun i => qc (nth i ys 0%Q)).
Definition ex_show (r : res (QN * QN)) : option (Q * Q) := match r with Ok (v, m) => Some (this v, this m) | Err _ => None end.
Definition ex_point (q : Q) : list QN := [qc q].

Lemma QN_good : good_num QN.
Proof.
  constructor.
  - exact Qcft.
  - vm_compute. reflexivity.
  - intros x. cbn. unfold ex_abs. destruct (Qle_bool 0 (this x)); auto.
  - intros x. cbn. unfold qis. split; intros H.
    + apply Qc_eq_bool_correct in H. exact H.
    + subst x. vm_compute. reflexivity.
Qed.
Lemma QL_good : good_lin QN QL.
Proof. apply (example_lin_good QN QN_good). Qed.

(** three points of high fidelity among four of low fidelity *)
Definition ex_high := ex_data [0; 1; 2]%Q [5; -1; 2]%Q.
Definition ex_low := ex_data [3; 0; 1; 2]%Q [1; 4; 2; 7]%Q.
Definition ex_thetas : attr QN := Many QN [Some (ex_point 2); Some (ex_point 1)].
Definition ex_run : run QN := mkRun QN [ex_point 1; ex_point 3] (ex_point 1) false.
Definition ex_train1 := train QN QL (qc 0) 1 (Constant QN) (Constant QN) ex_thetas [ex_high; ex_low] (fun _ => ex_run).
Lemma this_neq : forall (x y : Qc), Qc_eq_bool x y = false -> x <> y.
Proof. intros x y H E. subst y. unfold Qc_eq_bool in H. destruct (Qc_eq_dec x x); congruence. Qed.

Example C108_ex : exists ls a', ex_train1 = Ok (ls, a')
  /\ nested QN None (rev [ex_high; ex_low]) /\ settled QN ex_thetas 2 (fun _ => ex_run)
  /\ Forall (factored QN QL (qc 0) 1) ls
  /\ (forall l ft, In l ls -> l_fit QN l = Some ft -> regular_upper QN (l_p QN l + l_q QN l) (f_G QN ft))
  /\ map (fun q => ex_show (surrogate_predict QN QL 1 (Constant QN) (Constant QN) ls (ex_point q))) [0; 1; 2]%Q
     = [Some (5, 0); Some (-1, 0); Some (2, 0)]%Q
  /\ ex_show (surrogate_predict QN QL 1 (Constant QN) (Constant QN) ls (ex_point 3)) <> None.
Proof.
  assert (B : match ex_train1 with Ok _ => true | Err _ => false end = true) by (vm_compute; reflexivity).
  destruct ex_train1 as [[ls a']|] eqn:E; [|discriminate]. clear B. exists ls, a'. split; [reflexivity|].
  split.
  { cbn [rev app nested]. split; [exact I|]. split; [split; [cbn; lia|]|exact I].
    intros i Hi. cbn in Hi. destruct i as [|[|[|i]]]; [reflexivity|reflexivity|reflexivity|lia]. }
  split.
  { intros i Hi. destruct i as [|[|i]]; [discriminate|discriminate|lia]. }
  assert (F : match ex_train1 with
    | Ok (ls, _) => forallb (fun l => match chol QN QL (s_n QN (l_data QN l)) (cov QN (qc 0) (l_theta QN l) 1 (s_X QN (l_data QN l))) with Some _ => true | None => false end) ls
    | Err _ => false end = true) by (vm_compute; reflexivity).
  assert (G : match ex_train1 with
    | Ok (ls, _) => forallb (fun l => match l_fit QN l with
         | Some ft => (let n := (l_p QN l + l_q QN l)%nat in
             all_below n (fun i => negb (nzero QN (f_G QN ft i i)) && all_below n (fun j => negb (i <? j)%nat || nzero QN (f_G QN ft j i))))
         | None => true end) ls
    | Err _ => false end = true) by (vm_compute; reflexivity).
  assert (P : match ex_train1 with
    | Ok (ls, _) => map (fun q => ex_show (surrogate_predict QN QL 1 (Constant QN) (Constant QN) ls (ex_point q))) [0; 1; 2]%Q
    | Err _ => [] end = [Some (5, 0); Some (-1, 0); Some (2, 0)]%Q) by (vm_compute; reflexivity).
  assert (P3 : match ex_train1 with
    | Ok (ls, _) => match ex_show (surrogate_predict QN QL 1 (Constant QN) (Constant QN) ls (ex_point 3)) with Some _ => true | None => false end
    | Err _ => false end = true) by (vm_compute; reflexivity).
  rewrite E in F, G, P, P3.
  split; [|split; [|split; [exact P|]]].
  - rewrite forallb_forall in F. apply Forall_forall. intros l Hl. specialize (F l Hl). unfold factored.
    destruct (chol QN QL _ _); [discriminate|discriminate].
  - intros l ft Hl Hft. rewrite forallb_forall in G. specialize (G l Hl). rewrite Hft in G. cbv zeta in G.
    rewrite all_below_spec in G. split.
    + intros i j Hi Hj Hij. specialize (G i Hi). apply andb_prop in G. destruct G as [_ G]. rewrite all_below_spec in G.
      specialize (G j Hj). apply Nat.ltb_lt in Hij. rewrite Hij in G. cbn [negb orb] in G. apply (gn_zero QN QN_good). exact G.
    + intros i Hi Hz. specialize (G i Hi). apply andb_prop in G. destruct G as [G _].
      apply (gn_zero QN QN_good) in Hz. rewrite Hz in G. discriminate.
  - intros Hc. rewrite Hc in P3. discriminate.
Qed.

(** two points: least squares, a stale factor, training again *)
Definition ex_two := ex_data [0; 1]%Q [0; 1]%Q.
Lemma qc_first : forall x y : Qc, Qcplus (Qcplus (qc 0) (Qcmult (qc 1) x)) (Qcmult (qc 0) y) = qc 1 -> x = qc 1.
Proof. intros x y H. rewrite <- H. change (qc 0) with 0%Qc. change (qc 1) with 1%Qc. ring. Qed.
Lemma qc_second : forall y : Qc, Qcplus (Qcplus (qc 0) (Qcmult (qc (7#25)) (qc 1))) (Qcmult (qc (24#25)) y) = qc 1 -> y = qc (3#4).
Proof.
  intros y H.
  assert (D : Qcmult (qc (25#24)) (qc 1) = Qcplus (qc (7#24)) y).
  { rewrite <- H. replace (qc (7#24)) with (Qcmult (qc (25#24)) (qc (7#25))) by (apply Qc_is_canon; vm_compute; reflexivity).
    replace y with (Qcmult (Qcmult (qc (25#24)) (qc (24#25))) y) at 2.
    - change (qc 0) with 0%Qc. change (qc 1) with 1%Qc. ring.
    - replace (Qcmult (qc (25#24)) (qc (24#25))) with 1%Qc by (apply Qc_is_canon; vm_compute; reflexivity). ring. }
  transitivity (Qcminus (Qcplus (qc (7#24)) y) (qc (7#24))); [ring|]. rewrite <- D.
  apply Qc_is_canon. vm_compute. reflexivity.
Qed.
Lemma ex_qr_exact : forall ys, qr_exact QN QL (qc 0) 1 (Constant QN) (Constant QN) None (ex_data [0; 1]%Q ys) 1 (ex_point 3).
Proof.
  intros ys C M HC HM.
  assert (E : C = ex_mat [[1; 0]; [7#25; 24#25]]%Q).
  { assert (F := HC). cbn [chol QL s_n ex_data length] in HC. unfold find_chol, ex_cands in HC. cbn [find] in HC.
    revert HC. set (R := cov _ _ _ _ _).
    replace (factor_b QN 2 R (ex_mat [[1; 0; 0; 0]; [0; 1; 0; 0]; [0; 0; 1; 0]; [0; 0; 0; 1]]%Q)) with false by (vm_compute; reflexivity).
    replace (factor_b QN 2 R (ex_mat [[1; 0; 0]; [3#5; 4#5; 0]; [1#17; 12#17; 12#17]]%Q)) with false by (vm_compute; reflexivity).
    replace (factor_b QN 2 R (ex_mat [[1; 0]; [7#25; 24#25]]%Q)) with true by (vm_compute; reflexivity).
    intros H. injection H as <-. reflexivity. }
  subst C. clear HC.
  assert (M0 := HM 0%nat ltac:(lia) 0%nat ltac:(cbn; lia)). assert (M1 := HM 0%nat ltac:(lia) 1%nat ltac:(cbn; lia)).
  cbn [s_n ex_data length total design trend_row row value_below nth app] in M0, M1.
  assert (N0 : M 0%nat 0%nat = qc 1) by (apply (qc_first _ (M 1%nat 0%nat)); exact M0).
  assert (N1 : M 1%nat 0%nat = qc (3#4)) by (apply qc_second; rewrite N0 in M1; exact M1).
  cbn [qr QL fst snd s_n ex_data length ex_qr Nat.eqb andb]. split; [|split].
  - intros i j Hi Hj. assert (j = 0%nat) by lia. subst j. destruct i as [|[|i]]; [rewrite N0|rewrite N1|lia];
      apply Qc_is_canon; vm_compute; reflexivity.
  - intros e e' He He'. assert (e = 0%nat) by lia. assert (e' = 0%nat) by lia. subst e e'. cbn [Nat.eqb].
    apply Qc_is_canon. vm_compute. reflexivity.
  - split; [intros i j Hi Hj Hij; lia|]. intros i Hi. assert (i = 0%nat) by lia. subst i. apply this_neq. vm_compute. reflexivity.
Qed.

Definition ex_train2 := train QN QL (qc 0) 1 (Constant QN) (Constant QN) (One QN None) [ex_two] (fun _ => ex_run).
Definition ex_predict0 (ls : list (level QN)) : option (Q * Q) :=
  match surrogate_predict QN QL 1 (Constant QN) (Constant QN) ls (ex_point 0) with Ok (v, _) => Some (this v, 0%Q) | Err _ => None end.
(** the optimizer ended at theta 3 and returned theta 1: at the first point, whose value is 0,
    the prediction is 2/9; trained again on the same data the model has factors and theta
    that belong together, and the prediction is 0 *)
Example C108_stale_ex : exists ls a', ex_train2 = Ok (ls, a')
  /\ chol QN QL 2 (cov QN (qc 0) (ex_point 3) 1 (s_X QN ex_two)) <> None
  /\ s_y QN ex_two 0%nat <> s_y QN ex_two 1%nat
  /\ ex_predict0 ls = Some (2#9, 0)%Q
  /\ exists ls2, train QN QL (qc 0) 1 (Constant QN) (Constant QN) a' [ex_two] (fun _ => mkRun QN [] (ex_point 3) false) = Ok (ls2, a')
     /\ ex_predict0 ls2 = Some (0, 0)%Q.
Proof.
  assert (B : match ex_train2 with Ok _ => true | Err _ => false end = true) by (vm_compute; reflexivity).
  destruct ex_train2 as [[ls a']|] eqn:E; [|discriminate]. clear B. exists ls, a'. split; [reflexivity|].
  split.
  { assert (B : match chol QN QL 2 (cov QN (qc 0) (ex_point 3) 1 (s_X QN ex_two)) with Some _ => true | None => false end = true) by (vm_compute; reflexivity).
    destruct (chol _ _ _ _); discriminate. }
  split; [apply this_neq; vm_compute; reflexivity|].
  assert (P : match ex_train2 with Ok (ls, _) => ex_predict0 ls | Err _ => None end = Some (2#9, 0)%Q) by (vm_compute; reflexivity).
  assert (R : match ex_train2 with
    | Ok (_, a') => match train QN QL (qc 0) 1 (Constant QN) (Constant QN) a' [ex_two] (fun _ => mkRun QN [] (ex_point 3) false) with Ok (ls2, _) => ex_predict0 ls2 | Err _ => None end
    | Err _ => None end = Some (0, 0)%Q) by (vm_compute; reflexivity).
  rewrite E in P, R. split; [exact P|].
  destruct (train QN QL (qc 0) 1 (Constant QN) (Constant QN) a' [ex_two] _) as [[ls2 a2]|] eqn:E2; [|discriminate].
  exists ls2. split; [|exact R].
  destruct (C108_refit_refuted QN QN_good QL QL_good (qc 0) 1 (Constant QN) (Constant QN) _ _ _ _ _ E [ex_two] (fun _ => mkRun QN [] (ex_point 3) false)) as [_ [_ H]].
  destruct (H _ _ E2) as [_ ->]. reflexivity.
Qed.
(** theta 3 given: least squares, interpolation *)
Example C108_least_squares_ex : exists l a',
  train QN QL (qc 0) 1 (Constant QN) (Constant QN) (One QN (Some (ex_point 3))) [ex_two] (fun _ => ex_run) = Ok ([l], a')
  /\ l_theta QN l = ex_point 3 /\ l_data QN l = ex_two /\ (l_p QN l + l_q QN l)%nat = 1%nat
  /\ ex_predict0 [l] = Some (0, 0)%Q
  /\ match l_fit QN l with Some ft => this (f_beta QN ft 0%nat) = (1#2)%Q | None => False end.
Proof.
  eexists. eexists. split; [|split; [|split; [|split; [|split]]]].
  - unfold train, fit. cbn [rev app length per_level repeat bind prepare_all Nat.eqb].
    replace (prepare QN 1 (Constant QN) (Constant QN) true None ex_two)
      with (Ok (mkLevel QN ex_two 1 0 (F_of QN 1 (Constant QN) (Constant QN) None ex_two) [] None)) by reflexivity.
    cbn [bind choices length seq combine map snd fst fit_all].
    match goal with |- context [fit_level QN QL ?a ?b ?c ?e] => set (r := fit_level QN QL a b c e) end.
    unfold fit_level, rlf in r. cbv zeta in r. subst r.
    replace (theta_ok QN (ex_point 3) 1) with true by reflexivity.
    cbn [l_data l_p l_q l_F].
    set (C := chol QN QL _ _).
    assert (EC : C = Some (ex_mat [[1; 0]; [7#25; 24#25]]%Q)).
    { unfold C. cbn [chol QL]. unfold find_chol, ex_cands. cbn [find]. set (R := build_R _ _ _ _ _ _).
      replace (factor_b QN (s_n QN ex_two) R (ex_mat [[1; 0; 0; 0]; [0; 1; 0; 0]; [0; 0; 1; 0]; [0; 0; 0; 1]]%Q)) with false by (vm_compute; reflexivity).
      replace (factor_b QN (s_n QN ex_two) R (ex_mat [[1; 0; 0]; [3#5; 4#5; 0]; [1#17; 12#17; 12#17]]%Q)) with false by (vm_compute; reflexivity).
      replace (factor_b QN (s_n QN ex_two) R (ex_mat [[1; 0]; [7#25; 24#25]]%Q)) with true by (vm_compute; reflexivity). reflexivity. }
    rewrite EC. cbn [qr QL ex_qr Nat.add Nat.eqb s_n ex_two ex_data length andb].
    match goal with |- context [nzero QN ?x] => replace (nzero QN x) with false by (vm_compute; reflexivity) end.
    cbn [bind]. reflexivity.
  - reflexivity.
  - reflexivity.
  - reflexivity.
  - vm_compute. reflexivity.
  - vm_compute. reflexivity.
Qed.
(** a singular covariance; a constant response; two points for two coefficients *)
Example C108_refused_ex :
  (exists ls a', train QN QL (qc 0) 1 (Constant QN) (Constant QN) (One QN (Some (ex_point 5))) [ex_two] (fun _ => ex_run) = Ok (ls, a')
     /\ forall x, surrogate_predict QN QL 1 (Constant QN) (Constant QN) ls x = Err ValueError)
  /\ train QN QL (qc 0) 1 (Constant QN) (Constant QN) (One QN (Some (ex_point 3))) [ex_data [0; 1]%Q [3; 3]%Q] (fun _ => ex_run) = Err RuntimeError
  /\ train QN QL (qc 0) 1 (Linear QN) (Constant QN) (One QN None) [ex_two] (fun _ => ex_run) = Err NameError
  /\ train QN QL (qc 0) 1 (Constant QN) (Constant QN) (One QN None) [ex_data [0; 1; 0]%Q [3; 3; 3]%Q] (fun _ => ex_run) = Err RuntimeError
  /\ train QN QL (qc 0) 1 (Constant QN) (Constant QN) ex_thetas [ex_two] (fun _ => ex_run) = Err ValueError.
Proof.
  split.
  - apply (C108_cholesky_refuted QN QN_good QL QL_good (qc 0) 1 (Constant QN) (Constant QN)).
    + cbn. lia.
    + intros i j Hij Hj. cbn in Hj. assert (i = 0%nat) by lia. assert (j = 1%nat) by lia. subst. apply this_neq. vm_compute. reflexivity.
    + cbn. lia.
    + left. reflexivity.
    + assert (B : match chol QN QL 2 (cov QN (qc 0) (ex_point 5) 1 (s_X QN ex_two)) with Some _ => true | None => false end = false) by (vm_compute; reflexivity).
      change (s_n QN ex_two) with 2%nat. destruct (chol _ _ _ _); [discriminate|reflexivity].
  - repeat split; vm_compute; reflexivity.
Qed.

Print Assumptions C108_nugget.
Print Assumptions C108_interpolates.
Print Assumptions C108_mse.
Print Assumptions C108_least_squares.
Print Assumptions C108_rejects.
Print Assumptions C108_undetermined_refuted.
Print Assumptions C108_cholesky_refuted.
Print Assumptions C108_exact_trend_refuted.
Print Assumptions C108_stale_refuted.
Print Assumptions C108_refit_refuted.
Print Assumptions C108_float_refuted.

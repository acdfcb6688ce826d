(** Property theorems for the Kriging surrogate: C92. *)
From Coq Require Import Reals Lra Lia.
From Verif Require Import Base KrigModel KrigSpec KrigProofs.
Local Open Scope R_scope.
Local Open Scope list_scope.

Lemma nth_seq : forall (f : nat -> R) m l, (l < m)%nat -> nth l (map f (seq 0 m)) 0 = f l.
Proof.
  intros f m l H. rewrite (nth_indep _ 0 (f 0%nat)) by (rewrite map_length, seq_length; exact H).
  rewrite map_nth, seq_nth by exact H. reflexivity.
Qed.
Lemma slack_le : forall nu sg top h t, 0 < sg -> 0 <= h <= nu -> 0 <= t <= top ->
    tik * t / sg * (tik * t / sg) + h * / sg <= slack nu sg top.
Proof.
  intros nu sg top h t Hs Hh Ht. unfold slack. fold tik. assert (S0 : 0 < / sg) by (apply Rinv_0_lt_compat; exact Hs). assert (T0 : 0 < tik) by (unfold tik; lra).
  assert (A : h * / sg <= nu / sg) by (apply Rmult_le_compat_r; lra).
  assert (B0 : 0 <= tik * t / sg) by (apply Rmult_le_pos; [apply Rmult_le_pos|]; lra).
  assert (B : tik * t / sg <= tik * top / sg) by (apply Rmult_le_compat_r; [lra|]; apply Rmult_le_compat_l; lra). nra.
Qed.
(** predictions of a combination of samples *)
Lemma at_sample : forall svd minimize nugget st n d m x y nu sg top, (1 < n)%nat -> fst (minimize d) = true ->
    0 < sg -> (forall i, (i < n)%nat -> 0 <= nugget i <= nu) ->
    let st' := fst (train svd minimize nugget st n d m x y) in
    decomposes svd n d (k_th st') nugget (k_X st') sg top -> forall v a, (a < n)%nat ->
    exists U Sg Vh, k_U st' = U /\ k_Si st' = inv_factors Sg /\ k_Vh st' = Vh /\ (forall i l, k_al st' i l = pinv n U Sg Vh (fun k => k_Y st' k l) i) /\
      Rabs (v a - rsum n (fun i => corr_row st' false (x a) i * pinv n U Sg Vh v i)) <= slack nu sg top * sqrt (sq n v).
Proof.
  intros svd minimize nugget st n d m x y nu sg top Hn Ho Hsg Hnu st' Hd v a Ha.
  destruct (train_ok svd minimize nugget st n d m x y Hn Ho) as (U & Sg & Vh & _ & HN & Es & _ & _ & Hal & HU & HS & HV & _). fold st' in HN, Es, Hal, HU, HS, HV.
  exists U, Sg, Vh. split; [exact HU|]. split; [exact HS|]. split; [exact HV|]. split; [exact Hal|].
  set (M := corr n d (k_th st') nugget (k_X st')) in *. pose proof (corr_covar n d (k_th st') nugget (k_X st')) as HM. fold M in HM.
  destruct (Hd M HM) as [H1 H2]. rewrite Es in H1, H2. cbn [fst snd] in H1, H2.
  assert (Hmin : forall p, (p < n)%nat -> sg <= Sg p) by (intros p Hp; apply H2; exact Hp).
  pose proof (pinv_resid n M U Sg Vh sg H1 Hsg Hmin v a Ha) as E1.
  pose proof (pinv_bound n M U Sg Vh sg H1 Hsg Hmin v a Ha) as E2.
  replace (rsum n (fun i => corr_row st' false (x a) i * pinv n U Sg Vh v i)) with (rsum n (fun i => M a i * pinv n U Sg Vh v i) - nugget a * pinv n U Sg Vh v a).
  2:{ rewrite <- (rsum_delta n a (fun i => nugget a * pinv n U Sg Vh v i) Ha), <- rsum_minus. apply rsum_ext. intros i Hi.
      rewrite (corr_row_sample st' n d m x y i a nugget M HN HM Hi Ha). ring. }
  specialize (Hnu a Ha). pose proof (sqrt_pos (sq n v)) as Q0.
  pose proof (slack_le nu sg top (nugget a) (Sg 0%nat) Hsg Hnu ltac:(specialize (H2 0%nat ltac:(lia)); specialize (Hmin 0%nat ltac:(lia)); lra)) as E3.
  replace (v a - (rsum n (fun i => M a i * pinv n U Sg Vh v i) - nugget a * pinv n U Sg Vh v a)) with
    ((v a - rsum n (fun i => M a i * pinv n U Sg Vh v i)) + nugget a * pinv n U Sg Vh v a) by ring.
  eapply Rle_trans; [apply Rabs_triang|]. rewrite Rabs_mult, (Rabs_right (nugget a)) by lra. unfold ratio in E1.
  assert (nugget a * Rabs (pinv n U Sg Vh v a) <= nugget a * (/ sg * sqrt (sq n v))) by (apply Rmult_le_compat_l; lra). nra.
Qed.

(** C92: trained on samples whose covariance matrix is regular, the surrogate gives back
    every sample up to the nugget and the regularization; columns of equal values exactly *)
Theorem kriging_reproduces : forall svd minimize nugget st n d m x y nu sg top, (1 < n)%nat -> fst (minimize d) = true ->
    0 < sg -> (forall i, (i < n)%nat -> 0 <= nugget i <= nu) ->
    let (st', r) := train svd minimize nugget st n d m x y in
    decomposes svd n d (k_th st') nugget (k_X st') sg top ->
    r = Ok tt /\ normalizes st' n d m x y /\
    forall a, (a < n)%nat -> exists row, predict st' false 1 (fun _ => x a) = Ok [row] /\ length row = m /\
      forall l, (l < m)%nat -> Rabs (nth l row 0 - y a l) <= deviation n (fun i => y i l) * sqrt (INR n) * slack nu sg top.
Proof.
  intros svd minimize nugget st n d m x y nu sg top Hn Ho Hsg Hnu. destruct (train svd minimize nugget st n d m x y) as [st' r] eqn:E. intros Hd.
  destruct (train_ok svd minimize nugget st n d m x y Hn Ho) as (_ & _ & _ & E1 & HN & _ & HYs & HY & _).
  pose proof (at_sample svd minimize nugget st n d m x y nu sg top Hn Ho Hsg Hnu) as HA. rewrite E in E1, HN, HYs, HY, HA. cbn [fst snd] in *.
  split; [exact E1|]. split; [exact HN|]. intros a Ha. destruct HN as (Ht & En & Ed & Em & HXs & HYn & HX & HYy).
  eexists. split; [unfold predict, rows_of; rewrite Ht; cbn [seq map]; reflexivity|]. split; [rewrite map_length, seq_length; exact Em|].
  intros l Hl. rewrite nth_seq by (rewrite Em; exact Hl). unfold predict_at. rewrite En.
  destruct (HA Hd (fun k => k_Y st' k l) a Ha) as (U & Sg & Vh & _ & _ & _ & Hal & B). clear HA.
  rewrite <- (HYy a l Ha Hl). rewrite (rsum_ext n _ (fun i => corr_row st' false (x a) i * pinv n U Sg Vh (fun k => k_Y st' k l) i)) by (intros i _; rewrite Hal; reflexivity).
  set (p := rsum n _) in *. replace (k_Ym st' l + k_Ys st' l * p - (k_Ym st' l + k_Ys st' l * k_Y st' a l)) with (k_Ys st' l * - (k_Y st' a l - p)) by ring.
  rewrite Rabs_mult, Rabs_Ropp. pose proof (std1_pos n (fun i => y i l) ltac:(lia)) as P. rewrite HYs in *. rewrite (Rabs_right (std1 n (fun i => y i l))) by lra.
  pose proof (norm_sq n (fun i => y i l) ltac:(lia)) as Q. change (std n (fun i => y i l)) with (deviation n (fun i => y i l)) in Q.
  unfold sq in Q. rewrite (rsum_ext n _ (fun k => k_Y st' k l * k_Y st' k l)) in Q by (intros i _; rewrite HY; reflexivity). fold (sq n (fun k => k_Y st' k l)) in Q.
  rewrite <- Q. rewrite Rmult_assoc. apply Rmult_le_compat_l; [lra|]. rewrite Rmult_comm. exact B.
Qed.
Print Assumptions kriging_reproduces.

(** the reported error at a sample vanishes in the same way *)
Theorem kriging_error_at_samples : forall svd minimize nugget st n d m x y nu sg top, (1 < n)%nat -> fst (minimize d) = true ->
    0 < sg -> (forall i, (i < n)%nat -> 0 <= nugget i <= nu) ->
    let (st', r) := train svd minimize nugget st n d m x y in
    decomposes svd n d (k_th st') nugget (k_X st') sg top ->
    forall a, (a < n)%nat -> exists row errs, predict_rmse st' false 1 (fun _ => x a) = Ok ([row], [errs]) /\ length errs = m /\
      forall l, (l < m)%nat -> 0 <= nth l errs 0 /\ nth l errs 0 * nth l errs 0 <= Rabs (k_s2 st' l) * (sqrt (INR n) * slack nu sg top).
Proof.
  intros svd minimize nugget st n d m x y nu sg top Hn Ho Hsg Hnu. destruct (train svd minimize nugget st n d m x y) as [st' r] eqn:E. intros Hd a Ha.
  destruct (train_ok svd minimize nugget st n d m x y Hn Ho) as (U0 & Sg0 & Vh0 & E1 & HN & _ & _ & _ & _ & _ & _ & _ & Hth).
  pose proof (at_sample svd minimize nugget st n d m x y nu sg top Hn Ho Hsg Hnu) as HA. rewrite E in E1, HN, HA, Hth. cbn [fst snd] in *.
  assert (HM := corr_covar n d (k_th st') nugget (k_X st')). pose proof (corr_row_sample st' n d m x y a a nugget _ HN HM Ha Ha) as R1.
  destruct (HA Hd (corr_row st' false (x a)) a Ha) as (U & Sg & Vh & HU & HS & HV & _ & B). clear HA.
  assert (Hraa : corr_row st' false (x a) a = 1).
  { rewrite R1, (HM a a Ha Ha). unfold delta. rewrite Nat.eqb_refl. unfold gaussian. rewrite (rsum_ext d _ (fun _ => 0)) by (intros; ring). rewrite rsum_0, Ropp_0, exp_0. ring. }
  assert (Hq : forall l, Rabs (mse st' false (fun _ => x a) 0 0 l) <= Rabs (k_s2 st' l) * (sqrt (INR n) * slack nu sg top)).
  { intros l. unfold mse. rewrite Rabs_mult, Rmult_comm. apply Rmult_le_compat_l; [apply Rabs_pos|]. rewrite Hraa in B.
    destruct HN as (_ & En & Ed & _). rewrite En, HU, HS, HV.
    replace (rsum n (fun j => rsum n (fun i => corr_row st' false (x a) i * Vh j i) * rsum n (fun k => inv_factors Sg j * U k j * corr_row st' false (x a) k)))
      with (rsum n (fun i => corr_row st' false (x a) i * pinv n U Sg Vh (corr_row st' false (x a)) i)).
    2:{ unfold pinv. transitivity (rsum n (fun i => rsum n (fun j => corr_row st' false (x a) i * Vh j i * rsum n (fun k => inv_factors Sg j * U k j * corr_row st' false (x a) k)))).
        - apply rsum_ext. intros i _. rewrite <- rsum_scal. apply rsum_ext. intros; ring.
        - rewrite rsum_swap. apply rsum_ext. intros j _. rewrite rsum_scal_r. reflexivity. }
    eapply Rle_trans; [exact B|]. rewrite Rmult_comm. apply Rmult_le_compat_r.
    - destruct (Hd _ HM) as [_ H2]. specialize (H2 0%nat ltac:(lia)). specialize (Hnu a Ha).
      pose proof (slack_le nu sg top (nugget a) 0 Hsg Hnu ltac:(lra)) as H3. assert (0 <= nugget a * / sg) by (apply Rmult_le_pos; [lra|left; apply Rinv_0_lt_compat; exact Hsg]).
      replace (tik * 0 / sg * (tik * 0 / sg)) with 0 in H3 by (unfold Rdiv; ring). lra.
    - apply sqrt_le_1_alt. rewrite <- (Rmult_1_r (INR n)), <- rsum_const. apply rsum_le. intros i Hi.
      assert (0 <= corr_row st' false (x a) i <= 1).
      { unfold corr_row. split; [left; apply exp_pos|]. rewrite <- exp_0. match goal with |- exp ?u <= exp 0 => destruct (Req_dec u 0) as [->|N]; [lra|] end.
        left. apply exp_increasing. match goal with |- - ?u < 0 => assert (0 <= u); [|lra] end. apply rsum_pos. intros k _. specialize (Hth k). apply Rmult_le_pos; [lra|apply Rle_0_sqr]. }
      nra. }
  destruct HN as (Ht & En & Ed & Em & _). unfold predict_rmse, predict, rows_of. rewrite Ht, Em. cbn [bind seq map Nat.eqb].
  assert (Hr : forall l, 0 <= rmse st' false (fun _ => x a) 0 0 l /\ rmse st' false (fun _ => x a) 0 0 l * rmse st' false (fun _ => x a) 0 0 l <= Rabs (k_s2 st' l) * (sqrt (INR n) * slack nu sg top)).
  { intros l. specialize (Hq l). pose proof (Rabs_pos (mse st' false (fun _ => x a) 0 0 l)). unfold rmse. destruct (Rlt_dec _ 0) as [L|L].
    - rewrite sqrt_0. split; [lra|]. lra.
    - split; [apply sqrt_pos|]. rewrite sqrt_sqrt by lra. rewrite Rabs_right in Hq by lra. exact Hq. }
  destruct (Nat.eqb_spec m 1) as [->|N].
  - do 2 eexists. split; [reflexivity|]. split; [reflexivity|]. intros l Hl. assert (l = 0)%nat as -> by lia. apply (Hr 0%nat).
  - do 2 eexists. split; [reflexivity|]. split; [rewrite map_length, seq_length; reflexivity|]. intros l Hl. rewrite nth_seq by exact Hl. apply Hr.
Qed.
Print Assumptions kriging_error_at_samples.

(** the gradient is the derivative of the prediction *)
Theorem kriging_gradient : forall st x l j, (j < k_d st)%nat ->
    derivable_pt_lim (fun t => predict_at st false (upd x j t) l) (x j) (linearize st x l j).
Proof.
  intros st x l j Hj. assert (Ex : forall i, corr_row st false (upd x j (x j)) i = corr_row st false x i).
  { intros i. unfold corr_row. f_equal. f_equal. apply rsum_ext. intros k _. unfold upd. destruct (Nat.eqb_spec k j) as [->|]; reflexivity. }
  unfold predict_at, linearize.
  apply (deriv_val _ _ (0 + k_Ys st l * rsum (k_n st) (fun i => corr_row st false (upd x j (x j)) i * (- (2 * k_th st j * ((x j - k_Xm st j) / k_Xs st j - k_X st i j) * / k_Xs st j)) * k_al st i l))).
  - rewrite Rplus_0_l, (Rmult_assoc (k_Ys st l)). f_equal. rewrite <- rsum_scal. apply rsum_ext. intros i _. rewrite Ex. unfold Rdiv. ring.
  - apply (derivable_pt_lim_plus (fun _ => k_Ym st l) (fun t => k_Ys st l * rsum (k_n st) (fun i => corr_row st false (upd x j t) i * k_al st i l))); [apply derivable_pt_lim_const|].
    apply (scal_deriv (k_Ys st l) (fun t => rsum (k_n st) (fun i => corr_row st false (upd x j t) i * k_al st i l))).
    apply (rsum_deriv (k_n st) (fun i t => corr_row st false (upd x j t) i * k_al st i l)). intros i _.
    apply (deriv_ext (fun t => k_al st i l * corr_row st false (upd x j t) i)); [intros; ring|].
    apply (deriv_val _ _ (k_al st i l * (corr_row st false (upd x j (x j)) i * (- (2 * k_th st j * ((x j - k_Xm st j) / k_Xs st j - k_X st i j) * / k_Xs st j))))); [ring|].
    apply scal_deriv. apply corr_row_deriv. exact Hj.
Qed.
Print Assumptions kriging_gradient.

(** equal values are predicted everywhere, without any assumption on svd *)
Theorem kriging_constant : forall svd minimize nugget st n d m x y l c, (1 < n)%nat -> fst (minimize d) = true ->
    (forall i, (i < n)%nat -> y i l = c) ->
    forall p ints, predict_at (fst (train svd minimize nugget st n d m x y)) ints p l = c.
Proof.
  intros svd minimize nugget st n d m x y l c Hn Ho Hc p ints.
  destruct (train_ok svd minimize nugget st n d m x y Hn Ho) as (U & Sg & Vh & _ & HN & _ & _ & HY & Hal & _). set (st' := fst (train svd minimize nugget st n d m x y)) in *.
  assert (N0 : 0 < INR n) by (apply lt_0_INR; lia).
  assert (Hm : mean n (fun i => y i l) = c).
  { unfold mean. rewrite (rsum_ext n _ (fun _ => c)) by exact Hc. rewrite rsum_const. field. lra. }
  assert (Hm' : k_Ym st' l = c).
  { rewrite <- Hm. unfold st', train. assert (E : (n <=? 1)%nat = false) by (apply Nat.leb_gt; exact Hn). rewrite E, Ho. cbv zeta.
    match goal with |- context [svd ?a ?b] => destruct (svd a b) as [[? ?] ?] end. reflexivity. }
  unfold predict_at. rewrite Hm'. replace (rsum (k_n st') _) with 0; [ring|]. symmetry. rewrite <- (rsum_0 (k_n st')). apply rsum_ext. intros i _.
  rewrite Hal. unfold pinv. rewrite (rsum_ext n _ (fun _ => 0)); [rewrite rsum_0; ring|]. intros j _.
  rewrite (rsum_ext n _ (fun _ => 0)); [rewrite rsum_0; ring|]. intros k Hk. rewrite HY, Hm, (Hc k Hk). unfold Rdiv. ring.
Qed.
Print Assumptions kriging_constant.

(** when an error is raised *)
Theorem kriging_errors : forall svd minimize nugget st n d m x y,
    (k_trained st = false -> forall ints ne xs, predict st ints ne xs = Err RuntimeError) /\
    snd (train svd minimize nugget st n d m x y) = if ((1 <? n)%nat && fst (minimize d))%bool then Ok tt else Err ValueError.
Proof.
  intros svd minimize nugget st n d m x y. split.
  - intros H ints ne xs. unfold predict. rewrite H. reflexivity.
  - destruct (Nat.ltb_spec 1 n) as [L|L]; cbn [andb].
    + destruct (fst (minimize d)) eqn:Ho.
      * destruct (train_ok svd minimize nugget st n d m x y L Ho) as (? & ? & ? & E & _). exact E.
      * unfold train. assert (E : (n <=? 1)%nat = false) by (apply Nat.leb_gt; exact L). rewrite E, Ho. reflexivity.
    + unfold train. assert (E : (n <=? 1)%nat = true) by (apply Nat.leb_le; exact L). rewrite E. reflexivity.
Qed.
Print Assumptions kriging_errors.

(** ** two samples, y = 0 at 0 and y = 1 at 2, for two outputs, and y = 0 and y = -1 for a
    third; the covariance matrix has equal diagonal entries, so its singular vectors are
    known *)
Definition rt : R := / sqrt 2.
Definition U2 (i j : nat) : R := match i, j with 1%nat, 1%nat => - rt | _, _ => rt end.
Definition svd2 (_ : nat) (M : nat -> nat -> R) : (nat -> nat -> R) * (nat -> R) * (nat -> nat -> R) :=
  (U2, (fun p => match p with 0%nat => M 0%nat 0%nat + M 0%nat 1%nat | _ => M 0%nat 0%nat - M 0%nat 1%nat end), U2).
Definition opt0 (_ : nat) : bool * (nat -> R) := (true, fun _ => 0).
Definition fail0 (_ : nat) : bool * (nat -> R) := (false, fun _ => 0).
Definition k0 : krig := mkKrig false 0 0 0 (fun _ _ => 0) (fun _ _ => 0) (fun _ => 0) (fun _ => 0) (fun _ => 0) (fun _ => 0) (fun _ => 0) (fun _ _ => 0) (fun _ _ => 0) (fun _ => 0) (fun _ _ => 0) (fun _ => 0).
Definition sgn (l : nat) : R := match l with 2%nat => -1 | _ => 1 end.
Definition x2 (i k : nat) : R := 2 * INR i.
Definition y2 (i l : nat) : R := sgn l * INR i.
Definition e4 : R := exp (-4).
Lemma rt_sq : rt * rt = / 2.
Proof. unfold rt. rewrite <- Rinv_mult. rewrite sqrt_sqrt by lra. reflexivity. Qed.
Lemma U2_orth : forall p q, (p < 2)%nat -> (q < 2)%nat -> rsum 2 (fun k => U2 k p * U2 k q) = delta p q /\ rsum 2 (fun k => U2 p k * U2 q k) = delta p q.
Proof. intros [|[|p]] [|[|q]] Hp Hq; try lia; cbn; pose proof rt_sq; unfold delta; cbn; split; lra. Qed.
Lemma e4_small : 0 < e4 < / 5.
Proof.
  unfold e4. split; [apply exp_pos|]. replace (-4) with (Ropp 4) by lra. rewrite exp_Ropp. apply Rinv_lt_contravar; [|pose proof (exp_ineq1 4 ltac:(lra)); lra].
  pose proof (exp_pos 4). lra.
Qed.
Lemma std_half : forall f, f 0%nat - mean 2 f = - (f 1%nat - mean 2 f) -> f 1%nat - mean 2 f <> 0 -> std 2 f = Rabs (f 1%nat - mean 2 f) /\ std1 2 f = Rabs (f 1%nat - mean 2 f).
Proof.
  intros f E N. assert (Q : std 2 f = Rabs (f 1%nat - mean 2 f)).
  { unfold std. cbn [rsum]. rewrite E. rewrite <- sqrt_Rsqr_abs. f_equal. unfold Rsqr. cbn [INR]. field. }
  split; [exact Q|]. unfold std1. destruct (Req_EM_T (std 2 f) 0) as [Z|_]; [|exact Q]. rewrite Q in Z. destruct (Rabs_no_R0 _ N Z).
Qed.
Lemma x2_mean : forall k, mean 2 (fun i => x2 i k) = 1.
Proof. intros k. unfold mean, x2. cbn [rsum INR]. field. Qed.
Lemma x2_std : forall k, std1 2 (fun i => x2 i k) = 1.
Proof.
  intros k. destruct (std_half (fun i => x2 i k)) as [_ ->]; rewrite ?x2_mean; unfold x2; cbn [INR]; try lra. rewrite Rabs_right; lra.
Qed.
Lemma sgn_cases : forall l, sgn l = 1 \/ sgn l = -1.
Proof. intros [|[|[|l]]]; cbn; auto. Qed.
Lemma y2_mean : forall l, mean 2 (fun i => y2 i l) = sgn l / 2.
Proof. intros l. unfold mean, y2. cbn [rsum INR]. field. Qed.
Lemma y2_std : forall l, std 2 (fun i => y2 i l) = / 2 /\ std1 2 (fun i => y2 i l) = / 2.
Proof.
  intros l. destruct (std_half (fun i => y2 i l)) as [-> ->]; rewrite ?y2_mean; unfold y2; cbn [INR]; try (destruct (sgn_cases l) as [->| ->]; lra).
  assert (Rabs (sgn l * 1 - sgn l / 2) = / 2) as ->; [|auto]. destruct (sgn_cases l) as [->| ->]; [rewrite Rabs_right by lra|rewrite Rabs_left by lra]; lra.
Qed.
Section Two.
  Variables (nug : R) (opt : nat -> bool * (nat -> R)) (m : nat).
  Hypothesis Hnug : 0 <= nug <= 1.
  Hypothesis Hopt : opt = opt0.
  Definition kr : krig := fst (train svd2 opt (fun _ => nug) k0 2 1 m x2 y2).
  Lemma kr_unfold : kr = fst (train svd2 opt0 (fun _ => nug) k0 2 1 m x2 y2).
  Proof. unfold kr. rewrite Hopt. reflexivity. Qed.
  Definition sv0 : R := 1 + nug + e4.
  Definition sv1 : R := 1 + nug - e4.
  Definition f1 : R := sv1 / (sv1 * sv1 + tik * sv0 * (tik * sv0)).
  Definition f0 : R := sv0 / (sv0 * sv0 + tik * sv0 * (tik * sv0)).
  Lemma kr_X : forall i k, k_X kr i k = 2 * INR i - 1.
  Proof. intros i k. rewrite kr_unfold. cbn [train Nat.leb opt0 fst snd svd2 k_X]. rewrite x2_mean, x2_std. unfold x2. field. Qed.
  Lemma kr_th : forall k, k_th kr k = 1.
  Proof. intros k. rewrite kr_unfold. cbn [train Nat.leb opt0 fst snd svd2 k_th]. apply exp_0. Qed.
  Lemma corr01 : forall th X, (forall k, th k = 1) -> (forall i k, X i k = 2 * INR i - 1) -> corr 2 1 th (fun _ => nug) X 0 1 = e4.
  Proof.
    intros th X Ht HX. unfold corr, e4. cbn [Nat.eqb Nat.ltb Nat.leb rsum]. rewrite Ht, !HX. cbn [INR]. f_equal. rewrite Rabs_left by lra. ring.
  Qed.
  Lemma kr_S : snd (fst (svd2 2 (corr 2 1 (k_th kr) (fun _ => nug) (k_X kr)))) 0%nat = sv0 /\ snd (fst (svd2 2 (corr 2 1 (k_th kr) (fun _ => nug) (k_X kr)))) 1%nat = sv1.
  Proof. cbn [svd2 fst snd]. rewrite (corr01 _ _ kr_th kr_X). unfold corr. cbn [Nat.eqb]. unfold sv0, sv1. split; ring. Qed.
  Lemma kr_Y : forall i l, k_Y kr i l = sgn l * (2 * INR i - 1) /\ k_Ym kr l = sgn l / 2 /\ k_Ys kr l = / 2.
  Proof.
    intros i l. rewrite kr_unfold. cbn [train Nat.leb opt0 fst snd svd2 k_Y k_Ym k_Ys]. rewrite y2_mean, (proj2 (y2_std l)). unfold y2. split; [field|]. split; reflexivity.
  Qed.
  Lemma kr_Si : k_Si kr 0%nat = f0 /\ k_Si kr 1%nat = f1.
  Proof.
    destruct (train_ok svd2 opt0 (fun _ => nug) k0 2 1 m x2 y2 ltac:(lia) eq_refl) as (U & Sg & Vh & _ & _ & Es & _ & _ & _ & _ & HS & _).
    rewrite <- kr_unfold in Es, HS. rewrite HS. destruct kr_S as [E0 E1]. rewrite Es in E0, E1. cbn [fst snd] in E0, E1. unfold inv_factors. rewrite E0, E1. split; reflexivity.
  Qed.
  Lemma kr_al : forall l, k_al kr 0%nat l = - sgn l * f1 /\ k_al kr 1%nat l = sgn l * f1.
  Proof.
    intros l. destruct (train_ok svd2 opt0 (fun _ => nug) k0 2 1 m x2 y2 ltac:(lia) eq_refl) as (U & Sg & Vh & _ & _ & Es & _ & _ & Hal & _ & HS & _).
    rewrite <- kr_unfold in Es, Hal, HS. rewrite !Hal. unfold pinv. rewrite <- HS. pose proof (f_equal (fun t => fst (fst t)) Es) as EU. pose proof (f_equal snd Es) as EV. cbn [svd2 fst snd] in EU, EV. subst U Vh.
    cbn [rsum U2]. destruct kr_Si as [-> ->]. rewrite !(proj1 (kr_Y _ l)). cbn [INR]. pose proof rt_sq as Q. split.
    - transitivity (- (rt * rt) * 2 * (sgn l * f1)); [ring|]. rewrite Q. field.
    - transitivity ((rt * rt) * 2 * (sgn l * f1)); [ring|]. rewrite Q. field.
  Qed.
  Lemma kr_row : forall x i, corr_row kr false x i = exp (- ((x 0%nat - 2 * INR i) * (x 0%nat - 2 * INR i))).
  Proof.
    intros x i. unfold corr_row. assert (k_d kr = 1%nat) as -> by (rewrite kr_unfold; reflexivity). cbn [rsum]. rewrite kr_th, kr_X.
    assert (k_Xm kr 0%nat = 1) as -> by (rewrite kr_unfold; cbn [train Nat.leb opt0 fst snd svd2 k_Xm]; apply x2_mean).
    assert (k_Xs kr 0%nat = 1) as -> by (rewrite kr_unfold; cbn [train Nat.leb opt0 fst snd svd2 k_Xs]; apply x2_std). f_equal. field.
  Qed.
  Lemma kr_n : k_n kr = 2%nat /\ k_m kr = m /\ k_trained kr = true.
  Proof. rewrite kr_unfold. repeat split. Qed.
  Lemma f_bounds : 0 < f0 <= 2 /\ 0 < f1 <= 2.
  Proof.
    pose proof e4_small. assert (A : forall s, / 2 <= s -> 0 < s / (s * s + tik * sv0 * (tik * sv0)) <= 2).
    { intros s Hs. assert (P : 0 < s * s + tik * sv0 * (tik * sv0)) by (pose proof (Rle_0_sqr (tik * sv0)); unfold Rsqr in *; nra). split.
      - apply Rmult_lt_0_compat; [lra|apply Rinv_0_lt_compat; exact P].
      - apply (Rmult_le_reg_r (s * s + tik * sv0 * (tik * sv0))); [exact P|]. unfold Rdiv. rewrite Rmult_assoc, Rinv_l, Rmult_1_r by lra.
        pose proof (Rle_0_sqr (tik * sv0)); unfold Rsqr in *; nra. }
    split; apply A; unfold sv0, sv1; lra.
  Qed.
  (** the smallest singular value is larger than 1/2 *)
  Lemma kr_decomposes : decomposes svd2 2 1 (k_th kr) (fun _ => nug) (k_X kr) (/ 2) 3.
  Proof.
    pose proof e4_small as H4. intros M HM. cbn [svd2 fst snd].
    assert (G : gaussian 1 (k_th kr) (k_X kr 0%nat) (k_X kr 1%nat) = e4).
    { unfold gaussian, e4. cbn [rsum]. rewrite kr_th, !kr_X. cbn [INR]. f_equal. ring. }
    assert (G' : gaussian 1 (k_th kr) (k_X kr 1%nat) (k_X kr 0%nat) = e4).
    { unfold gaussian, e4. cbn [rsum]. rewrite kr_th, !kr_X. cbn [INR]. f_equal. ring. }
    assert (D : forall i, gaussian 1 (k_th kr) (k_X kr i) (k_X kr i) = 1).
    { intros i. unfold gaussian. cbn [rsum]. rewrite <- exp_0. f_equal. ring. }
    assert (M00 : M 0%nat 0%nat = 1 + nug) by (rewrite (HM 0%nat 0%nat ltac:(lia) ltac:(lia)), D; reflexivity).
    assert (M11 : M 1%nat 1%nat = 1 + nug) by (rewrite (HM 1%nat 1%nat ltac:(lia) ltac:(lia)), D; reflexivity).
    assert (M01 : M 0%nat 1%nat = e4) by (rewrite (HM 0%nat 1%nat ltac:(lia) ltac:(lia)), G; cbn; ring).
    assert (M10 : M 1%nat 0%nat = e4) by (rewrite (HM 1%nat 0%nat ltac:(lia) ltac:(lia)), G'; cbn; ring).
    split; [split; [|split; [|split; [|split]]]|].
    - intros p q Hp Hq. apply U2_orth; assumption.
    - intros p q Hp Hq. apply U2_orth; assumption.
    - intros p q Hp Hq. apply U2_orth; assumption.
    - pose proof rt_sq as Q. intros [|[|i]] [|[|j]] Hi Hj; try lia; cbn [rsum U2]; rewrite ?M00, ?M11, ?M01, ?M10.
      + transitivity (rt * rt * (2 * (1 + nug))); [rewrite Q; field|ring].
      + transitivity (rt * rt * (2 * e4)); [rewrite Q; field|ring].
      + transitivity (rt * rt * (2 * e4)); [rewrite Q; field|ring].
      + transitivity (rt * rt * (2 * (1 + nug))); [rewrite Q; field|ring].
    - intros [|[|p]] Hp; try lia; rewrite M00, M01; lra.
    - intros [|[|p]] Hp; try lia; rewrite M00, M01; lra.
  Qed.
End Two.

(** the hypotheses hold for the two samples *)
Example kriging_ex : (1 < 2)%nat /\ fst (opt0 1) = true /\ (forall i, (i < 2)%nat -> 0 <= 0 <= 0) /\
    decomposes svd2 2 1 (k_th (kr 0 opt0 3)) (fun _ => 0) (k_X (kr 0 opt0 3)) (/ 2) 3 /\
    deviation 2 (fun i => y2 i 0) * sqrt (INR 2) * slack 0 (/ 2) 3 <= / 100000000000000.
Proof.
  split; [lia|]. split; [reflexivity|]. split; [intros; lra|]. split; [apply kr_decomposes; [lra|reflexivity]|].
  change (deviation 2 (fun i => y2 i 0)) with (std 2 (fun i => y2 i 0)). rewrite (proj1 (y2_std 0)). unfold slack.
  assert (sqrt (INR 2) <= 2). { rewrite <- (sqrt_square 2) by lra. apply sqrt_le_1_alt. cbn [INR]. lra. }
  pose proof (sqrt_pos (INR 2)). lra.
Qed.

Example kriging_gradient_ex : (0 < k_d (kr 0 opt0 3))%nat /\ 0 < linearize (kr 0 opt0 3) (fun _ => 1) 0 0 /\ linearize (kr 0 opt0 3) (fun _ => 1) 2 0 < 0.
Proof.
  split; [cbn; lia|]. pose proof (f_bounds 0 ltac:(lra)) as [_ [F _]]. pose proof (exp_pos (-1)) as X.
  assert (E : forall l, linearize (kr 0 opt0 3) (fun _ => 1) l 0 = sgn l * (2 * (exp (-1) * f1 0))).
  { intros l. unfold linearize. destruct (kr_n 0 opt0 3 eq_refl) as (-> & _ & _). destruct (kr_Y 0 opt0 3 eq_refl 0 l) as (_ & _ & ->). cbn [rsum].
    destruct (kr_al 0 opt0 3 eq_refl l) as [-> ->]. rewrite !(kr_row 0 opt0 3 eq_refl), !(kr_th 0 opt0 3 eq_refl), !(kr_X 0 opt0 3 eq_refl). cbn [INR].
    assert (k_Xm (kr 0 opt0 3) 0%nat = 1) as -> by (cbn [kr train Nat.leb opt0 fst snd svd2 k_Xm]; apply x2_mean).
    assert (k_Xs (kr 0 opt0 3) 0%nat = 1) as -> by (cbn [kr train Nat.leb opt0 fst snd svd2 k_Xs]; apply x2_std).
    replace (- ((1 - 2 * 0) * (1 - 2 * 0))) with (-1) by ring. replace (- ((1 - 2 * 1) * (1 - 2 * 1))) with (-1) by ring. field. }
  rewrite !E. cbn [sgn]. assert (0 < exp (-1) * f1 0) by (apply Rmult_lt_0_compat; assumption). lra.
Qed.

(** ** where it fails *)
(** the samples are not reproduced exactly, even without a nugget *)
Theorem kriging_exact_refuted : exists svd minimize st x y sg top, 0 < sg /\
    decomposes svd 2 1 (k_th (fst (train svd minimize (fun _ => 0) st 2 1 1 x y))) (fun _ => 0) (k_X (fst (train svd minimize (fun _ => 0) st 2 1 1 x y))) sg top /\
    snd (train svd minimize (fun _ => 0) st 2 1 1 x y) = Ok tt /\
    predict_at (fst (train svd minimize (fun _ => 0) st 2 1 1 x y)) false (x 1%nat) 0 < y 1%nat 0%nat.
Proof.
  exists svd2, opt0, k0, x2, y2, (/ 2), 3. split; [lra|]. assert (H01 : 0 <= 0 <= 1) by lra. change (fst (train svd2 opt0 (fun _ => 0) k0 2 1 1 x2 y2)) with (kr 0 opt0 1).
  split; [exact (kr_decomposes 0 opt0 1 H01 eq_refl)|]. split; [reflexivity|].
  unfold predict_at. destruct (kr_n 0 opt0 1 eq_refl) as (-> & _ & _). destruct (kr_Y 0 opt0 1 eq_refl 0 0) as (_ & -> & ->). cbn [rsum].
  destruct (kr_al 0 opt0 1 eq_refl 0) as [-> ->]. rewrite !(kr_row 0 opt0 1 eq_refl). unfold y2, x2. cbn [INR sgn].
  replace (- ((2 * 1 - 2 * 0) * (2 * 1 - 2 * 0))) with (-4) by ring. replace (- ((2 * 1 - 2 * 1) * (2 * 1 - 2 * 1))) with 0 by ring. rewrite exp_0. fold e4.
  pose proof e4_small as H4. assert (S1 : sv1 0 = 1 - e4) by (unfold sv1; ring). assert (S0 : 0 < sv0 0) by (unfold sv0; lra). assert (T : 0 < tik) by (unfold tik; lra).
  assert (H : f1 0 * (1 - e4) < 1).
  { unfold f1. rewrite S1. set (h := tik * sv0 0). assert (0 < h) by (unfold h; nra). assert (P : 0 < (1 - e4) * (1 - e4) + h * h) by nra.
    apply (Rmult_lt_reg_r ((1 - e4) * (1 - e4) + h * h)); [exact P|]. replace ((1 - e4) / ((1 - e4) * (1 - e4) + h * h) * (1 - e4) * ((1 - e4) * (1 - e4) + h * h)) with ((1 - e4) * (1 - e4)) by (field; lra). nra. }
  lra.
Qed.
Print Assumptions kriging_exact_refuted.
(** points given as integers: the correlations are truncated to zero, and the mean is
    predicted *)
Theorem kriging_integers_refuted : exists svd minimize nugget st n x y p, (forall k, exists z, p k = IZR z) /\
    snd (train svd minimize nugget st n 1 1 x y) = Ok tt /\
    predict_at (fst (train svd minimize nugget st n 1 1 x y)) true p 0 = mean n (fun i => y i 0%nat) /\
    predict_at (fst (train svd minimize nugget st n 1 1 x y)) true p 0 < predict_at (fst (train svd minimize nugget st n 1 1 x y)) false p 0.
Proof.
  exists svd2, opt0, (fun _ => 0), k0, 2%nat, x2, y2, (fun _ => 3). split; [intros; exists 3%Z; reflexivity|]. split; [reflexivity|].
  change (fst (train svd2 opt0 (fun _ => 0) k0 2 1 1 x2 y2)) with (kr 0 opt0 1).
  assert (H : forall i, (i < 2)%nat -> corr_row (kr 0 opt0 1) true (fun _ => 3) i = 0).
  { intros i Hi. unfold corr_row. fold (corr_row (kr 0 opt0 1) false (fun _ => 3) i). change (exp _) with (corr_row (kr 0 opt0 1) false (fun _ => 3) i). rewrite (kr_row 0 opt0 1 eq_refl).
    assert (L : exp (- ((3 - 2 * INR i) * (3 - 2 * INR i))) < 1).
    { rewrite <- exp_0. apply exp_increasing. destruct i as [|[|i]]; [| |lia]; cbn [INR]; lra. }
    pose proof (exp_pos (- ((3 - 2 * INR i) * (3 - 2 * INR i)))) as L0. set (r := exp _) in *. destruct (base_Int_part r) as [I1 I2].
    assert (Int_part r < 1)%Z by (apply lt_IZR; lra). assert (-1 < Int_part r)%Z by (apply lt_IZR; lra). assert (Int_part r = 0%Z) as -> by lia. reflexivity. }
  unfold predict_at. destruct (kr_n 0 opt0 1 eq_refl) as (-> & _ & _). destruct (kr_Y 0 opt0 1 eq_refl 0 0) as (_ & -> & ->). cbn [rsum]. rewrite !H by lia.
  destruct (kr_al 0 opt0 1 eq_refl 0) as [-> ->]. rewrite !(kr_row 0 opt0 1 eq_refl). split; [rewrite y2_mean; field|]. cbn [INR sgn].
  assert (exp (- ((3 - 2 * 0) * (3 - 2 * 0))) < exp (- ((3 - 2 * 1) * (3 - 2 * 1)))) by (apply exp_increasing; lra).
  pose proof (f_bounds 0 ltac:(lra)) as [_ [F _]]. nra.
Qed.
Print Assumptions kriging_integers_refuted.
(** a training which fails leaves the new data with the old coefficients: later
    predictions raise no error *)
Theorem kriging_failed_training_refuted : exists svd minimize minimize' nugget st n x y y',
    snd (train svd minimize nugget st n 1 1 x y) = Ok tt /\
    let st1 := fst (train svd minimize nugget st n 1 1 x y) in
    snd (train svd minimize' nugget st1 n 1 1 x y') = Err ValueError /\
    let st2 := fst (train svd minimize' nugget st1 n 1 1 x y') in
    exists v v', predict st1 false 1 (fun _ => x 1%nat) = Ok [[v]] /\ predict st2 false 1 (fun _ => x 1%nat) = Ok [[v']] /\
      v' <> v /\ y' 1%nat 0%nat + / 2 < v'.
Proof.
  exists svd2, opt0, fail0, (fun _ => 0), k0, 2%nat, x2, y2, (fun i l => 20 + y2 i 2%nat). split; [reflexivity|]. intros st1. split; [reflexivity|]. intros st2.
  assert (Hm : mean 2 (fun i => 20 + y2 i 2%nat) = 39 / 2) by (unfold mean, y2; cbn [rsum INR sgn]; field).
  assert (Hs : std1 2 (fun i => 20 + y2 i 2%nat) = / 2).
  { destruct (std_half (fun i => 20 + y2 i 2%nat)) as [_ ->]; rewrite ?Hm; unfold y2; cbn [INR sgn]; try lra. rewrite Rabs_left; lra. }
  assert (R : forall i, corr_row st2 false (x2 1) i = corr_row (kr 0 opt0 1) false (x2 1) i) by reflexivity.
  exists (predict_at st1 false (x2 1) 0), (predict_at st2 false (x2 1) 0). split; [reflexivity|]. split; [reflexivity|].
  assert (E1 : predict_at st1 false (x2 1) 0 = / 2 + / 2 * (f1 0 * (1 - e4)) /\ predict_at st2 false (x2 1) 0 = 39 / 2 + / 2 * (f1 0 * (1 - e4))).
  { assert (A : rsum 2 (fun i => corr_row (kr 0 opt0 1) false (x2 1) i * k_al (kr 0 opt0 1) i 0) = f1 0 * (1 - e4)).
    { cbn [rsum]. destruct (kr_al 0 opt0 1 eq_refl 0) as [-> ->]. rewrite !(kr_row 0 opt0 1 eq_refl). unfold x2. cbn [INR sgn].
      replace (- ((2 * 1 - 2 * 0) * (2 * 1 - 2 * 0))) with (-4) by ring. replace (- ((2 * 1 - 2 * 1) * (2 * 1 - 2 * 1))) with 0 by ring. rewrite exp_0. fold e4. ring. }
    split.
    - change st1 with (kr 0 opt0 1). unfold predict_at. destruct (kr_n 0 opt0 1 eq_refl) as (-> & _ & _). destruct (kr_Y 0 opt0 1 eq_refl 0 0) as (_ & -> & ->). rewrite A. cbn [sgn]. field.
    - unfold predict_at. change (k_n st2) with 2%nat. change (k_Ym st2 0%nat) with (mean 2 (fun i => 20 + y2 i 2%nat)). change (k_Ys st2 0%nat) with (std1 2 (fun i => 20 + y2 i 2%nat)).
      rewrite Hm, Hs. rewrite <- A. f_equal. }
  destruct E1 as [-> ->]. pose proof e4_small as H4. pose proof (f_bounds 0 ltac:(lra)) as [_ [F _]]. split; [lra|]. unfold y2. cbn [INR sgn]. assert (0 < f1 0 * (1 - e4)) by nra. lra.
Qed.
Print Assumptions kriging_failed_training_refuted.
(** two samples at one point with different values: one of them is not reproduced *)
Theorem kriging_repeated_refuted : forall st (x y : nat -> nat -> R) a b l, (forall k, x a k = x b k) -> y a l <> y b l ->
    predict_at st false (x a) l <> y a l \/ predict_at st false (x b) l <> y b l.
Proof.
  intros st x y a b l E N. destruct (Req_dec (predict_at st false (x a) l) (y a l)) as [H|H]; [|left; exact H]. right. intros H'. apply N. rewrite <- H, <- H'.
  unfold predict_at. f_equal. f_equal. apply rsum_ext. intros i _. f_equal. unfold corr_row. f_equal. f_equal. apply rsum_ext. intros k _. rewrite E. reflexivity.
Qed.
Print Assumptions kriging_repeated_refuted.
(** several outputs: the variance of an output is that of its product with the sum of all
    outputs; here it is negative for the third, and its error is reported as zero *)
Theorem kriging_variance_refuted : exists svd minimize nugget st n x y p, (forall i, y i 2%nat = - y i 0%nat) /\
    snd (train svd minimize nugget st n 1 3 x y) = Ok tt /\
    let st' := fst (train svd minimize nugget st n 1 3 x y) in
    exists row e0 e1, predict_rmse st' false 1 (fun _ => p) = Ok ([row], [[e0; e1; 0]]) /\ 0 < e0 /\ 0 < e1.
Proof.
  exists svd2, opt0, (fun _ => 0), k0, 2%nat, x2, y2, (fun _ => 4). split; [intros i; unfold y2; cbn; ring|]. split; [reflexivity|].
  change (fst (train svd2 opt0 (fun _ => 0) k0 2 1 3 x2 y2)) with (kr 0 opt0 3). cbv zeta.
  pose proof e4_small as H4. pose proof (f_bounds 0 ltac:(lra)) as [[F0 F0'] [F1 F1']].
  assert (Hs : forall l, k_s2 (kr 0 opt0 3) l = sgn l * f1 0 / 4).
  { intros l. cbn [kr train Nat.leb opt0 fst snd svd2 k_s2]. rewrite (proj2 (y2_std l)).
    change (rsum 3 (fun l' => rsum 2 (fun i => k_Y (kr 0 opt0 3) i l' * k_al (kr 0 opt0 3) i l)) / INR 2 * (/ 2 * / 2) = sgn l * f1 0 / 4).
    cbn [rsum]. destruct (kr_al 0 opt0 3 eq_refl l) as [-> ->]. rewrite !(proj1 (kr_Y 0 opt0 3 eq_refl _ _)). cbn [INR sgn]. field. }
  assert (Hm : forall l, exists q, mse (kr 0 opt0 3) false (fun _ _ => 4) 0 0 l = q * sgn l /\ 0 < q).
  { intros l. unfold mse. rewrite Hs. destruct (kr_n 0 opt0 3 eq_refl) as (-> & _ & _).
    set (r0 := corr_row (kr 0 opt0 3) false (fun _ => 4) 0). set (r1 := corr_row (kr 0 opt0 3) false (fun _ => 4) 1).
    assert (B0 : 0 < r0 < / 5).
    { unfold r0. rewrite (kr_row 0 opt0 3 eq_refl). split; [apply exp_pos|]. eapply Rlt_trans; [|apply H4]. unfold e4. apply exp_increasing. cbn [INR]. lra. }
    assert (B1 : 0 < r1 < / 5).
    { unfold r1. rewrite (kr_row 0 opt0 3 eq_refl). cbn [INR]. replace (- ((4 - 2 * 1) * (4 - 2 * 1))) with (-4) by ring. exact H4. }
    cbn [rsum]. fold r0 r1. destruct (kr_Si 0 opt0 3 eq_refl) as [-> ->]. change (k_U (kr 0 opt0 3)) with U2. change (k_Vh (kr 0 opt0 3)) with U2. cbn [U2].
    match goal with |- context [1 - ?u] => assert (Q : u = / 2 * (f0 0 * ((r0 + r1) * (r0 + r1)) + f1 0 * ((r0 - r1) * (r0 - r1)))) end.
    { rewrite <- rt_sq. ring. }
    rewrite Q. eexists. split; [unfold Rdiv; rewrite (Rmult_comm (sgn l)), <- !Rmult_assoc, (Rmult_assoc _ (sgn l)), (Rmult_comm (sgn l)), <- Rmult_assoc; reflexivity|].
    assert (Hsq : forall u, - (2 / 5) <= u <= 2 / 5 -> 0 <= u * u <= 4 / 25) by (intros u Hu; nra).
    pose proof (Hsq (r0 + r1) ltac:(lra)). pose proof (Hsq (r0 - r1) ltac:(lra)).
    assert (f0 0 * ((r0 + r1) * (r0 + r1)) <= 2 * (4 / 25)) by (apply Rmult_le_compat; lra).
    assert (f1 0 * ((r0 - r1) * (r0 - r1)) <= 2 * (4 / 25)) by (apply Rmult_le_compat; lra).
    apply Rmult_lt_0_compat; [|lra]. apply Rmult_lt_0_compat; [|lra]. lra. }
  assert (Hp : forall l, sgn l = 1 -> 0 < rmse (kr 0 opt0 3) false (fun _ _ => 4) 0 0 l).
  { intros l El. destruct (Hm l) as (q & E & P). unfold rmse. rewrite E, El. destruct (Rlt_dec (q * 1) 0); [lra|]. apply sqrt_lt_R0. lra. }
  do 3 eexists. split; [|split; [exact (Hp 0%nat eq_refl)|exact (Hp 1%nat eq_refl)]].
  unfold predict_rmse, predict. destruct (kr_n 0 opt0 3 eq_refl) as (_ & -> & ->). cbn [bind Nat.eqb]. unfold rows_of. cbn [seq map].
  assert (E2 : rmse (kr 0 opt0 3) false (fun _ _ => 4) 0 0 2 = 0).
  { destruct (Hm 2%nat) as (q & E & P). unfold rmse. rewrite E. cbn [sgn]. destruct (Rlt_dec (q * -1) 0); [apply sqrt_0|lra]. }
  rewrite E2. reflexivity.
Qed.
Print Assumptions kriging_variance_refuted.
(** several points: the errors form a matrix of points by points; with several outputs the
    sizes may not fit.  FloatKrigingSurrogate returns the first point only *)
Theorem kriging_points_refuted : (forall st ints xs, k_trained st = true -> k_m st = 1%nat ->
      exists y e00 e01 e10 e11, predict_rmse st ints 2 xs = Ok (y, [[e00; e01]; [e10; e11]]) /\ map (@length R) y = [1%nat; 1%nat]) /\
    (forall st ints xs, k_trained st = true -> k_m st = 2%nat -> predict_rmse st ints 3 xs = Err ValueError) /\
    (forall st ints ne xs, k_trained st = true -> (0 < ne)%nat -> float_predict st ints ne xs = Ok (map (predict_at st ints (xs 0%nat)) (seq 0 (k_m st)))).
Proof.
  split; [|split].
  - intros st ints xs Ht Em. unfold predict_rmse, predict, rows_of. rewrite Ht, Em. cbn [bind Nat.eqb seq map length]. repeat eexists.
  - intros st ints xs Ht Em. unfold predict_rmse, predict. rewrite Ht, Em. reflexivity.
  - intros st ints [|ne] xs Ht Hn; [lia|]. unfold float_predict, predict, rows_of. rewrite Ht. reflexivity.
Qed.
Print Assumptions kriging_points_refuted.

(** Lemmas for the Kriging surrogate. *)
From Coq Require Import Reals Lra Lia.
From Verif Require Import Base KrigModel KrigSpec.
Local Open Scope R_scope.

Lemma rsum_ext : forall n f g, (forall i, (i < n)%nat -> f i = g i) -> rsum n f = rsum n g.
Proof. induction n as [|n IH]; intros f g H; cbn; [reflexivity|]. rewrite (IH f g), (H n); auto with arith. Qed.
Lemma rsum_plus : forall n f g, rsum n (fun i => f i + g i) = rsum n f + rsum n g.
Proof. induction n as [|n IH]; intros; cbn; [lra|]. rewrite IH. lra. Qed.
Lemma rsum_scal : forall n c f, rsum n (fun i => c * f i) = c * rsum n f.
Proof. induction n as [|n IH]; intros; cbn; [lra|]. rewrite IH. lra. Qed.
Lemma rsum_scal_r : forall n c f, rsum n (fun i => f i * c) = rsum n f * c.
Proof. induction n as [|n IH]; intros; cbn; [lra|]. rewrite IH. lra. Qed.
Lemma rsum_minus : forall n f g, rsum n (fun i => f i - g i) = rsum n f - rsum n g.
Proof. induction n as [|n IH]; intros; cbn; [lra|]. rewrite IH. lra. Qed.
Lemma rsum_0 : forall n, rsum n (fun _ => 0) = 0.
Proof. induction n as [|n IH]; cbn; [reflexivity|]. rewrite IH. lra. Qed.
Lemma rsum_const : forall n c, rsum n (fun _ => c) = INR n * c.
Proof. induction n as [|n IH]; intros; [cbn; lra|]. cbn [rsum]. rewrite IH, S_INR. lra. Qed.
Lemma rsum_swap : forall n m f, rsum n (fun i => rsum m (fun j => f i j)) = rsum m (fun j => rsum n (fun i => f i j)).
Proof. induction n as [|n IH]; intros m f; cbn; [symmetry; apply rsum_0|]. rewrite IH, <- rsum_plus. reflexivity. Qed.
Lemma rsum_delta : forall n p f, (p < n)%nat -> rsum n (fun q => delta p q * f q) = f p.
Proof.
  induction n as [|n IH]; intros p f H; [lia|]. cbn [rsum]. unfold delta at 2. destruct (Nat.eqb_spec p n) as [->|N].
  - rewrite (rsum_ext n _ (fun _ => 0)); [rewrite rsum_0; lra|]. intros i Hi. unfold delta. destruct (Nat.eqb_spec n i); [lia|lra].
  - rewrite IH by lia. lra.
Qed.
Lemma rsum_le : forall n f g, (forall i, (i < n)%nat -> f i <= g i) -> rsum n f <= rsum n g.
Proof. induction n as [|n IH]; intros f g H; cbn; [lra|]. specialize (IH f g). specialize (H n) as Hn. assert (rsum n f <= rsum n g) by auto with arith. specialize (Hn ltac:(lia)). lra. Qed.
Lemma rsum_pos : forall n f, (forall i, (i < n)%nat -> 0 <= f i) -> 0 <= rsum n f.
Proof. intros n f H. rewrite <- (rsum_0 n). apply rsum_le. exact H. Qed.
Lemma rsum_term : forall n f i, (forall i, (i < n)%nat -> 0 <= f i) -> (i < n)%nat -> f i <= rsum n f.
Proof.
  induction n as [|n IH]; intros f i H Hi; [lia|]. cbn [rsum]. destruct (Nat.eq_dec i n) as [->|N].
  - pose proof (rsum_pos n f ltac:(auto with arith)). lra.
  - specialize (IH f i ltac:(auto with arith) ltac:(lia)). pose proof (H n ltac:(lia)). lra.
Qed.

Definition sq (n : nat) (v : nat -> R) : R := rsum n (fun i => v i * v i).
Lemma sq_pos : forall n v, 0 <= sq n v.
Proof. intros n v. apply rsum_pos. intros i _. nra. Qed.
Lemma sq_le : forall n v w, (forall i, (i < n)%nat -> Rabs (v i) <= Rabs (w i)) -> sq n v <= sq n w.
Proof.
  intros n v w H. apply rsum_le. intros i Hi. specialize (H i Hi).
  rewrite <- (Rabs_right (v i * v i)), <- (Rabs_right (w i * w i)) by nra. rewrite !Rabs_mult. pose proof (Rabs_pos (v i)). nra.
Qed.
Lemma sq_entry : forall n v i, (i < n)%nat -> Rabs (v i) <= sqrt (sq n v).
Proof.
  intros n v i Hi. rewrite <- sqrt_Rsqr_abs. apply sqrt_le_1_alt. unfold Rsqr, sq.
  apply (rsum_term n (fun i => v i * v i) i); [intros; nra|exact Hi].
Qed.
Lemma sq_scal : forall n c v, sq n (fun i => c * v i) = c * c * sq n v.
Proof. intros n c v. unfold sq. rewrite <- rsum_scal. apply rsum_ext. intros; ring. Qed.

(** an orthogonal matrix keeps norms *)
Lemma iso : forall n W a, (forall p q, (p < n)%nat -> (q < n)%nat -> rsum n (fun k => W k p * W k q) = delta p q) ->
    sq n (fun k => rsum n (fun p => W k p * a p)) = sq n a.
Proof.
  intros n W a H. unfold sq.
  transitivity (rsum n (fun k => rsum n (fun p => rsum n (fun q => W k p * W k q * (a p * a q))))).
  { apply rsum_ext. intros k _. rewrite <- rsum_scal_r. apply rsum_ext. intros p _. rewrite <- rsum_scal. apply rsum_ext. intros q _. ring. }
  rewrite rsum_swap. apply rsum_ext. intros p Hp. rewrite rsum_swap.
  transitivity (rsum n (fun q => delta p q * (a p * a q))); [|apply (rsum_delta n p (fun q => a p * a q) Hp)].
  apply rsum_ext. intros q Hq. rewrite rsum_scal_r, H by assumption. reflexivity.
Qed.

Section Svd.
  Variables (n : nat) (M U : nat -> nat -> R) (Sg : nat -> R) (Vh : nat -> nat -> R) (sg : R).
  Hypothesis Hs : is_svd n M U Sg Vh.
  Hypothesis Hsg : 0 < sg.
  Hypothesis Hmin : forall p, (p < n)%nat -> sg <= Sg p.
  Hypothesis Hn : (0 < n)%nat.
  Let h := tik * Sg O.
  Definition ratio : R := tik * Sg O / sg * (tik * Sg O / sg).
  Definition pinv (v : nat -> R) (i : nat) : R := rsum n (fun j => Vh j i * rsum n (fun k => inv_factors Sg j * U k j * v k)).
  Let c (v : nat -> R) (j : nat) : R := rsum n (fun k => U k j * v k).

  Lemma c_sq : forall v, sq n (c v) = sq n v.
  Proof. intros v. unfold c. apply (iso n (fun j k => U k j) v). intros p q Hp Hq. apply Hs; assumption. Qed.
  Lemma expand : forall v k, (k < n)%nat -> rsum n (fun p => U k p * c v p) = v k.
  Proof.
    intros v k Hk. unfold c. transitivity (rsum n (fun p => rsum n (fun i => U k p * U i p * v i))).
    { apply rsum_ext. intros p _. rewrite <- rsum_scal. apply rsum_ext. intros; ring. }
    rewrite rsum_swap. transitivity (rsum n (fun i => delta k i * v i)); [|apply rsum_delta; exact Hk].
    apply rsum_ext. intros i Hi. rewrite rsum_scal_r. destruct Hs as (_ & H & _). rewrite H by assumption. reflexivity.
  Qed.
  Lemma pinv_c : forall v i, pinv v i = rsum n (fun j => Vh j i * (inv_factors Sg j * c v j)).
  Proof. intros v i. apply rsum_ext. intros j _. f_equal. unfold c. rewrite <- rsum_scal. apply rsum_ext. intros; ring. Qed.
  Lemma apply_pinv : forall v k, (k < n)%nat -> rsum n (fun i => M k i * pinv v i) = rsum n (fun p => U k p * (Sg p * inv_factors Sg p * c v p)).
  Proof.
    intros v k Hk. destruct Hs as (_ & _ & HV & HM & _).
    transitivity (rsum n (fun i => rsum n (fun p => rsum n (fun j => U k p * Sg p * (inv_factors Sg j * c v j) * (Vh p i * Vh j i))))).
    { apply rsum_ext. intros i Hi. rewrite HM by assumption. rewrite pinv_c, <- rsum_scal_r. apply rsum_ext. intros p _. rewrite <- rsum_scal. apply rsum_ext. intros j _. ring. }
    rewrite rsum_swap. apply rsum_ext. intros p Hp. rewrite rsum_swap.
    transitivity (rsum n (fun j => delta p j * (U k p * Sg p * (inv_factors Sg j * c v j)))).
    { apply rsum_ext. intros j Hj. rewrite rsum_scal, HV by assumption. ring. }
    rewrite (rsum_delta n p (fun j => U k p * Sg p * (inv_factors Sg j * c v j)) Hp). ring.
  Qed.
  Lemma factor_bounds : forall p, (p < n)%nat -> Rabs (1 - Sg p * inv_factors Sg p) <= ratio /\ Rabs (inv_factors Sg p) <= / sg.
  Proof.
    intros p Hp. specialize (Hmin p Hp). unfold inv_factors. fold h. assert (P : 0 < Sg p * Sg p + h * h) by nra.
    assert (Q : 0 < Sg p * Sg p) by nra. split.
    - replace (1 - Sg p * (Sg p / (Sg p * Sg p + h * h))) with (h * h / (Sg p * Sg p + h * h)) by (field; lra).
      rewrite Rabs_right by (apply Rle_ge, Rmult_le_pos; [nra|left; apply Rinv_0_lt_compat; exact P]).
      unfold ratio. fold h. replace (h / sg * (h / sg)) with (h * h / (sg * sg)) by (field; lra).
      apply Rmult_le_compat_l; [nra|]. apply Rinv_le_contravar; nra.
    - rewrite Rabs_right by (apply Rle_ge, Rmult_le_pos; [lra|left; apply Rinv_0_lt_compat; exact P]).
      apply (Rmult_le_reg_r (Sg p * Sg p + h * h)); [exact P|]. replace (Sg p / (Sg p * Sg p + h * h) * (Sg p * Sg p + h * h)) with (Sg p) by (field; lra).
      apply (Rmult_le_reg_l sg); [exact Hsg|]. replace (sg * (/ sg * (Sg p * Sg p + h * h))) with (Sg p * Sg p + h * h) by (field; lra). nra.
  Qed.
  (** the regularized solution: small residual, bounded solution *)
  Lemma pinv_resid : forall v k, (k < n)%nat -> Rabs (v k - rsum n (fun i => M k i * pinv v i)) <= ratio * sqrt (sq n v).
  Proof.
    intros v k Hk. set (e := fun k => rsum n (fun p => U k p * ((1 - Sg p * inv_factors Sg p) * c v p))).
    replace (v k - rsum n (fun i => M k i * pinv v i)) with (e k).
    2:{ rewrite apply_pinv by exact Hk. rewrite <- (expand v k Hk) at 1. rewrite <- rsum_minus. apply rsum_ext. intros; ring. }
    assert (R0 : 0 <= ratio) by (unfold ratio; nra).
    eapply Rle_trans; [exact (sq_entry n e k Hk)|]. unfold e. rewrite (iso n U).
    2:{ intros p q Hp Hq. apply Hs; assumption. }
    rewrite <- (sqrt_Rsqr ratio R0), <- sqrt_mult by (try apply Rle_0_sqr; apply sq_pos). apply sqrt_le_1_alt. unfold Rsqr.
    rewrite <- (c_sq v), <- sq_scal. apply sq_le. intros p Hp. rewrite !Rabs_mult. apply Rmult_le_compat_r; [apply Rabs_pos|].
    rewrite (Rabs_right ratio) by lra. apply factor_bounds. exact Hp.
  Qed.
  Lemma pinv_bound : forall v i, (i < n)%nat -> Rabs (pinv v i) <= / sg * sqrt (sq n v).
  Proof.
    intros v i Hi. assert (S0 : 0 < / sg) by (apply Rinv_0_lt_compat; exact Hsg).
    eapply Rle_trans; [exact (sq_entry n (pinv v) i Hi)|].
    replace (sq n (pinv v)) with (sq n (fun j => inv_factors Sg j * c v j)).
    2:{ symmetry. unfold sq at 1. erewrite rsum_ext by (intros j _; rewrite pinv_c; reflexivity).
        apply (iso n (fun i j => Vh j i) (fun j => inv_factors Sg j * c v j)). intros p q Hp Hq. apply Hs; assumption. }
    rewrite <- (sqrt_Rsqr (/ sg)) by lra. rewrite <- sqrt_mult by (try apply Rle_0_sqr; apply sq_pos). apply sqrt_le_1_alt. unfold Rsqr.
    rewrite <- (c_sq v), <- sq_scal. apply sq_le. intros p Hp. rewrite !Rabs_mult. apply Rmult_le_compat_r; [apply Rabs_pos|].
    rewrite (Rabs_right (/ sg)) by lra. apply factor_bounds. exact Hp.
  Qed.
End Svd.

(** ** training *)
Lemma std1_pos : forall n f, (0 < n)%nat -> 0 < std1 n f.
Proof.
  intros n f _. unfold std1. destruct (Req_EM_T (std n f) 0) as [E|N]; [lra|].
  pose proof (sqrt_pos (rsum n (fun i => (f i - mean n f) * (f i - mean n f)) / INR n)). fold (std n f) in H. lra.
Qed.
(** the norm of a normalized column *)
Lemma norm_sq : forall n f, (0 < n)%nat -> std1 n f * sqrt (sq n (fun i => (f i - mean n f) / std1 n f)) = std n f * sqrt (INR n).
Proof.
  intros n f Hn. assert (N0 : 0 < INR n) by (apply lt_0_INR; exact Hn). pose proof (std1_pos n f Hn) as P.
  set (v := rsum n (fun i => (f i - mean n f) * (f i - mean n f))).
  assert (V0 : 0 <= v) by (apply rsum_pos; intros i _; apply Rle_0_sqr).
  assert (E : sq n (fun i => (f i - mean n f) / std1 n f) = / std1 n f * / std1 n f * v).
  { unfold sq, v. rewrite <- rsum_scal. apply rsum_ext. intros i _. field. lra. }
  rewrite E. rewrite sqrt_mult by (try exact V0; left; apply Rmult_lt_0_compat; apply Rinv_0_lt_compat; exact P).
  rewrite sqrt_square by (left; apply Rinv_0_lt_compat; exact P). rewrite <- Rmult_assoc. rewrite Rinv_r by lra. rewrite Rmult_1_l.
  unfold std. fold v. rewrite <- sqrt_mult by (try (apply Rmult_le_pos; [exact V0|left; apply Rinv_0_lt_compat; exact N0]); lra).
  f_equal. field. lra.
Qed.

Lemma corr_covar : forall n d th nugget X, is_covar n d th nugget X (corr n d th nugget X).
Proof.
  intros n d th nugget X i j Hi Hj. unfold corr, gaussian. destruct (Nat.eqb_spec i j) as [<-|N].
  - rewrite (rsum_ext d _ (fun _ => 0)) by (intros; ring). rewrite rsum_0, Ropp_0, exp_0. lra.
  - rewrite Rplus_0_r. f_equal. f_equal. apply rsum_ext. intros k _. f_equal. destruct (Nat.ltb_spec i j).
    + rewrite <- Rabs_mult. apply Rabs_right. apply Rle_ge, Rle_0_sqr.
    + destruct (Nat.ltb_spec j i); [|lia]. rewrite <- Rabs_mult. rewrite Rabs_right by (apply Rle_ge, Rle_0_sqr). ring.
Qed.

Section Train.
  Variables (svd : nat -> (nat -> nat -> R) -> (nat -> nat -> R) * (nat -> R) * (nat -> nat -> R)) (minimize : nat -> bool * (nat -> R)) (nugget : nat -> R).
  Notation train := (train svd minimize nugget).

  Lemma train_ok : forall st n d m x y, (1 < n)%nat -> fst (minimize d) = true -> exists U Sg Vh,
      let st' := fst (train st n d m x y) in
      snd (train st n d m x y) = Ok tt /\ normalizes st' n d m x y /\ svd n (corr n d (k_th st') nugget (k_X st')) = (U, Sg, Vh) /\
      (forall l, k_Ys st' l = std1 n (fun i => y i l)) /\
      (forall i l, k_Y st' i l = (y i l - mean n (fun i => y i l)) / std1 n (fun i => y i l)) /\
      (forall i l, k_al st' i l = pinv n U Sg Vh (fun k => k_Y st' k l) i) /\
      k_U st' = U /\ k_Si st' = inv_factors Sg /\ k_Vh st' = Vh /\ (forall k, 0 < k_th st' k).
  Proof.
    intros st n d m x y Hn Ho. unfold train, KrigModel.train. assert (E : (n <=? 1)%nat = false) by (apply Nat.leb_gt; exact Hn). rewrite E, Ho.
    set (th := fun k => exp (snd (minimize d) k)). cbv zeta.
    destruct (svd n (corr n d th nugget (fun i k => (x i k - mean n (fun i0 => x i0 k)) / std1 n (fun i0 => x i0 k)))) as [[U Sg] Vh] eqn:Es.
    exists U, Sg, Vh. cbn [fst snd k_th k_X k_Y k_Ys k_al k_U k_Si k_Vh]. split; [reflexivity|]. split; [|repeat split; try assumption; intros; try reflexivity; apply exp_pos].
    unfold normalizes; cbn [k_trained k_n k_d k_m k_Xs k_Ys k_Xm k_Ym k_X k_Y]. repeat split.
    - intros k. pose proof (std1_pos n (fun i => x i k) ltac:(lia)). lra.
    - intros l. pose proof (std1_pos n (fun i => y i l) ltac:(lia)). lra.
    - intros i k _ _. field. pose proof (std1_pos n (fun i => x i k) ltac:(lia)). lra.
    - intros i l _ _. field. pose proof (std1_pos n (fun i => y i l) ltac:(lia)). lra.
  Qed.
End Train.

(** correlations with a sample *)
Lemma corr_row_sample : forall st n d m x y i a nugget M, normalizes st n d m x y -> is_covar n d (k_th st) nugget (k_X st) M ->
    (i < n)%nat -> (a < n)%nat -> corr_row st false (x a) i = M a i - delta a i * nugget a.
Proof.
  intros st n d m x y i a nugget M (_ & _ & Ed & _ & Hx & _ & HX & _) HM Hi Ha. rewrite HM by assumption. unfold corr_row, gaussian, delta. rewrite Ed.
  replace (exp (- rsum d (fun k => k_th st k * (((x a k - k_Xm st k) / k_Xs st k - k_X st i k) * ((x a k - k_Xm st k) / k_Xs st k - k_X st i k)))))
    with (exp (- rsum d (fun k => k_th st k * ((k_X st a k - k_X st i k) * (k_X st a k - k_X st i k))))).
  - destruct (a =? i)%nat; lra.
  - f_equal. f_equal. apply rsum_ext. intros k Hk. rewrite <- (HX a k Ha Hk).
    replace ((k_Xm st k + k_Xs st k * k_X st a k - k_Xm st k) / k_Xs st k) with (k_X st a k) by (field; apply Hx). reflexivity.
Qed.

(** ** derivatives *)
Lemma rsum_deriv : forall n f f' t, (forall i, (i < n)%nat -> derivable_pt_lim (f i) t (f' i)) ->
    derivable_pt_lim (fun t => rsum n (fun i => f i t)) t (rsum n f').
Proof.
  induction n as [|n IH]; intros f f' t H; cbn [rsum]; [apply derivable_pt_lim_const|].
  apply (derivable_pt_lim_plus (fun t => rsum n (fun i => f i t)) (f n)); auto with arith.
Qed.
Lemma deriv_ext : forall f g t l, (forall x, f x = g x) -> derivable_pt_lim f t l -> derivable_pt_lim g t l.
Proof. intros f g t l E H eps He. destruct (H eps He) as [dl Hd]. exists dl. intros h H0 H1. rewrite <- !E. apply Hd; assumption. Qed.
Lemma deriv_val : forall f t l l', l = l' -> derivable_pt_lim f t l -> derivable_pt_lim f t l'.
Proof. intros f t l l' <- H. exact H. Qed.
Lemma scal_deriv : forall c f t l, derivable_pt_lim f t l -> derivable_pt_lim (fun t => c * f t) t (c * l).
Proof. intros c f t l H. exact (derivable_pt_lim_scal f c t l H). Qed.
Lemma corr_row_deriv : forall st x i j t, (j < k_d st)%nat ->
    derivable_pt_lim (fun t => corr_row st false (upd x j t) i) t
      (corr_row st false (upd x j t) i * (- (2 * k_th st j * ((t - k_Xm st j) / k_Xs st j - k_X st i j) * / k_Xs st j))).
Proof.
  intros st x i j t Hj. unfold corr_row.
  set (g := fun t => - rsum (k_d st) (fun k => k_th st k * (((upd x j t k - k_Xm st k) / k_Xs st k - k_X st i k) * ((upd x j t k - k_Xm st k) / k_Xs st k - k_X st i k)))).
  change (derivable_pt_lim (fun t => exp (g t)) t (exp (g t) * - (2 * k_th st j * ((t - k_Xm st j) / k_Xs st j - k_X st i j) * / k_Xs st j))).
  apply (derivable_pt_lim_comp g exp); [|apply derivable_pt_lim_exp].
  apply (derivable_pt_lim_opp (fun t => rsum (k_d st) (fun k => k_th st k * (((upd x j t k - k_Xm st k) / k_Xs st k - k_X st i k) * ((upd x j t k - k_Xm st k) / k_Xs st k - k_X st i k))))).
  rewrite <- (rsum_delta (k_d st) j (fun k => 2 * k_th st k * ((t - k_Xm st k) / k_Xs st k - k_X st i k) * / k_Xs st k) Hj).
  apply rsum_deriv. intros k _. unfold delta, upd. rewrite (Nat.eqb_sym k j). destruct (Nat.eqb_spec j k) as [<-|N].
  - set (u := fun t => (t - k_Xm st j) / k_Xs st j - k_X st i j).
    assert (Hu : derivable_pt_lim u t (/ k_Xs st j)).
    { apply (deriv_ext (fun t => / k_Xs st j * t + (- k_Xm st j / k_Xs st j - k_X st i j))); [intros; unfold u, Rdiv; ring|].
      apply (deriv_val _ _ (/ k_Xs st j * 1 + 0)); [ring|].
      apply (derivable_pt_lim_plus (fun t => / k_Xs st j * t) (fun _ => - k_Xm st j / k_Xs st j - k_X st i j)); [|apply derivable_pt_lim_const].
      apply scal_deriv. apply derivable_pt_lim_id. }
    replace (1 * (2 * k_th st j * ((t - k_Xm st j) / k_Xs st j - k_X st i j) * / k_Xs st j)) with (k_th st j * (/ k_Xs st j * u t + u t * / k_Xs st j)) by (unfold u; ring).
    apply (scal_deriv (k_th st j) (fun t => u t * u t)). apply (derivable_pt_lim_mult u u); exact Hu.
  - rewrite Rmult_0_l. apply derivable_pt_lim_const.
Qed.

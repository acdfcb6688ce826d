(** Lemmas for multi-fidelity co-kriging (C108). *)
From Verif Require Import Base CokModel CokSpec.
From Coq Require Import Field.
Local Open Scope list_scope.

Lemma last_cons_default : forall (A : Type) (l : list A) x dflt, last (x :: l) dflt = last l x.
Proof.
  intros A l. induction l as [|y l IH]; intros x dflt; [reflexivity|].
  change (last (x :: y :: l) dflt) with (last (y :: l) dflt). rewrite (IH y dflt), (IH y x). reflexivity.
Qed.
Lemma nth_flat_rows : forall (A : Type) (g : nat -> nat -> A) m dflt w k0 i j,
  (i < w)%nat -> (j < m)%nat ->
  nth (i * m + j) (flat_map (fun k => map (g k) (seq 0 m)) (seq k0 w)) dflt = g (k0 + i)%nat j.
Proof.
  intros A g m dflt w. induction w as [|w IH]; intros k0 i j Hi Hj; [lia|]. cbn [seq flat_map].
  destruct i as [|i].
  - rewrite app_nth1 by (rewrite map_length, seq_length; lia).
    rewrite (nth_indep _ dflt (g k0 O)) by (rewrite map_length, seq_length; lia).
    rewrite map_nth with (d := O). rewrite seq_nth by lia. f_equal; lia.
  - rewrite app_nth2 by (rewrite map_length, seq_length; nia). rewrite map_length, seq_length.
    replace (S i * m + j - m)%nat with (i * m + j)%nat by nia. rewrite IH by lia. f_equal; lia.
Qed.

(** the position of the pair (a, b) among the pairs of l1_cross_distances(X) *)
Lemma div2_step : forall n a, (S a < n)%nat ->
  Nat.div2 (S a * (2 * n - S a - 1)) = (Nat.div2 (a * (2 * n - a - 1)) + (n - a - 1))%nat.
Proof.
  intros n a H.
  replace (S a * (2 * n - S a - 1))%nat with (a * (2 * n - a - 1) + 2 * (n - a - 1))%nat by nia.
  rewrite !Nat.div2_div. rewrite (Nat.mul_comm 2 (n - a - 1)), Nat.div_add by lia. reflexivity.
Qed.
Lemma nth_triangle : forall (A : Type) (g : nat -> nat -> A) dflt n a b w k0,
  (k0 + w = n - 1)%nat -> (k0 <= a)%nat -> (a < b)%nat -> (b < n)%nat ->
  nth (Nat.div2 (a * (2 * n - a - 1)) - Nat.div2 (k0 * (2 * n - k0 - 1)) + (b - a - 1))
      (flat_map (fun k => map (g k) (seq (S k) (n - k - 1))) (seq k0 w)) dflt = g a b.
Proof.
  intros A g dflt n a b w. induction w as [|w IH]; intros k0 Hw Ha Hb Hn; [lia|]. cbn [seq flat_map].
  destruct (Nat.eq_dec k0 a) as [->|Hne].
  - rewrite Nat.sub_diag, Nat.add_0_l. rewrite app_nth1 by (rewrite map_length, seq_length; lia).
    rewrite (nth_indep _ dflt (g a O)) by (rewrite map_length, seq_length; lia).
    rewrite map_nth with (d := O). rewrite seq_nth by lia. f_equal; lia.
  - assert (E := div2_step n k0 ltac:(lia)).
    assert (M : (Nat.div2 (S k0 * (2 * n - S k0 - 1)) <= Nat.div2 (a * (2 * n - a - 1)))%nat).
    { rewrite !Nat.div2_div. apply Nat.div_le_mono; [lia|]. nia. }
    rewrite app_nth2 by (rewrite map_length, seq_length; lia). rewrite map_length, seq_length.
    replace (Nat.div2 (a * (2 * n - a - 1)) - Nat.div2 (k0 * (2 * n - k0 - 1)) + (b - a - 1) - (n - k0 - 1))%nat
      with (Nat.div2 (a * (2 * n - a - 1)) - Nat.div2 (S k0 * (2 * n - S k0 - 1)) + (b - a - 1))%nat by lia.
    apply IH; lia.
Qed.

Section CokProofs.
  Context (K : numbers) (KG : good_num K).
  Notation "0" := (n0 K). Notation "1" := (n1 K).
  Infix "+" := (nadd K). Infix "*" := (nmul K). Infix "-" := (nsub K). Infix "/" := (ndiv K).
  Notation "- x" := (nopp K x).
  Notation vec := (nat -> K). Notation mat := (nat -> nat -> K). Notation point := (list K).
  Let Kfield := gn_field K KG.
  Add Field KF : Kfield.
  Notation total := (total K). Notation sum := (sum K).

  Lemma sum_total : forall n f, sum n f = total n f.
  Proof. induction n; intros; cbn; [reflexivity|]. rewrite IHn. reflexivity. Qed.
  Lemma total_ext : forall n f g, (forall i, (i < n)%nat -> f i = g i) -> total n f = total n g.
  Proof. induction n as [|n IH]; intros f g H; cbn; [reflexivity|]. rewrite (IH f g), (H n) by (intros; try apply H; lia). reflexivity. Qed.
  Lemma total_zero : forall n f, (forall i, (i < n)%nat -> f i = 0) -> total n f = 0.
  Proof. intros n f H. rewrite (total_ext n f (fun _ => 0) H). clear H f. induction n; cbn; [reflexivity|]. rewrite IHn. ring. Qed.
  Lemma total_add : forall n f g, total n (fun i => f i + g i) = total n f + total n g.
  Proof. induction n; intros; cbn; [ring|]. rewrite IHn. ring. Qed.
  Lemma total_sub : forall n f g, total n (fun i => f i - g i) = total n f - total n g.
  Proof. induction n; intros; cbn; [ring|]. rewrite IHn. ring. Qed.
  Lemma total_scale : forall n a f, total n (fun i => a * f i) = a * total n f.
  Proof. induction n; intros; cbn; [ring|]. rewrite IHn. ring. Qed.
  Lemma total_scale_r : forall n a f, total n (fun i => f i * a) = total n f * a.
  Proof. induction n; intros; cbn; [ring|]. rewrite IHn. ring. Qed.
  Lemma total_swap : forall n m (f : mat), total n (fun i => total m (fun j => f i j)) = total m (fun j => total n (fun i => f i j)).
  Proof.
    induction n as [|n IH]; intros m f; cbn; [symmetry; apply total_zero; reflexivity|].
    rewrite IH, <- total_add. reflexivity.
  Qed.
  Lemma total_one : forall n j f, (j < n)%nat -> (forall i, (i < n)%nat -> i <> j -> f i = 0) -> total n f = f j.
  Proof.
    induction n as [|n IH]; intros j f Hj H; [lia|]. cbn. destruct (Nat.eq_dec j n) as [->|Hne].
    - rewrite total_zero by (intros; apply H; lia). ring.
    - rewrite (IH j) by (try lia; intros; apply H; lia). rewrite (H n) by lia. ring.
  Qed.
  Lemma total_split : forall m n f, total (n + m) f = total m f + total n (fun i => f (m + i)%nat).
  Proof.
    intros m n f. induction n as [|n IH]; cbn; [ring|]. rewrite IH, (Nat.add_comm n m). ring.
  Qed.

  (** triangular systems have one solution *)
  Lemma lower_zero : forall n (M : mat) v, regular_lower K n M ->
    (forall i, (i < n)%nat -> total n (fun j => M i j * v j) = 0) -> forall i, (i < n)%nat -> v i = 0.
  Proof.
    intros n M v [Hl Hd] H. apply (well_founded_induction lt_wf (fun i => (i < n)%nat -> v i = 0)).
    intros i IH Hi. specialize (H i Hi).
    rewrite (total_one n i) in H; [|exact Hi|].
    - specialize (Hd i Hi). transitivity ((M i i * v i) / M i i); [field; exact Hd|]. rewrite H. field; exact Hd.
    - intros j Hj Hne. destruct (Nat.lt_ge_cases i j); [rewrite Hl by assumption; ring|].
      rewrite IH by lia. ring.
  Qed.
  Lemma upper_zero : forall n (M : mat) v, regular_upper K n M ->
    (forall i, (i < n)%nat -> total n (fun j => M i j * v j) = 0) -> forall i, (i < n)%nat -> v i = 0.
  Proof.
    intros n M v [Hl Hd] H.
    assert (A : forall k i, (n - i <= k)%nat -> (i < n)%nat -> v i = 0).
    { induction k as [|k IH]; intros i Hk Hi; [lia|].
      specialize (H i Hi). rewrite (total_one n i) in H; [|exact Hi|].
      - specialize (Hd i Hi). cbn in Hd. transitivity ((M i i * v i) / M i i); [field; exact Hd|]. rewrite H. field; exact Hd.
      - intros j Hj Hne. destruct (Nat.lt_ge_cases j i); [rewrite (Hl j i) by assumption; ring|].
        rewrite (IH j) by lia. ring. }
    intros i Hi. apply (A n i); lia.
  Qed.
  Lemma lower_unique : forall n (M : mat) v w, regular_lower K n M ->
    (forall i, (i < n)%nat -> total n (fun j => M i j * v j) = total n (fun j => M i j * w j)) ->
    forall i, (i < n)%nat -> v i = w i.
  Proof.
    intros n M v w HM H i Hi.
    assert (E : v i - w i = 0).
    { apply (lower_zero n M (fun i => v i - w i) HM); [|exact Hi].
      intros k Hk. rewrite (total_ext n _ (fun j => M k j * v j - M k j * w j)) by (intros; ring).
      rewrite total_sub, H by exact Hk. ring. }
    transitivity (v i - w i + w i); [ring|]. rewrite E. ring.
  Qed.
  Lemma factor_upper : forall n R C, factor K n R C -> regular_upper K n (fun i j => C j i).
  Proof. intros n R C [H _]. exact H. Qed.

  (** distances and covariances *)
  Lemma abs_sq : forall x, nabs K x * nabs K x = x * x.
  Proof. intros x. destruct (gn_abs K KG x) as [-> | ->]; ring. Qed.
  Lemma corr_kernel : forall th d a b, theta_ok K th d = true ->
    corr K th d (dist K a b) = kernel K th d a b.
  Proof.
    intros th d a b Ht. unfold corr, kernel, theta_ok in *. destruct (length th =? 1)%nat eqn:E.
    - apply Nat.eqb_eq in E. destruct th as [|t [|u th]]; cbn in E; try discriminate. cbn [nth weight].
      do 2 f_equal. rewrite sum_total, <- total_scale. apply total_ext. intros k _. unfold dist, gap. rewrite abs_sq. reflexivity.
    - do 2 f_equal. rewrite sum_total. apply total_ext. intros k Hk. unfold dist, gap. rewrite abs_sq. f_equal.
      destruct th as [|t [|u th]]; try reflexivity. discriminate.
  Qed.
  Lemma corr_sym : forall th d a b, kernel K th d a b = kernel K th d b a.
  Proof. intros. unfold kernel. do 2 f_equal. apply total_ext. intros k _. unfold gap. ring. Qed.
  Lemma kernel_self : forall th d a, kernel K th d a a = 1.
  Proof.
    intros. unfold kernel. rewrite total_zero; [|intros; unfold gap; ring].
    replace (- 0) with 0 by ring. apply gn_exp. exact KG.
  Qed.
  Lemma build_R_cov : forall nu n d th X i j, theta_ok K th d = true -> (i < n)%nat -> (j < n)%nat ->
    build_R K nu n d th X i j = cov K nu th d X i j.
  Proof.
    intros nu n d th X i j Ht Hi Hj. unfold build_R, cov, squareform. destruct (i =? j)%nat eqn:E; [ring|].
    apply Nat.eqb_neq in E.
    assert (G : forall a b, (a < b)%nat -> (b < n)%nat ->
      nth (Nat.div2 (a * (2 * n - a - 1)) + (b - a - 1)) (map (corr K th d) (self_dists K n X)) 0
      = kernel K th d (X a) (X b)).
    { intros a b Hab Hb. unfold self_dists. rewrite flat_map_concat_map, concat_map, map_map, <- flat_map_concat_map.
      rewrite (flat_map_ext _ (fun k => map (fun l => kernel K th d (X k) (X l)) (seq (S k) (n - k - 1)))).
      - rewrite <- (nth_triangle K (fun k l => kernel K th d (X k) (X l)) 0 n a b (n - 1) 0) by lia.
        f_equal. cbn. lia.
      - intros k. rewrite map_map. apply map_ext. intros l. apply corr_kernel. exact Ht. }
    replace (0 + _) with (nth (Nat.div2 (Nat.min i j * (2 * n - Nat.min i j - 1)) + (Nat.max i j - Nat.min i j - 1))
      (map (corr K th d) (self_dists K n X)) 0) by ring.
    rewrite G by lia. destruct (Nat.lt_ge_cases i j).
    - rewrite Nat.min_l, Nat.max_r by lia. reflexivity.
    - rewrite Nat.min_r, Nat.max_l by lia. apply corr_sym.
  Qed.
  Lemma r_of_kernel : forall d ne xs l a j, theta_ok K (l_theta K l) d = true -> (a < ne)%nat -> (j < s_n K (l_data K l))%nat ->
    r_of K d ne xs l a j = kernel K (l_theta K l) d (xs a) (s_X K (l_data K l) j).
  Proof.
    intros d ne xs l a j Ht Ha Hj. unfold r_of, cross_dists.
    rewrite flat_map_concat_map, concat_map, map_map, <- flat_map_concat_map.
    rewrite (flat_map_ext _ (fun k => map (fun l' => kernel K (l_theta K l) d (xs k) (s_X K (l_data K l) l')) (seq 0 (s_n K (l_data K l))))).
    - apply (nth_flat_rows K (fun k l' => kernel K (l_theta K l) d (xs k) (s_X K (l_data K l) l'))); assumption.
    - intros k. rewrite map_map. apply map_ext. intros l'. apply corr_kernel. exact Ht.
  Qed.

  (** regressions *)
  Lemma row_length : forall d r x, length (row K d r x) = cols K d r.
  Proof. intros d [| |p f] x; cbn; rewrite ?map_length, ?seq_length; reflexivity. Qed.
  Lemma row_nth : forall d r x c, (c < cols K d r)%nat -> nth c (row K d r x) 0 = regr_at K r x c.
  Proof.
    intros d [| |p f] x c Hc; cbn in *.
    - destruct c; [reflexivity|lia].
    - destruct c as [|c]; [reflexivity|].
      rewrite (nth_indep _ 0 (nth 0 x 0)) by (rewrite map_length, seq_length; lia).
      rewrite map_nth with (d := O) (f := fun k => nth k x 0). rewrite seq_nth by lia. reflexivity.
    - rewrite (nth_indep _ 0 (f x O)) by (rewrite map_length, seq_length; lia).
      rewrite map_nth with (d := O). rewrite seq_nth by lia. reflexivity.
  Qed.
  Definition qcols (d : nat) (rho : regression K) (prev : option (data K)) : nat :=
    match prev with None => O | Some _ => cols K d rho end.
  Lemma trend_row_nth : forall d regr rho below x c,
    nth c (trend_row K d regr rho below x) 0 =
    match below with
    | None => nth c (row K d regr x) 0
    | Some v => if (c <? cols K d rho)%nat then nth c (row K d rho x) 0 * v else nth (c - cols K d rho) (row K d regr x) 0
    end.
  Proof.
    intros d regr rho [v|] x c; unfold trend_row; [|reflexivity].
    destruct (c <? cols K d rho)%nat eqn:E.
    - apply Nat.ltb_lt in E. rewrite app_nth1 by (rewrite map_length, row_length; exact E).
      rewrite (nth_indep _ 0 (0 * v)) by (rewrite map_length, row_length; exact E).
      rewrite map_nth with (f := fun g => g * v). reflexivity.
    - apply Nat.ltb_ge in E. rewrite app_nth2 by (rewrite map_length, row_length; exact E).
      rewrite map_length, row_length. reflexivity.
  Qed.
  Lemma F_of_design : forall d regr rho prev s i c, (c < cols K d regr + qcols d rho prev)%nat ->
    F_of K d regr rho prev s i c = design K d regr rho prev s i c.
  Proof.
    intros d regr rho prev s i c Hc. unfold F_of, design. rewrite trend_row_nth. unfold value_below, qcols in *.
    destruct prev as [t|].
    - destruct (c <? cols K d rho)%nat eqn:E.
      + rewrite row_nth by (apply Nat.ltb_lt; exact E). reflexivity.
      + apply Nat.ltb_ge in E. rewrite row_nth by lia. reflexivity.
    - rewrite row_nth by lia. reflexivity.
  Qed.

  (** ** Substitution, for the examples *)
  Fixpoint forward (M : mat) (b : vec) (n : nat) : list K :=
    match n with
    | O => []
    | S m => let l := forward M b m in l ++ [(b m - total m (fun j => M m j * nth j l 0)) / M m m]
    end.
  Definition forward_sol (n : nat) (M : mat) (b : vec) : vec := let l := forward M b n in fun i => nth i l 0.
  Definition backward_sol (n : nat) (M : mat) (b : vec) : vec :=
    let x := forward_sol n (fun i j => M (n - 1 - i) (n - 1 - j))%nat (fun i => b (n - 1 - i)%nat) in
    fun i => x (n - 1 - i)%nat.
  Lemma forward_length : forall M b n, length (forward M b n) = n.
  Proof. intros M b n. induction n as [|n IH]; [reflexivity|]. cbn. rewrite app_length, IH. cbn. lia. Qed.
  Lemma forward_prefix : forall M b n m j, (j < m)%nat -> (m <= n)%nat -> nth j (forward M b n) 0 = nth j (forward M b m) 0.
  Proof.
    intros M b n m j Hj Hm. induction n as [|n IH]; [lia|]. destruct (Nat.eq_dec m (S n)) as [->|Hne]; [reflexivity|].
    cbn [forward]. rewrite app_nth1 by (rewrite forward_length; lia). apply IH. lia.
  Qed.
  Lemma forward_ok : forall n M b, regular_lower K n M -> solves K n M (forward_sol n M b) b.
  Proof.
    intros n M b [Hl Hd] i Hi. unfold forward_sol.
    assert (E : nth i (forward M b n) 0 = (b i - total i (fun j => M i j * nth j (forward M b n) 0)) / M i i).
    { rewrite (forward_prefix M b n (S i) i) by lia. cbn [forward].
      rewrite app_nth2 by (rewrite forward_length; lia). rewrite forward_length, Nat.sub_diag. cbn [nth]. do 2 f_equal.
      apply total_ext. intros j Hj. f_equal. symmetry. apply (forward_prefix M b n i j); lia. }
    replace n with (n - S i + S i)%nat at 1 by lia. rewrite total_split. cbn [CokSpec.total]. rewrite E at 1.
    rewrite (total_zero (n - S i)); [field; apply Hd; exact Hi|].
    intros k Hk. rewrite Hl by lia. ring.
  Qed.
  Lemma total_rev : forall n f, total n (fun i => f (n - 1 - i)%nat) = total n f.
  Proof.
    induction n as [|n IH]; intros f; [reflexivity|].
    replace (S n) with (n + 1)%nat by lia. rewrite (total_split 1 n (fun i => f (n + 1 - 1 - i)%nat)).
    replace (n + 1)%nat with (S n) by lia. cbn [CokSpec.total].
    rewrite (total_ext n _ (fun i => f (n - 1 - i)%nat)) by (intros; f_equal; lia). rewrite IH.
    replace (S n - 1 - 0)%nat with n by lia. ring.
  Qed.
  Lemma backward_ok : forall n M b, regular_upper K n M -> solves K n M (backward_sol n M b) b.
  Proof.
    intros n M b [Hl Hd] i Hi. unfold backward_sol.
    assert (H := forward_ok n (fun i j => M (n - 1 - i) (n - 1 - j))%nat (fun i => b (n - 1 - i)%nat)).
    assert (R : regular_lower K n (fun i j => M (n - 1 - i) (n - 1 - j))%nat).
    { split; [intros a c Ha Hc Hac; apply (Hl (n - 1 - c) (n - 1 - a))%nat; lia|intros a Ha; apply (Hd (n - 1 - a)%nat); lia]. }
    specialize (H R (n - 1 - i)%nat ltac:(lia)). cbv beta in H.
    replace (n - 1 - (n - 1 - i))%nat with i in H by lia. rewrite <- H.
    rewrite <- total_rev. apply total_ext. intros k Hk. f_equal. f_equal. lia.
  Qed.
  (** the first of some candidates that is a Cholesky factor *)
  Definition all_below (n : nat) (f : nat -> bool) : bool := forallb f (seq 0 n).
  Definition factor_b (n : nat) (R C : mat) : bool :=
    all_below n (fun i => negb (nzero K (C i i))
      && all_below n (fun j => (negb (i <? j)%nat || nzero K (C i j))
                               && nzero K (total n (fun k => C i k * C j k) - R i j))).
  Lemma all_below_spec : forall n f, all_below n f = true <-> forall i, (i < n)%nat -> f i = true.
  Proof.
    intros n f. unfold all_below. rewrite forallb_forall. split; intros H i Hi.
    - apply H, in_seq. lia. - apply H. apply in_seq in Hi. lia.
  Qed.
  Lemma factor_b_ok : forall n R C, factor_b n R C = true -> factor K n R C.
  Proof.
    intros n R C H. unfold factor_b in H. rewrite all_below_spec in H.
    assert (A : forall i, (i < n)%nat -> nzero K (C i i) = false
       /\ forall j, (j < n)%nat -> ((i < j)%nat -> C i j = 0) /\ total n (fun k => C i k * C j k) = R i j).
    { intros i Hi. specialize (H i Hi). apply andb_prop in H. destruct H as [H1 H2]. apply negb_true_iff in H1.
      split; [exact H1|]. intros j Hj. rewrite all_below_spec in H2. specialize (H2 j Hj). apply andb_prop in H2.
      destruct H2 as [H2 H3]. split.
      - intros Hij. apply Nat.ltb_lt in Hij. rewrite Hij in H2. cbn in H2. apply (gn_zero K KG). exact H2.
      - apply (gn_zero K KG) in H3. transitivity (total n (fun k => C i k * C j k) - R i j + R i j); [ring|]. rewrite H3. ring. }
    split; [split|].
    - intros i j Hi Hj Hij. apply (A i Hi); assumption.
    - intros i Hi E. destruct (A i Hi) as [B _]. apply (gn_zero K KG) in E. congruence.
    - intros i j Hi Hj. apply (A i Hi); assumption.
  Qed.
  Definition find_chol (cands : nat -> list mat) (n : nat) (R : mat) : option mat := find (factor_b n R) (cands n).
  Lemma find_ext : forall (A : Type) (f g : A -> bool) l, (forall x, f x = g x) -> find f l = find g l.
  Proof. intros A f g l H. induction l as [|x l IH]; cbn; [reflexivity|]. rewrite H, IH. reflexivity. Qed.
  Lemma all_below_ext : forall n f g, (forall i, (i < n)%nat -> f i = g i) -> all_below n f = all_below n g.
  Proof.
    intros n f g H. apply eq_true_iff_eq. rewrite !all_below_spec. split; intros A i Hi; specialize (A i Hi); rewrite H in * by exact Hi; exact A.
  Qed.
  Lemma example_lin_good : forall cands q v, good_lin K (mkLin K (find_chol cands) forward_sol backward_sol q v).
  Proof.
    intros cands q v. constructor; cbn [chol solL solU].
    - intros n R C H. apply find_some in H. apply factor_b_ok, H.
    - intros n R R' H. apply find_ext. intros C. unfold factor_b. apply all_below_ext. intros i Hi. f_equal.
      apply all_below_ext. intros j Hj. rewrite H by assumption. reflexivity.
    - intros. apply forward_ok. assumption.
    - intros. apply backward_ok. assumption.
  Qed.

  Section Level.
    Context (L : lin K) (LG : good_lin K L) (nu : K) (d : nat) (regr rho : regression K).

    (** what is known of a prepared level *)
    Definition prepared (prev : option (data K)) (l : level K) : Prop :=
      l_p K l = cols K d regr /\ l_q K l = qcols d rho prev /\ l_F K l = F_of K d regr rho prev (l_data K l).
    (** ... and of a fitted one, whose factors are those of its theta *)
    Definition stored (l : level K) (ft : fitted K) (th : list K) : Prop :=
      let s := l_data K l in let n := s_n K s in let c := (l_p K l + l_q K l)%nat in
      exists C, chol K L n (build_R K nu n d th (s_X K s)) = Some C /\ f_C K ft = C
        /\ (let M : mat := fun i j => solL K L n C (fun k => l_F K l k j) i in
            let (Q, G) := qr K L n c M in
            f_G K ft = G /\ f_beta K ft = solU K L c G (fun e => CokModel.sum K n (fun i => Q i e * solL K L n C (s_y K s) i))
            /\ f_s2 K ft = CokModel.sum K n (fun i =>
                 (solL K L n C (s_y K s) i - CokModel.sum K c (fun j => M i j * f_beta K ft j))
                 * (solL K L n C (s_y K s) i - CokModel.sum K c (fun j => M i j * f_beta K ft j)))
               / of_nat K (n - l_p K l - l_q K l)).

    Lemma rlf_stored : forall l th old ft inf, rlf K L nu d l th old = (Some ft, inf) ->
      chol K L (s_n K (l_data K l)) (build_R K nu (s_n K (l_data K l)) d th (s_X K (l_data K l))) <> None ->
      stored l ft th /\ inf = nzero K (f_s2 K ft).
    Proof.
      intros l th old ft inf H Hc. unfold rlf in H. unfold stored.
      destruct (chol K L _ _) as [C|] eqn:EC; [|congruence]. cbv zeta in *.
      destruct (qr K L (s_n K (l_data K l)) (l_p K l + l_q K l) (fun i j => solL K L (s_n K (l_data K l)) C (fun k => l_F K l k j) i)) as [Q G] eqn:E.
      injection H as H1 H2. subst ft inf. split; [|reflexivity].
      exists C. split; [reflexivity|]. split; [reflexivity|]. rewrite E. repeat split.
    Qed.
    Lemma rlf_some : forall l th old,
      chol K L (s_n K (l_data K l)) (build_R K nu (s_n K (l_data K l)) d th (s_X K (l_data K l))) <> None ->
      exists ft, rlf K L nu d l th old = (Some ft, nzero K (f_s2 K ft)).
    Proof.
      intros l th old Hc. unfold rlf. destruct (chol K L _ _) as [C|]; [|congruence].
      destruct (qr K L _ _ _) as [Q G]. match goal with |- exists ft, (Some ?f, _) = _ => exists f end. reflexivity.
    Qed.

    Lemma chol_cov : forall n th X, theta_ok K th d = true ->
      chol K L n (build_R K nu n d th X) = chol K L n (cov K nu th d X).
    Proof. intros. apply (gl_ext K L LG). intros. apply build_R_cov; assumption. Qed.

    (** prepare *)
    Lemma prepare_inv : forall single prev s l, prepare K d regr rho single prev s = Ok l ->
      l_data K l = s /\ prepared prev l /\ (1 < s_n K s)%nat /\ (l_p K l + l_q K l < s_n K s)%nat
      /\ (match prev with Some t => s_n K s <= s_n K t | None => True end)%nat
      /\ (forall i j, (i < j)%nat -> (j < s_n K s)%nat -> s_X K s i <> s_X K s j).
    Proof.
      intros single prev s l H. unfold prepare in H. cbv zeta in H.
      destruct (s_n K s <=? 1)%nat eqn:E1; [discriminate|].
      destruct (existsb _ _) eqn:E2; [discriminate|].
      destruct (match prev with Some t => (s_n K t <? s_n K s)%nat | None => false end) eqn:E3; [discriminate|].
      revert H. match goal with |- (if ?b then _ else _) = _ -> _ => destruct b eqn:E4 end; intros H; [discriminate|]. injection H as <-. cbn.
      apply Nat.leb_gt in E1, E4. unfold prepared. cbn.
      split; [reflexivity|]. split; [repeat split|]. split; [exact E1|]. split; [exact E4|]. split.
      - destruct prev; [apply Nat.ltb_ge in E3; exact E3|exact I].
      - intros i j Hij Hj Heq.
        assert (T : existsb (fun D => nzero K (CokModel.sum K d D)) (self_dists K (s_n K s) (s_X K s)) = true).
        { apply existsb_exists. exists (dist K (s_X K s i) (s_X K s j)). split.
          - unfold self_dists. apply in_flat_map. exists i. split; [apply in_seq; lia|].
            apply (in_map (fun l => dist K (s_X K s i) (s_X K s l))). apply in_seq. lia.
          - apply (gn_zero K KG). rewrite sum_total. apply total_zero. intros k _. unfold dist. rewrite Heq.
            destruct (gn_abs K KG (nth k (s_X K s j) 0 - nth k (s_X K s j) 0)) as [-> | ->]; ring. }
        congruence.
    Qed.

    (** the prediction of one level at one of its training points *)
    Lemma total_C : forall n (C : mat) R g w, factor K n R C ->
      (forall i, (i < n)%nat -> total n (fun k => C k i * g k) = w i) ->
      forall i, (i < n)%nat -> total n (fun k => R i k * g k) = total n (fun k => C i k * w k).
    Proof.
      intros n C R g w [_ HF] Hg i Hi.
      rewrite (total_ext n _ (fun k => total n (fun e => C i e * (C k e * g k)))).
      - rewrite total_swap. apply total_ext. intros e He. rewrite total_scale. rewrite Hg by exact He. reflexivity.
      - intros k Hk. rewrite <- HF by assumption. rewrite <- total_scale_r. apply total_ext. intros. ring.
    Qed.

    Section One.
      Context (l : level K) (ft : fitted K) (prev : option (data K)) (ne : nat) (xs : nat -> point) (a j : nat).
      Let s := l_data K l.
      Let n := s_n K s.
      Let c := (l_p K l + l_q K l)%nat.
      Let C := f_C K ft.
      Let R : mat := cov K nu (l_theta K l) d (s_X K s).
      Hypothesis HP : prepared prev l.
      Hypothesis Hth : theta_ok K (l_theta K l) d = true.
      Hypothesis HC : factor K n R C.
      Hypothesis Ha : (a < ne)%nat.
      Hypothesis Hj : (j < n)%nat.
      Hypothesis Hx : xs a = s_X K s j.

      Let Ft : mat := fun i e => solL K L n C (fun k => l_F K l k e) i.
      Let yt : vec := solL K L n C (s_y K s).
      Let w : vec := fun i => yt i - CokModel.sum K c (fun e => Ft i e * f_beta K ft e).
      Let g : vec := solU K L n (fun i e => C e i) w.

      Lemma C_w : forall i, (i < n)%nat ->
        total n (fun k => C i k * w k) = s_y K s i - total c (fun e => design K d regr rho prev s i e * f_beta K ft e).
      Proof.
        intros i Hi. unfold w.
        rewrite (total_ext n _ (fun k => C i k * yt k - total c (fun e => C i k * Ft k e * f_beta K ft e))).
        - rewrite total_sub. f_equal.
          + apply (gl_solL K L LG n C (s_y K s)); [apply HC|exact Hi].
          + rewrite total_swap. apply total_ext. intros e He. rewrite total_scale_r. f_equal.
            unfold Ft. rewrite (gl_solL K L LG n C (fun k => l_F K l k e)); [|apply HC|exact Hi].
            destruct HP as [Hp [Hq ->]]. apply F_of_design. unfold c in He. rewrite <- Hp, <- Hq. exact He.
        - intros k Hk. rewrite sum_total.
          rewrite (total_ext c (fun e => C i k * Ft k e * f_beta K ft e) (fun e => C i k * (Ft k e * f_beta K ft e))) by (intros; ring).
          rewrite total_scale. ring.
      Qed.
      Lemma g_spec : forall i, (i < n)%nat -> total n (fun k => C k i * g k) = w i.
      Proof.
        intros i Hi. apply (gl_solU K L LG n (fun i e => C e i) w); [|exact Hi]. apply (factor_upper n R C HC).
      Qed.
      Lemma g_weights : residual_weights K nu d regr rho prev l (f_beta K ft) g.
      Proof.
        intros i Hi. fold s n c R. rewrite (total_C n C R g w HC g_spec i Hi). apply C_w. exact Hi.
      Qed.
      Lemma r_R : forall i, (i < n)%nat -> r_of K d ne xs l a i = R j i - (if (j =? i)%nat then nu else 0).
      Proof.
        intros i Hi. rewrite r_of_kernel by assumption. rewrite Hx. unfold R, cov. fold s.
        destruct (Nat.eqb_spec j i) as [->|Hne]; [rewrite kernel_self; ring|ring].
      Qed.
      Lemma r_g : total n (fun i => r_of K d ne xs l a i * g i)
        = s_y K s j - total c (fun e => design K d regr rho prev s j e * f_beta K ft e) - nu * g j.
      Proof.
        rewrite (total_ext n _ (fun i => R j i * g i - (if (j =? i)%nat then nu else 0) * g i))
          by (intros i Hi; rewrite r_R by exact Hi; ring).
        rewrite total_sub. f_equal; [exact (g_weights j Hj)|].
        rewrite (total_one n j); [rewrite Nat.eqb_refl; reflexivity|exact Hj|].
        intros i Hi Hne. destruct (Nat.eqb_spec j i); [congruence|ring].
      Qed.
      Let rt : vec := solL K L n C (r_of K d ne xs l a).
      Lemma rt_w : total n (fun i => rt i * w i) = total n (fun i => r_of K d ne xs l a i * g i).
      Proof.
        rewrite (total_ext n _ (fun i => total n (fun k => g k * (C k i * rt i)))).
        - rewrite total_swap. apply total_ext. intros k Hk. rewrite total_scale.
          unfold rt at 1. rewrite (gl_solL K L LG n C); [|apply HC|exact Hk]. ring.
        - intros i Hi. rewrite <- g_spec by exact Hi. rewrite <- total_scale. apply total_ext. intros. ring.
      Qed.

      (** without a nugget *)
      Hypothesis Hnu : nu = 0.
      Lemma rt_C : forall i, (i < n)%nat -> rt i = C j i.
      Proof.
        apply (lower_unique n C); [apply HC|]. intros i Hi.
        unfold rt. rewrite (gl_solL K L LG n C); [|apply HC|exact Hi].
        rewrite r_R by exact Hi. destruct HC as [_ HF].
        rewrite (total_ext n _ (fun k => C j k * C i k)) by (intros; ring).
        rewrite HF by assumption. rewrite Hnu. destruct (j =? i)%nat; ring.
      Qed.
      Lemma rt_sq : total n (fun i => rt i * rt i) = 1.
      Proof.
        rewrite (total_ext n _ (fun k => C j k * C j k)) by (intros; rewrite rt_C by assumption; reflexivity).
        destruct HC as [_ HF]. rewrite HF by assumption. unfold R, cov. rewrite Nat.eqb_refl, Hnu. ring.
      Qed.
      Lemma Ft_rt : forall e, (e < c)%nat -> total n (fun i => Ft i e * rt i) = design K d regr rho prev s j e.
      Proof.
        intros e He. rewrite (total_ext n _ (fun k => C j k * Ft k e)) by (intros; rewrite rt_C by assumption; ring).
        unfold Ft. rewrite (gl_solL K L LG n C (fun k => l_F K l k e)); [|apply HC|exact Hj].
        destruct HP as [Hp [Hq ->]]. apply F_of_design. unfold c in He. rewrite <- Hp, <- Hq. exact He.
      Qed.
    End One.

    (** ** Fitted levels *)
    Lemma stored_factor : forall l ft, theta_ok K (l_theta K l) d = true -> stored l ft (l_theta K l) ->
      factor K (s_n K (l_data K l)) (cov K nu (l_theta K l) d (s_X K (l_data K l))) (f_C K ft).
    Proof.
      intros l ft Ht [C [HC [-> _]]]. rewrite chol_cov in HC by exact Ht. apply (gl_chol K L LG). exact HC.
    Qed.
    Definition distinct (s : data K) : Prop := forall i j, (i < s_n K s)%nat -> (j < s_n K s)%nat -> s_X K s i = s_X K s j -> i = j.
    Fixpoint good_levels (prev : option (data K)) (ls : list (level K)) : Prop :=
      match ls with
      | [] => True
      | l :: r => prepared prev l /\ theta_ok K (l_theta K l) d = true
                  /\ (exists ft, l_fit K l = Some ft /\ stored l ft (l_theta K l))
                  /\ distinct (l_data K l) /\ good_levels (Some (l_data K l)) r
      end.

    Definition G_ok (l : level K) : Prop :=
      forall ft, l_fit K l = Some ft -> regular_upper K (l_p K l + l_q K l) (f_G K ft).
    (** what is known of the level below at the point *)
    Definition below_ok (x : point) (a : nat) (prev : option (data K)) (below : option (vec * vec)) (e0 : option K) : Prop :=
      match prev, below, e0 with
      | None, None, None => True
      | Some t, Some (mu, mse), Some e =>
          exists j, (j < s_n K t)%nat /\ s_X K t j = x /\ distinct t /\ mu a = s_y K t j + e
      | _, _, _ => False
      end.
    Definition exact_below (a : nat) (below : option (vec * vec)) (e0 : option K) : Prop :=
      match below, e0 with Some (_, mse), Some e => e = 0 /\ mse a = 0 | _, _ => True end.
    Definition nested1 (prev : option (data K)) (s : data K) : Prop :=
      match prev with
      | None => True
      | Some t => (s_n K s <= s_n K t)%nat
                  /\ forall i, (i < s_n K s)%nat -> s_X K s i = s_X K t (s_n K t - s_n K s + i)%nat
      end.

    Lemma solL_zero : forall n (M : mat) b, regular_lower K n M -> (forall i, (i < n)%nat -> b i = 0) ->
      forall i, (i < n)%nat -> solL K L n M b i = 0.
    Proof.
      intros n M b HM Hb. apply (lower_zero n M); [exact HM|]. intros i Hi.
      rewrite (gl_solL K L LG n M b HM i Hi). apply Hb. exact Hi.
    Qed.

    Lemma predict_step : forall ne xs a x prev below e0 l ft j,
      (a < ne)%nat -> xs a = x ->
      prepared prev l -> theta_ok K (l_theta K l) d = true ->
      l_fit K l = Some ft -> stored l ft (l_theta K l) ->
      nested1 prev (l_data K l) -> below_ok x a prev below e0 ->
      (j < s_n K (l_data K l))%nat -> s_X K (l_data K l) j = x ->
      exists mu mse g, predict_level K L d regr rho ne xs below l = Ok (mu, mse)
        /\ residual_weights K nu d regr rho prev l (f_beta K ft) g
        /\ mu a = s_y K (l_data K l) j +
             (match e0 with
              | None => 0
              | Some e0 => total (length (row K d rho x)) (fun c => nth c (row K d rho x) 0 * f_beta K ft c) * e0
              end - nu * g j)
        /\ (nu = 0 -> G_ok l -> exact_below a below e0 -> mse a = 0).
    Proof.
      intros ne xs a x prev below e0 l ft j Ha Hxs HP Ht Hfit HS Hnest Hb Hj Hx.
      assert (HF := stored_factor l ft Ht HS).
      assert (Hx' : xs a = s_X K (l_data K l) j) by congruence.
      assert (W := g_weights l ft prev HP HF).
      assert (RG := r_g l ft prev ne xs a j HP Ht HF Ha Hj Hx').
      assert (RW := rt_w l ft ne xs a HF).
      unfold predict_level. rewrite Hfit. change (CokModel.sum K) with (CokSpec.total K) in *.
      destruct prev as [t|], below as [[mu0 mse0]|], e0 as [e0|]; cbn in Hb; try contradiction.
      - (* a level above *)
        destruct Hb as [jt [Hjt [Hxt [Hd Hmu]]]]. destruct Hnest as [Hle Hn].
        assert (Ej : jt = (s_n K t - s_n K (l_data K l) + j)%nat).
        { apply Hd; [lia|lia|]. rewrite <- Hn by exact Hj. congruence. }
        destruct HP as [Hp [Hq HFe]] eqn:HPe. clear HPe. assert (HP' : prepared (Some t) l) by (repeat split; assumption).
        assert (Des : forall e, (e < l_p K l + l_q K l)%nat ->
          (if (e <? l_q K l)%nat then regr_at K rho (xs a) e * mu0 a else regr_at K regr (xs a) (e - l_q K l))
          = design K d regr rho (Some t) (l_data K l) j e
            + (if (e <? l_q K l)%nat then nth e (row K d rho x) 0 * e0 else 0)).
        { intros e He. unfold design. rewrite trend_row_nth. cbn [value_below]. unfold qcols in Hq.
          rewrite <- Hq, Hx, Hxs, Hmu, <- Ej.
          destruct (e <? l_q K l)%nat eqn:E.
          - apply Nat.ltb_lt in E. rewrite row_nth by lia. ring.
          - apply Nat.ltb_ge in E. rewrite row_nth by lia. ring. }
        do 3 eexists. split; [reflexivity|]. split; [exact W|]. split.
        + rewrite RW, RG.
          rewrite (total_ext (l_p K l + l_q K l) _ (fun e => design K d regr rho (Some t) (l_data K l) j e * f_beta K ft e
             + (if (e <? l_q K l)%nat then nth e (row K d rho x) 0 * e0 else 0) * f_beta K ft e)).
          2:{ intros e He. rewrite Des by exact He. ring. }
          rewrite total_add.
          rewrite (total_split (l_q K l) (l_p K l) (fun e => (if (e <? l_q K l)%nat then nth e (row K d rho x) 0 * e0 else 0) * f_beta K ft e)).
          rewrite (total_zero (l_p K l)).
          2:{ intros i _. replace (l_q K l + i <? l_q K l)%nat with false by (symmetry; apply Nat.ltb_ge; lia). ring. }
          rewrite row_length. unfold qcols in Hq. rewrite <- Hq.
          rewrite (total_ext (l_q K l) _ (fun e => nth e (row K d rho x) 0 * f_beta K ft e * e0)).
          2:{ intros e He. apply Nat.ltb_lt in He. rewrite He. ring. }
          rewrite total_scale_r. ring.
        + intros Hnu HG [He0 Hm0].
          assert (SQ := rt_sq l ft ne xs a j Ht HF Ha Hj Hx' Hnu). change (CokModel.sum K) with (CokSpec.total K) in *.
          assert (FR := Ft_rt l ft (Some t) ne xs a j HP' Ht HF Ha Hj Hx' Hnu). change (CokModel.sum K) with (CokSpec.total K) in *.
          rewrite Hm0, SQ.
          rewrite (total_zero (l_p K l + l_q K l) (fun j0 => _ * _)); [ring|].
          intros e He. rewrite (solL_zero _ _ _ (HG ft Hfit)) by
            (first [exact He | intros i Hi; rewrite FR by exact Hi; rewrite Des by exact Hi;
             rewrite He0; destruct (i <? l_q K l)%nat; ring]). ring.
      - (* the lowest level *)
        destruct HP as [Hp [Hq HFe]] eqn:HPe. clear HPe. assert (HP' : prepared None l) by (repeat split; assumption).
        cbn [qcols] in Hq. rewrite Hq, Nat.add_0_r in W, RG.
        assert (Des : forall e, (e < l_p K l)%nat -> regr_at K regr (xs a) e = design K d regr rho None (l_data K l) j e).
        { intros e He. unfold design. rewrite trend_row_nth. cbn [value_below]. rewrite Hx, Hxs, row_nth by lia. reflexivity. }
        do 3 eexists. split; [reflexivity|]. split; [exact W|]. split.
        + rewrite (total_ext _ (fun i => r_of K d ne xs l a i * _) (fun i => r_of K d ne xs l a i * _)) by (intros; reflexivity).
          rewrite RG.
          rewrite (total_ext (l_p K l) (fun j0 => regr_at K regr (xs a) j0 * _) (fun e => design K d regr rho None (l_data K l) j e * f_beta K ft e)).
          2:{ intros e He. rewrite Des by lia. reflexivity. }
          ring.
        + intros Hnu HG _.
          assert (SQ := rt_sq l ft ne xs a j Ht HF Ha Hj Hx' Hnu). change (CokModel.sum K) with (CokSpec.total K) in *.
          assert (FR := Ft_rt l ft None ne xs a j HP' Ht HF Ha Hj Hx' Hnu). change (CokModel.sum K) with (CokSpec.total K) in *.
          rewrite SQ.
          rewrite (total_zero (l_p K l) (fun j0 => _ * _)); [ring|].
          intros e He. rewrite (solL_zero (l_p K l)); [ring| |intros i Hi; rewrite FR by lia; rewrite Des by exact Hi; ring|exact He].
          specialize (HG ft Hfit). rewrite Hq, Nat.add_0_r in HG. exact HG.
    Qed.

    Lemma nested_cons : forall prev s r, nested K prev (s :: r) <-> nested1 prev s /\ nested K (Some s) r.
    Proof. intros [t|] s r; cbn; tauto. Qed.
    Lemma nested_in : forall x ss prev s j, nested K prev ss -> last (map Some ss) prev = Some s ->
      (j < s_n K s)%nat -> s_X K s j = x ->
      (forall t, In t ss -> exists i, (i < s_n K t)%nat /\ s_X K t i = x)
      /\ (forall t, prev = Some t -> exists i, (i < s_n K t)%nat /\ s_X K t i = x).
    Proof.
      intros x ss. induction ss as [|s0 ss IH]; intros prev s j Hn Hl Hj Hx.
      - cbn in Hl. split; [intros t []|]. intros t ->. injection Hl as ->. eauto.
      - apply nested_cons in Hn. destruct Hn as [H1 Hn].
        assert (Hl' : last (map Some ss) (Some s0) = Some s) by (cbn [map] in Hl; rewrite last_cons_default in Hl; exact Hl).
        destruct (IH (Some s0) s j Hn Hl' Hj Hx) as [A B]. destruct (B s0 eq_refl) as [i [Hi Hxi]]. split.
        + intros t [<-|Ht]; [eauto|apply A; exact Ht].
        + intros t ->. destruct H1 as [Hle H1]. exists (s_n K t - s_n K s0 + i)%nat. split; [lia|].
          rewrite <- H1 by exact Hi. exact Hxi.
    Qed.

    Lemma predict_levels_off : forall ne xs a x, (a < ne)%nat -> xs a = x ->
      forall ls prev below e0, good_levels prev ls -> nested K prev (map (l_data K) ls) ->
      (forall l, In l ls -> exists j, (j < s_n K (l_data K l))%nat /\ s_X K (l_data K l) j = x) ->
      below_ok x a prev below e0 -> (ls = [] -> prev <> None) ->
      exists mu mse e, predict_levels K L d regr rho ne xs below ls = Ok (mu, mse)
        /\ off K nu d regr rho x prev e0 ls e
        /\ (exists s j, last (map Some (map (l_data K) ls)) prev = Some s /\ (j < s_n K s)%nat /\ s_X K s j = x
             /\ distinct s /\ mu a = s_y K s j + e)
        /\ (nu = 0 -> Forall G_ok ls -> exact_below a below e0 -> e = 0 /\ mse a = 0).
    Proof.
      intros ne xs a x Ha Hxs. induction ls as [|l ls IH]; intros prev below e0 Hg Hn Hin Hb Hne.
      - destruct prev as [t|]; [|elim (Hne eq_refl); reflexivity].
        destruct below as [[mu mse]|], e0 as [e|]; cbn in Hb; try contradiction.
        destruct Hb as [j [Hj [Hx [Hd Hmu]]]]. exists mu, mse, e. split; [reflexivity|].
        split; [constructor|]. split; [exists t, j; repeat split; assumption|]. intros _ _ H. exact H.
      - cbn [good_levels] in Hg. destruct Hg as [HP [Ht [[ft [Hfit HS]] [Hd Hg]]]].
        cbn [map] in Hn. apply nested_cons in Hn. destruct Hn as [H1 Hn].
        destruct (Hin l (or_introl eq_refl)) as [j [Hj Hx]].
        destruct (predict_step ne xs a x prev below e0 l ft j Ha Hxs HP Ht Hfit HS H1 Hb Hj Hx) as [mu [mse [g [Hp [Hw [Hmu Hm]]]]]].
        set (e1 := match e0 with None => 0 | Some e0 => total (length (row K d rho x)) (fun c => nth c (row K d rho x) 0 * f_beta K ft c) * e0 end - nu * g j) in *.
        destruct (IH (Some (l_data K l)) (Some (mu, mse)) (Some e1) Hg Hn) as [mu' [mse' [e [Hp' [Ho [Hl Hz]]]]]].
        + intros l' Hl'. apply Hin. right. exact Hl'.
        + cbn. exists j. repeat split; assumption.
        + discriminate.
        + exists mu', mse', e. cbn [predict_levels]. rewrite Hp. cbn [bind]. split; [exact Hp'|].
          split; [apply (off_level K nu d regr rho x prev e0 l ls ft g j e Hfit Hj Hx Hw Ho)|].
          split.
          * destruct Hl as [s [j' [Hl Hr]]]. exists s, j'. split; [|exact Hr]. cbn [map]. rewrite last_cons_default. exact Hl.
          * intros Hnu HG Hex. inversion HG as [|? ? HGl HGs]. apply Hz; [exact Hnu|exact HGs|].
            cbn. split; [|apply Hm; [exact Hnu|exact HGl|exact Hex]].
            unfold e1. rewrite Hnu. destruct prev as [t|], below as [[mu0 mse0]|], e0 as [e0|]; cbn in Hb; try contradiction.
            -- destruct Hex as [-> _]. ring.
            -- ring.
    Qed.

    (** ** What fit returns *)
    Definition same_level (l l' : level K) : Prop :=
      l_data K l' = l_data K l /\ l_p K l' = l_p K l /\ l_q K l' = l_q K l /\ l_F K l' = l_F K l.
    Lemma stored_same : forall l l' ft th, same_level l l' -> stored l ft th -> stored l' ft th.
    Proof. intros l l' ft th (E1 & E2 & E3 & E4) H. unfold stored in *. rewrite E1, E2, E3, E4. exact H. Qed.
    Definition settled1 (ch : choice K) : Prop :=
      match ch with Given _ _ => True | Optimized _ tried th _ => exists pre, tried = pre ++ [th] end.
    Lemma fit_level_inv : forall l ch l', fit_level K L nu d l ch = Ok l' ->
      same_level l l' /\ theta_ok K (l_theta K l') d = true
      /\ (match ch with Given _ th => l_theta K l' = th | Optimized _ _ th _ => l_theta K l' = th end)
      /\ (settled1 ch -> factored K L nu d l' -> exists ft, l_fit K l' = Some ft /\ stored l' ft (l_theta K l')).
    Proof.
      intros l ch l' H. unfold fit_level in H. destruct ch as [th|tried th inf].
      - destruct (theta_ok K th d) eqn:Et; [|discriminate].
        destruct (rlf K L nu d l th None) as [f inf] eqn:Er. destruct inf; [discriminate|]. injection H as <-. cbn.
        split; [repeat split|]. split; [exact Et|]. split; [reflexivity|]. intros _ Hf. unfold factored in Hf. cbn in Hf.
        rewrite <- chol_cov in Hf by exact Et.
        destruct (rlf_some l th None Hf) as [ft E]. rewrite E in Er. injection Er as <- _.
        exists ft. split; [reflexivity|]. apply (stored_same l); [repeat split|].
        apply (rlf_stored l th None ft _ E Hf).
      - destruct (forallb _ _) eqn:Et; [|discriminate]. destruct inf; [discriminate|]. injection H as <-. cbn.
        cbn [forallb] in Et. apply andb_prop in Et. destruct Et as [Et Etr].
        split; [repeat split|]. split; [exact Et|]. split; [reflexivity|]. intros [pre ->] Hf. unfold factored in Hf. cbn in Hf.
        rewrite <- chol_cov in Hf by exact Et. rewrite fold_left_app. cbn [fold_left].
        destruct (rlf_some l th (fold_left (fun o t => fst (rlf K L nu d l t o)) pre None) Hf) as [ft E].
        exists ft. rewrite E. split; [reflexivity|]. apply (stored_same l); [repeat split|].
        apply (rlf_stored l th _ ft _ E Hf).
    Qed.

    Lemma fit_all_inv : forall single ss prev chs ls ls',
      prepare_all K d regr rho single prev ss = Ok ls -> fit_all K L nu d ls chs = Ok ls' ->
      map (l_data K) ls' = ss
      /\ (Forall settled1 chs -> Forall (factored K L nu d) ls' -> good_levels prev ls')
      /\ (length chs = length ss -> map (l_theta K) ls' = map (fun ch => match ch with Given _ th => th | Optimized _ _ th _ => th end) chs)
      /\ Forall (fun s => (1 < s_n K s)%nat /\ distinct s) ss.
    Proof.
      intros single ss. induction ss as [|s ss IH]; intros prev chs ls ls' Hp Hf; cbn [prepare_all] in Hp.
      - injection Hp as <-. cbn in Hf. destruct chs; injection Hf as <-; repeat split; try constructor; discriminate.
      - destruct (prepare K d regr rho single prev s) as [l|] eqn:El; [|discriminate]. cbn [bind] in Hp.
        destruct (prepare_all K d regr rho single (Some s) ss) as [ls0|] eqn:Els; [|discriminate]. cbn [bind] in Hp. injection Hp as <-.
        destruct chs as [|ch chs]; [discriminate|]. cbn [fit_all] in Hf.
        destruct (fit_level K L nu d l ch) as [l'|] eqn:Ef; [|discriminate]. cbn [bind] in Hf.
        destruct (fit_all K L nu d ls0 chs) as [r|] eqn:Er; [|discriminate]. cbn [bind] in Hf. injection Hf as <-.
        destruct (IH (Some s) chs ls0 r Els Er) as [A [B [C D]]].
        destruct (prepare_inv single prev s l El) as [P1 [P2 [P3 [_ [_ P4]]]]].
        destruct (fit_level_inv l ch l' Ef) as [F1 [F2 [F3 F4]]]. destruct F1 as (G1 & G2 & G3 & G4).
        assert (Di : distinct s).
        { intros i j Hi Hj E. destruct (Nat.lt_trichotomy i j) as [H|[H|H]]; [|exact H|].
          - elim (P4 i j H Hj E). - elim (P4 j i H Hi). congruence. }
        split; [cbn; congruence|]. split; [|split].
        + intros Hs Hfac. inversion Hs as [|? ? Hs1 Hs2]; subst. inversion Hfac as [|? ? Hf1 Hf2]; subst.
          cbn [good_levels]. rewrite G1. split; [|split; [exact F2|split; [exact (F4 Hs1 Hf1)|split; [exact Di|]]]].
          * destruct P2 as (Q1 & Q2 & Q3). unfold prepared. rewrite G1, G2, G3, G4. repeat split; assumption.
          * apply B; assumption.
        + intros Hlen. cbn in Hlen |- *. rewrite C by lia. f_equal. destruct ch; exact F3.
        + constructor; [split; assumption|exact D].
    Qed.

    Lemma choices_settled : forall a n os rs, per_level K a n = Ok os -> settled K a n rs -> Forall settled1 (choices K os rs).
    Proof.
      intros a n os rs Hp H. unfold choices. apply Forall_forall. intros ch Hc. apply in_map_iff in Hc.
      destruct Hc as [[i o] [<- Hio]]. cbn [fst snd].
      assert (E : nth_error os i = Some o).
      { apply In_nth_error in Hio. destruct Hio as [k Hk].
        assert (G : forall (os : list (option (list K))) b k, nth_error (combine (seq b (length os)) os) k = Some (i, o) -> i = (b + k)%nat /\ nth_error os k = Some o).
        { clear. induction os as [|o' os IH]; intros b k Hk; [destruct k; discriminate|].
          cbn in Hk. destruct k; cbn in Hk; [injection Hk as <- <-; split; [lia|reflexivity]|].
          destruct (IH (S b) k Hk) as [-> E]. split; [lia|exact E]. }
        destruct (G os O k Hk) as [-> E]. exact E. }
      destruct o as [th|]; [exact I|]. unfold settled, asked in H.
      destruct a as [o|os0]; cbn in Hp.
      - injection Hp as <-. apply (H i).
        + rewrite <- (repeat_length o n). apply nth_error_Some. congruence.
        + apply nth_error_In in E. apply repeat_spec in E. congruence.
      - destruct (Nat.eqb_spec (length os0) n) as [El|]; [|discriminate]. injection Hp as <-. apply (H i).
        + rewrite <- El. apply nth_error_Some. congruence.
        + apply (nth_error_nth _ _ None) in E. exact E.
    Qed.
    Lemma choices_length : forall os rs, length (choices K os rs) = length os.
    Proof. intros. unfold choices. rewrite map_length, combine_length, seq_length. lia. Qed.
    Lemma per_level_length : forall a n os, per_level K a n = Ok os -> length os = n.
    Proof.
      intros [o|os0] n os H; cbn in H; [injection H as <-; apply repeat_length|].
      destruct (Nat.eqb_spec (length os0) n); [injection H as <-; assumption|discriminate].
    Qed.
    Lemma fit_inv : forall a ss rs ls a', fit K L nu d regr rho a ss rs = Ok (ls, a') ->
      exists os, per_level K a (length ss) = Ok os /\ map (l_data K) ls = ss
        /\ (settled K a (length ss) rs -> Forall (factored K L nu d) ls -> good_levels None ls)
        /\ map (l_theta K) ls = map (fun ch => match ch with Given _ th => th | Optimized _ _ th _ => th end) (choices K os rs)
        /\ Forall (fun s => (1 < s_n K s)%nat /\ distinct s) ss
        /\ a' = Many K (map (fun l => Some (l_theta K l)) ls).
    Proof.
      intros a ss rs ls a' H. unfold fit in H. destruct (per_level K a (length ss)) as [os|] eqn:Eo; [|discriminate]. cbn [bind] in H.
      destruct (prepare_all _ _ _ _ _ _ _) as [ls0|] eqn:Ep; [|discriminate]. cbn [bind] in H.
      destruct (fit_all _ _ _ _ _ _) as [r|] eqn:Ef; [|discriminate]. cbn [bind] in H. injection H as <- <-.
      destruct (fit_all_inv _ _ _ _ _ _ Ep Ef) as [A [B [C D]]]. exists os. split; [reflexivity|]. split; [exact A|].
      split; [intros Hs; apply B, (choices_settled a (length ss)); assumption|]. split; [apply C; rewrite choices_length; apply (per_level_length a); exact Eo|].
      split; [exact D|reflexivity].
    Qed.

    (** ** The coefficients solve the normal equations *)
    Section Normal.
      Context (l : level K) (ft : fitted K) (prev : option (data K)).
      Let s := l_data K l.
      Let n := s_n K s.
      Let c := (l_p K l + l_q K l)%nat.
      Hypothesis HP : prepared prev l.
      Hypothesis Hth : theta_ok K (l_theta K l) d = true.
      Hypothesis HS : stored l ft (l_theta K l).
      Hypothesis HQ : qr_exact K L nu d regr rho prev s c (l_theta K l).
      Let C := f_C K ft.
      Let Ft : mat := fun i e => solL K L n C (fun k => l_F K l k e) i.
      Let yt : vec := solL K L n C (s_y K s).

      Lemma Ft_solves : forall e, (e < c)%nat -> solves K n C (fun k => Ft k e) (fun i => design K d regr rho prev s i e).
      Proof.
        intros e He i Hi. unfold Ft. assert (HF := stored_factor l ft Hth HS).
        rewrite (gl_solL K L LG n C (fun k => l_F K l k e)); [|apply HF|exact Hi].
        destruct HP as [Hp [Hq ->]]. apply F_of_design. rewrite <- Hp, <- Hq. exact He.
      Qed.
      Lemma split_facts : exists Q G, orthogonal_split K n c Ft Q G /\ f_G K ft = G
        /\ solves K c G (f_beta K ft) (fun e => total n (fun i => Q i e * yt i)).
      Proof.
        destruct HS as [C0 [HC [EC HS']]]. fold s n c in HC, HS'. cbv zeta in HS'.
        rewrite chol_cov in HC by exact Hth.
        assert (HQ' := HQ C0 Ft HC). fold n in HQ'. rewrite <- EC in HQ'. specialize (HQ' Ft_solves).
        rewrite <- EC in HS'. fold C in HS'. fold Ft in HS'.
        destruct (qr K L n c Ft) as [Q G]. cbn [fst snd] in HQ'. exists Q, G. split; [exact HQ'|].
        destruct HS' as [EG [Eb _]]. split; [exact EG|]. rewrite Eb. apply (gl_solU K L LG). apply HQ'.
      Qed.
      Lemma Ft_w : forall e, (e < c)%nat ->
        total n (fun i => Ft i e * (yt i - total c (fun k => Ft i k * f_beta K ft k))) = 0.
      Proof.
        destruct split_facts as [Q [G [[H1 [H2 H3]] [_ H4]]]]. intros e He.
        rewrite (total_ext n _ (fun i => total c (fun k => G k e * (Q i k * (yt i - total c (fun k => Ft i k * f_beta K ft k)))))).
        2:{ intros i Hi. rewrite <- (H1 i e Hi He). rewrite <- total_scale_r. apply total_ext. intros. ring. }
        rewrite total_swap. apply total_zero. intros k Hk. rewrite total_scale.
        rewrite (total_ext n _ (fun i => Q i k * yt i - total c (fun m => Q i k * Q i m * total c (fun e => G m e * f_beta K ft e)))).
        - rewrite total_sub, total_swap.
          rewrite (total_ext c _ (fun m => (if (k =? m)%nat then 1 else 0) * total c (fun e => G m e * f_beta K ft e))).
          2:{ intros m Hm. rewrite total_scale_r, H2 by assumption. reflexivity. }
          rewrite (total_one c k); [|exact Hk|intros i Hi Hne; destruct (Nat.eqb_spec k i); [congruence|ring]].
          rewrite Nat.eqb_refl, H4 by exact Hk. ring.
        - intros i Hi.
          rewrite (total_ext c (fun k0 => Ft i k0 * f_beta K ft k0) (fun k0 => total c (fun m => Q i m * (G m k0 * f_beta K ft k0)))).
          2:{ intros k0 Hk0. rewrite <- (H1 i k0 Hi Hk0). rewrite <- total_scale_r. apply total_ext. intros. ring. }
          rewrite total_swap.
          rewrite (total_ext c (fun m => Q i k * Q i m * _) (fun m => Q i k * total c (fun k0 => Q i m * (G m k0 * f_beta K ft k0)))).
          2:{ intros m Hm. rewrite total_scale. ring. }
          rewrite total_scale. ring.
      Qed.
      Lemma normal_equations : exists g, residual_weights K nu d regr rho prev l (f_beta K ft) g
        /\ (forall e, (e < c)%nat -> total n (fun i => design K d regr rho prev s i e * g i) = 0)
        /\ g = solU K L n (fun i e => C e i) (fun i => yt i - total c (fun e => Ft i e * f_beta K ft e)).
      Proof.
        assert (HF := stored_factor l ft Hth HS).
        assert (W := g_weights l ft prev HP HF). assert (GS := g_spec l ft HF).
        change (CokModel.sum K) with (CokSpec.total K) in *. fold s n c C in W, GS.
        eexists. split; [exact W|]. split; [|reflexivity]. intros e He.
        set (g := solU K L n _ _) in *.
        rewrite (total_ext n _ (fun i => total n (fun k => C i k * g i * Ft k e))).
        - rewrite total_swap. rewrite <- (Ft_w e He). apply total_ext. intros k Hk. rewrite total_scale_r.
          unfold yt, Ft. rewrite <- (GS k Hk). ring.
        - intros i Hi. rewrite <- (Ft_solves e He i Hi). rewrite <- total_scale_r. apply total_ext. intros. ring.
      Qed.

      (** data on the trend: nothing is left over *)
      Lemma exact_trend_s2 : forall b, (forall i, (i < n)%nat -> s_y K s i = total c (fun e => design K d regr rho prev s i e * b e)) ->
        f_s2 K ft = 0.
      Proof.
        intros b Hb. destruct split_facts as [Q [G [[H1 [H2 H3]] [_ H4]]]].
        assert (HF := stored_factor l ft Hth HS).
        assert (Y : forall i, (i < n)%nat -> yt i = total c (fun e => Ft i e * b e)).
        { apply (lower_unique n C); [apply HF|]. intros i Hi. unfold yt at 1.
          rewrite (gl_solL K L LG n C (s_y K s)); [|apply HF|exact Hi]. rewrite Hb by exact Hi.
          rewrite (total_ext n _ (fun k => total c (fun e => C i k * Ft k e * b e))).
          - rewrite total_swap. apply total_ext. intros e He. rewrite total_scale_r.
            rewrite (Ft_solves e He i Hi). reflexivity.
          - intros k Hk. rewrite <- total_scale. apply total_ext. intros. ring. }
        assert (B : forall e, (e < c)%nat -> f_beta K ft e - b e = 0).
        { apply (upper_zero c G); [exact H3|]. intros k Hk.
          rewrite (total_ext c _ (fun e => G k e * f_beta K ft e - G k e * b e)) by (intros; ring).
          rewrite total_sub, (H4 k Hk).
          rewrite (total_ext n _ (fun i => total c (fun m => Q i k * Q i m * total c (fun e => G m e * b e)))).
          - rewrite total_swap.
            rewrite (total_ext c _ (fun m => (if (k =? m)%nat then 1 else 0) * total c (fun e => G m e * b e))).
            2:{ intros m Hm. rewrite total_scale_r, H2 by assumption. reflexivity. }
            rewrite (total_one c k); [|exact Hk|intros i Hi Hne; destruct (Nat.eqb_spec k i); [congruence|ring]].
            rewrite Nat.eqb_refl. ring.
          - intros i Hi. rewrite Y by exact Hi.
            rewrite (total_ext c (fun k0 => Ft i k0 * b k0) (fun k0 => total c (fun m => Q i m * (G m k0 * b k0)))).
            2:{ intros k0 Hk0. rewrite <- (H1 i k0 Hi Hk0). rewrite <- total_scale_r. apply total_ext. intros. ring. }
            rewrite total_swap, <- total_scale. apply total_ext. intros m Hm. rewrite total_scale. ring. }
        destruct HS as [C0 [HC [EC HS']]]. fold s n c in HC, HS'. cbv zeta in HS'.
        rewrite <- EC in HS'. fold C in HS'. fold Ft in HS'. destruct (qr K L n c Ft) as [Q0 G0].
        destruct HS' as [_ [_ ->]].
        assert (Z : CokModel.sum K n (fun i =>
                 (solL K L n C (s_y K s) i - CokModel.sum K c (fun j => Ft i j * f_beta K ft j))
                 * (solL K L n C (s_y K s) i - CokModel.sum K c (fun j => Ft i j * f_beta K ft j))) = 0).
        { change (CokModel.sum K) with (CokSpec.total K). apply total_zero. intros i Hi.
          change (solL K L n C (s_y K s) i) with (yt i). rewrite Y by exact Hi.
          replace (total c (fun e => Ft i e * b e) - total c (fun e => Ft i e * f_beta K ft e)) with 0; [ring|].
          rewrite <- total_sub. symmetry. apply total_zero. intros e He.
          replace (Ft i e * b e - Ft i e * f_beta K ft e) with (- (Ft i e * (f_beta K ft e - b e))) by ring. rewrite B by exact He. ring. }
        unfold Ft in Z. rewrite Z. rewrite (Fdiv_def Kfield). ring.
      Qed.
    End Normal.
  End Level.
End CokProofs.

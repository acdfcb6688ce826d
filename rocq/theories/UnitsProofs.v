(** Lemmas about the units model: conversions, algebra, comparisons. *)
From Verif Require Import Base BaseFacts UnitsModel UnitsSpec.
From Coq Require Import Lqa Qfield Qpower.
Open Scope Q_scope.

Lemma zlist_eqb_iff : forall a b, zlist_eqb a b = true <-> a = b.
Proof.
  induction a as [|x a IH]; intros [|y b]; simpl; split; intros H; try discriminate; try reflexivity.
  - apply andb_true_iff in H as [H1 H2]. apply Z.eqb_eq in H1. apply IH in H2. subst; reflexivity.
  - injection H as -> ->. rewrite Z.eqb_refl. simpl. apply IH. reflexivity.
Qed.

Lemma zlist_eqb_false : forall a b, zlist_eqb a b = false <-> a <> b.
Proof.
  intros a b. split; intros H.
  - intros E. apply zlist_eqb_iff in E. rewrite E in H. discriminate.
  - destruct (zlist_eqb a b) eqn:E; [|reflexivity]. apply zlist_eqb_iff in E. contradiction.
Qed.

Lemma Qeq_bool_false : forall a b, Qeq_bool a b = false <-> ~ a == b.
Proof.
  intros a b. split; intros H.
  - intros E. apply Qeq_bool_iff in E. rewrite E in H. discriminate.
  - destruct (Qeq_bool a b) eqn:E; [|reflexivity]. apply Qeq_bool_iff in E. contradiction.
Qed.

Lemma conversion_tuple_ok : forall u v,
    same_dim u v -> scaled u -> scaled v ->
    conversion_tuple_to u v =
    Ok (factor u / factor v, offset u - (offset v * factor v / factor u)).
Proof.
  intros u v Hd Hu Hv. unfold conversion_tuple_to.
  rewrite (proj2 (zlist_eqb_iff _ _) Hd). simpl.
  rewrite (proj2 (Qeq_bool_false _ _) Hv), (proj2 (Qeq_bool_false _ _) Hu). reflexivity.
Qed.

(** C01 *)
Lemma convert_units_preserves : forall u v x,
    same_dim u v -> scaled u -> scaled v ->
    exists y, convert_units x u v = Ok y /\ to_base v y == to_base u x.
Proof.
  intros u v x Hd Hu Hv. unfold convert_units, in_units_of, convert_value. simpl.
  rewrite conversion_tuple_ok by assumption. simpl. eexists; split; [reflexivity|].
  unfold to_base, scaled in *. field. split; assumption.
Qed.

Lemma param_conversion_preserves : forall u v x c,
    scaled u -> scaled v -> conversion_tuple_to u v = Ok c ->
    to_base v (get_param_units c x) == to_base u x.
Proof.
  intros u v x c Hu Hv Hc. unfold conversion_tuple_to in Hc.
  destruct (zlist_eqb (powers u) (powers v)); simpl in Hc; [|discriminate].
  rewrite (proj2 (Qeq_bool_false _ _) Hv), (proj2 (Qeq_bool_false _ _) Hu) in Hc.
  injection Hc as <-. unfold get_param_units, to_base, scaled in *. simpl. field. split; assumption.
Qed.

Lemma convert_units_unique : forall v y z,
    scaled v -> to_base v y == to_base v z -> y == z.
Proof.
  intros v y z Hv H. unfold to_base, scaled in *.
  assert (E : y + offset v == z + offset v).
  { apply (Qmult_inj_r _ _ (factor v)); assumption. }
  lra.
Qed.

(** C02 *)
Lemma convert_units_compose : forall u v w x,
    same_dim u v -> same_dim v w -> scaled u -> scaled v -> scaled w ->
    exists y z z', convert_units x u v = Ok y /\ convert_units y v w = Ok z /\
                   convert_units x u w = Ok z' /\ z == z'.
Proof.
  intros u v w x H1 H2 Hu Hv Hw.
  destruct (convert_units_preserves u v x H1 Hu Hv) as (y & Ey & By).
  destruct (convert_units_preserves v w y H2 Hv Hw) as (z & Ez & Bz).
  assert (H3 : same_dim u w) by (unfold same_dim in *; congruence).
  destruct (convert_units_preserves u w x H3 Hu Hw) as (z' & Ez' & Bz').
  exists y, z, z'. repeat split; try assumption.
  apply (convert_units_unique w); [assumption|]. rewrite Bz, By, Bz'. reflexivity.
Qed.

Lemma convert_units_inverse : forall u v x,
    same_dim u v -> scaled u -> scaled v ->
    exists y z, convert_units x u v = Ok y /\ convert_units y v u = Ok z /\ z == x.
Proof.
  intros u v x H1 Hu Hv.
  destruct (convert_units_preserves u v x H1 Hu Hv) as (y & Ey & By).
  assert (H2 : same_dim v u) by (unfold same_dim in *; congruence).
  destruct (convert_units_preserves v u y H2 Hv Hu) as (z & Ez & Bz).
  exists y, z. repeat split; try assumption.
  apply (convert_units_unique u); [assumption|]. rewrite Bz, By. reflexivity.
Qed.

(** C03 *)
Lemma convert_units_refused : forall u v x,
    scaled u -> scaled v ->
    (convert_units x u v = Err TypeError <-> exists i, dim u i <> dim v i) /\
    ((forall i, dim u i = dim v i) -> exists y, convert_units x u v = Ok y).
Proof.
  intros u v x Hu Hv.
  assert (Hext : (forall i, dim u i = dim v i) -> same_dim u v).
  { intros H. unfold same_dim, dim in *.
    revert H. generalize (powers u) (powers v). induction l as [|a l IH]; intros [|b l'] H.
    - reflexivity.
    - specialize (H 0%nat); discriminate.
    - specialize (H 0%nat); discriminate.
    - pose proof (H 0%nat) as H0. simpl in H0. injection H0 as ->. f_equal.
      apply IH. intros i. apply (H (S i)). }
  split; [split|].
  - intros H.
    destruct (list_eq_dec Z.eq_dec (powers u) (powers v)) as [E|E].
    + destruct (convert_units_preserves u v x E Hu Hv) as (y & Ey & _). congruence.
    + clear H Hext. unfold dim. revert E. generalize (powers u) (powers v).
      induction l as [|a l IH]; intros [|b l'] E.
      * contradiction E; reflexivity.
      * exists 0%nat; discriminate.
      * exists 0%nat; discriminate.
      * destruct (Z.eq_dec a b) as [->|Hab].
        -- destruct (IH l') as [i Hi]; [congruence|]. exists (S i). exact Hi.
        -- exists 0%nat. simpl. congruence.
  - intros [i Hi]. unfold convert_units, in_units_of, convert_value, conversion_tuple_to. simpl.
    destruct (zlist_eqb (powers u) (powers v)) eqn:E; [|reflexivity].
    apply zlist_eqb_iff in E. unfold dim in Hi. rewrite E in Hi. contradiction.
  - intros H. destruct (convert_units_preserves u v x (Hext H) Hu Hv) as (y & Ey & _).
    exists y; exact Ey.
Qed.

(** C04 *)
Lemma zipwith_nth : forall f a b i,
    length a = length b ->
    nth_error (zipwith f a b) i =
    match nth_error a i, nth_error b i with Some x, Some y => Some (f x y) | _, _ => None end.
Proof.
  intros f. induction a as [|x a IH]; intros [|y b] i Hl; simpl in *; try discriminate.
  - destruct i; reflexivity.
  - destruct i as [|i]; simpl; [reflexivity|]. apply IH. lia.
Qed.

Definition comparable (u v : punit) : Prop := length (powers u) = length (powers v).

Lemma unit_mul_spec : forall u v,
    comparable u v ->
    (offset u == 0 /\ offset v == 0 /\
     exists w, unit_mul u v = Ok w /\
       (forall x y, to_base w (x * y) == to_base u x * to_base v y) /\
       (forall i, dim w i = match dim u i, dim v i with
                            | Some a, Some b => Some (a + b)%Z | _, _ => None end))
    \/ ((~ offset u == 0 \/ ~ offset v == 0) /\ unit_mul u v = Err TypeError).
Proof.
  intros u v Hl. unfold unit_mul.
  destruct (Qeq_bool (offset u) 0) eqn:Eu; simpl.
  - apply Qeq_bool_iff in Eu. destruct (Qeq_bool (offset v) 0) eqn:Ev; simpl.
    + apply Qeq_bool_iff in Ev. left. split; [assumption|split; [assumption|]].
      eexists; split; [reflexivity|]. split.
      * intros x y. unfold to_base; simpl. rewrite Eu, Ev. ring.
      * intros i. unfold dim; simpl. apply zipwith_nth. exact Hl.
    + apply Qeq_bool_false in Ev. right. split; [right; assumption|reflexivity].
  - apply Qeq_bool_false in Eu. right. split; [left; assumption|reflexivity].
Qed.

Lemma unit_div_spec : forall u v,
    comparable u v -> scaled v ->
    (offset u == 0 /\ offset v == 0 /\
     exists w, unit_div u v = Ok w /\
       (forall x y, ~ y == 0 -> to_base w (x / y) == to_base u x / to_base v y) /\
       (forall i, dim w i = match dim u i, dim v i with
                            | Some a, Some b => Some (a - b)%Z | _, _ => None end))
    \/ ((~ offset u == 0 \/ ~ offset v == 0) /\ unit_div u v = Err TypeError).
Proof.
  intros u v Hl Hv. unfold unit_div.
  destruct (Qeq_bool (offset u) 0) eqn:Eu; simpl.
  - apply Qeq_bool_iff in Eu. destruct (Qeq_bool (offset v) 0) eqn:Ev; simpl.
    + apply Qeq_bool_iff in Ev. left. split; [assumption|split; [assumption|]].
      rewrite (proj2 (Qeq_bool_false _ _) Hv).
      eexists; split; [reflexivity|]. split.
      * intros x y Hy. unfold to_base; simpl. rewrite Eu, Ev, !Qplus_0_r. unfold scaled in Hv. field. split; assumption.
      * intros i. unfold dim; simpl. apply zipwith_nth. exact Hl.
    + apply Qeq_bool_false in Ev. right. split; [right; assumption|reflexivity].
  - apply Qeq_bool_false in Eu. right. split; [left; assumption|reflexivity].
Qed.

Lemma map_nth_error' : forall (f : Z -> Z) l i,
    nth_error (map f l) i = option_map f (nth_error l i).
Proof. intros f. induction l as [|x l IH]; intros [|i]; simpl; auto. Qed.

Lemma unit_pow_spec : forall u n,
    scaled u ->
    (offset u == 0 /\
     exists w, unit_pow u n = Ok w /\
       (forall x, to_base w (Qpower x n) == Qpower (to_base u x) n) /\
       (forall i, dim w i = option_map (fun a => (a * n)%Z) (dim u i)))
    \/ (~ offset u == 0 /\ unit_pow u n = Err TypeError).
Proof.
  intros u n Hs. unfold unit_pow.
  destruct (Qeq_bool (offset u) 0) eqn:Eu; simpl.
  - apply Qeq_bool_iff in Eu. left. split; [assumption|].
    rewrite (proj2 (Qeq_bool_false _ _) Hs). simpl.
    eexists; split; [reflexivity|]. split.
    + intros x. unfold to_base; simpl. rewrite Eu, !Qplus_0_r, Qmult_power. reflexivity.
    + intros i. unfold dim; simpl. apply map_nth_error'.
  - apply Qeq_bool_false in Eu. right. split; [assumption|reflexivity].
Qed.

Lemma unit_mul_num_spec : forall u n,
    (offset u == 0 /\
     exists w, unit_mul_num u n = Ok w /\ same_dim w u /\
       forall x, to_base w x == to_base u (n * x))
    \/ (~ offset u == 0 /\ unit_mul_num u n = Err TypeError).
Proof.
  intros u n. unfold unit_mul_num.
  destruct (Qeq_bool (offset u) 0) eqn:Eu; simpl.
  - apply Qeq_bool_iff in Eu. left. split; [assumption|].
    eexists; split; [reflexivity|]. split; [reflexivity|].
    intros x. unfold to_base; simpl. rewrite Eu. ring.
  - apply Qeq_bool_false in Eu. right. split; [assumption|reflexivity].
Qed.

Lemma unit_div_num_spec : forall u n,
    ~ n == 0 ->
    (offset u == 0 /\
     exists w, unit_div_num u n = Ok w /\ same_dim w u /\
       forall x, to_base w x == to_base u (x / n))
    \/ (~ offset u == 0 /\ unit_div_num u n = Err TypeError).
Proof.
  intros u n Hn. unfold unit_div_num.
  destruct (Qeq_bool (offset u) 0) eqn:Eu; simpl.
  - apply Qeq_bool_iff in Eu. left. split; [assumption|].
    rewrite (proj2 (Qeq_bool_false _ _) Hn).
    eexists; split; [reflexivity|]. split; [reflexivity|].
    intros x. unfold to_base; simpl. rewrite Eu. field. assumption.
  - apply Qeq_bool_false in Eu. right. split; [assumption|reflexivity].
Qed.

Lemma unit_rdiv_num_spec : forall u n,
    scaled u -> offset u == 0 ->
    exists w, unit_rdiv_num n u = Ok w /\
      (forall x, ~ x == 0 -> to_base w (/ x) == n / to_base u x) /\
      (forall i, dim w i = option_map Z.opp (dim u i)).
Proof.
  intros u n Hs Eu. unfold unit_rdiv_num.
  rewrite (proj2 (Qeq_bool_false _ _) Hs).
  eexists; split; [reflexivity|]. split.
  - intros x Hx. unfold to_base; simpl. rewrite Eu, !Qplus_0_r. unfold scaled in Hs. field. split; assumption.
  - intros i. unfold dim; simpl. apply map_nth_error'.
Qed.

(** the missing offset check: every offset unit can be inverted silently *)
Lemma unit_rdiv_num_no_check : forall u n,
    scaled u -> exists w, unit_rdiv_num n u = Ok w /\ offset w == 0.
Proof.
  intros u n Hs. unfold unit_rdiv_num. rewrite (proj2 (Qeq_bool_false _ _) Hs).
  eexists; split; [reflexivity|]. reflexivity.
Qed.

(** C05 *)
Lemma conversion_factor_ok : forall u v f,
    conversion_factor_to u v = Ok f ->
    same_dim u v /\ scaled v /\ f == factor u / factor v /\
    (offset u == offset v \/ factor u == factor v).
Proof.
  intros u v f H. unfold conversion_factor_to in H.
  destruct (zlist_eqb (powers u) (powers v)) eqn:Ed; simpl in H; [|discriminate].
  apply zlist_eqb_iff in Ed.
  destruct (Qeq_bool (offset u) (offset v)) eqn:Eo; simpl in H;
    destruct (Qeq_bool (factor u) (factor v)) eqn:Ef; simpl in H; try discriminate;
    destruct (Qeq_bool (factor v) 0) eqn:Ez; try discriminate; injection H as <-;
    apply Qeq_bool_false in Ez; (split; [assumption|split; [assumption|split; [reflexivity|]]]).
  - left; apply Qeq_bool_iff; assumption.
  - left; apply Qeq_bool_iff; assumption.
  - right; apply Qeq_bool_iff; assumption.
Qed.

Lemma Qlt_scale : forall a b f, 0 < f -> (a < b <-> a * f < b * f).
Proof. intros a b f Hf. split; intros H; [apply Qmult_lt_compat_r; assumption|].
  apply Qnot_le_lt. intros Hle. apply (Qlt_not_le _ _ H). apply Qmult_le_compat_r; [assumption|lra]. Qed.

Lemma negb_Qle_lt : forall x, negb (Qle_bool 0 x) = true <-> x < 0.
Proof.
  intros x. rewrite negb_true_iff. split; intros H.
  - apply Qnot_le_lt. intros Hle. apply Qle_bool_iff in Hle. congruence.
  - destruct (Qle_bool 0 x) eqn:E; [|reflexivity]. apply Qle_bool_iff in E. lra.
Qed.

Lemma qty_lt_inv : forall a b r,
    0 < factor (qunit a) -> 0 < factor (qunit b) ->
    qty_lt a b = Ok r ->
    same_dim (qunit a) (qunit b) /\
    (r = true <-> value a * factor (qunit a) < value b * factor (qunit b)).
Proof.
  intros a b r Ha Hb H. unfold qty_lt, qty_sum in H.
  destruct (conversion_factor_to (qunit b) (qunit a)) as [f|e] eqn:E; simpl in H; [|discriminate].
  apply conversion_factor_ok in E as (Hd & Hs & Hf & _).
  split; [symmetry; exact Hd|].
  injection H as <-. rewrite negb_Qle_lt. simpl.
  rewrite (Qlt_scale _ 0 (factor (qunit a)) Ha).
  assert (E2 : (1 * value a + -1 * value b * f) * factor (qunit a)
               == value a * factor (qunit a) - value b * factor (qunit b)).
  { rewrite Hf. field. lra. }
  rewrite E2. split; intros; lra.
Qed.

(** comparison of quantities is right for all values exactly when the zero
    points of the two scales coincide *)
Lemma qty_lt_exact : forall u v,
    0 < factor u -> 0 < factor v ->
    (forall x y, exists r, qty_lt (mkQty x u) (mkQty y v) = Ok r) ->
    ((forall x y, qty_lt (mkQty x u) (mkQty y v) = Ok true <-> to_base u x < to_base v y)
     <-> offset u * factor u == offset v * factor v).
Proof.
  intros u v Hu Hv Hok. split.
  - intros H.
    assert (Hraw : forall x y, x * factor u < y * factor v <-> to_base u x < to_base v y).
    { intros x y. rewrite <- H. destruct (Hok x y) as [r Hr].
      destruct (qty_lt_inv (mkQty x u) (mkQty y v) r) as [_ Hi]; try assumption. simpl in Hi.
      rewrite <- Hi, Hr. split; congruence. }
    destruct (Qlt_le_dec (offset u * factor u) (offset v * factor v)) as [Hlt|Hge];
      [|destruct (Qlt_le_dec (offset v * factor v) (offset u * factor u)) as [Hlt|Hge']].
    + exfalso. specialize (Hraw (1 / factor u) (1 / factor v)).
      assert (E1 : 1 / factor u * factor u == 1) by (field; lra).
      assert (E2 : 1 / factor v * factor v == 1) by (field; lra).
      unfold to_base in Hraw. rewrite E1, E2, !Qmult_plus_distr_l, E1, E2 in Hraw.
      assert (1 < 1) by (apply Hraw; lra). lra.
    + exfalso.
      pose (D := offset u * factor u - offset v * factor v).
      specialize (Hraw (0 / factor u) (D / factor v)).
      assert (E1 : 0 / factor u * factor u == 0) by (field; lra).
      assert (E2 : D / factor v * factor v == D) by (field; lra).
      unfold to_base in Hraw. rewrite E1, E2, !Qmult_plus_distr_l, E1, E2 in Hraw.
      assert (0 + offset u * factor u < D + offset v * factor v) by (apply Hraw; unfold D; lra).
      unfold D in *. lra.
    + lra.
  - intros Heq x y. destruct (Hok x y) as [r Hr].
    destruct (qty_lt_inv (mkQty x u) (mkQty y v) r) as [_ Hi]; try assumption. simpl in Hi.
    unfold to_base. rewrite !Qmult_plus_distr_l, Heq, Hr.
    split; intros H.
    + injection H as ->. assert (x * factor u < y * factor v) by (apply Hi; reflexivity). lra.
    + f_equal. apply Hi. lra.
Qed.

Lemma qty_eq_exact : forall u v x y,
    scaled u -> scaled v -> offset u == 0 -> offset v == 0 ->
    (qty_eq (mkQty x u) (mkQty y v) = true <-> same_dim u v /\ to_base u x == to_base v y).
Proof.
  intros u v x y Hu Hv Eu Ev. unfold qty_eq, conversion_factor_to, to_base, scaled in *. simpl.
  destruct (zlist_eqb (powers v) (powers u)) eqn:Ed; simpl.
  - apply zlist_eqb_iff in Ed.
    rewrite (proj2 (Qeq_bool_iff (offset v) (offset u))) by (rewrite Eu, Ev; reflexivity). simpl.
    rewrite (proj2 (Qeq_bool_false _ _) Hu). rewrite Qeq_bool_iff.
    rewrite Eu, Ev, !Qplus_0_r.
    split.
    + intros E. split; [symmetry; exact Ed|]. rewrite E. field. assumption.
    + intros [_ E]. apply (Qmult_inj_r _ _ (factor u)); [assumption|]. rewrite E. field. assumption.
  - apply zlist_eqb_false in Ed. split; [discriminate|]. intros [H _]. congruence.
Qed.

(** sum/difference, read as absolute quantities, is right exactly when the
    second operand's unit has no offset *)
Lemma qty_sum_exact : forall a b q s,
    scaled (qunit b) ->
    qty_sum a b 1 s = Ok q -> ~ s == 0 ->
    same_dim (qunit q) (qunit a) /\
    (to_base (qunit q) (value q) ==
       to_base (qunit a) (value a) + s * to_base (qunit b) (value b)
     <-> offset (qunit b) == 0).
Proof.
  intros a b q s Hb H Hs. unfold qty_sum in H.
  destruct (conversion_factor_to (qunit b) (qunit a)) as [f|e] eqn:E; simpl in H; [|discriminate].
  apply conversion_factor_ok in E as (Hd & Ha & Hf & _).
  injection H as <-. simpl. split; [reflexivity|].
  unfold to_base, scaled in *.
  assert (E2 : (1 * value a + s * value b * f + offset (qunit a)) * factor (qunit a)
               == (value a + offset (qunit a)) * factor (qunit a) + s * (value b * factor (qunit b))).
  { rewrite Hf. field. assumption. }
  rewrite E2, (Qmult_plus_distr_l (value b)). split; intros H.
  - assert (Hz : s * (factor (qunit b) * offset (qunit b)) == 0) by (ring_simplify; ring_simplify in H; lra).
    apply Qmult_integral in Hz as [Hz|Hz]; [contradiction|].
    apply Qmult_integral in Hz as [Hz|Hz]; [contradiction|exact Hz].
  - rewrite H. ring.
Qed.

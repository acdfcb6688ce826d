(** Lemmas about design variables, constraints and gradient scaling. *)
From Coq Require Import Lqa Qfield Permutation.
From Verif Require Import Base BaseFacts DriverModel DriverSpec.
Open Scope Q_scope.

(** ** arithmetic on arrays *)
Definition expand (s : num) (n : nat) : list Q :=
  match s with Num x => repeat x n | Arr a => a end.

Definition zipQ (op : Q -> Q -> Q) (a b : list Q) : list Q :=
  map (fun p => op (fst p) (snd p)) (combine a b).

Lemma expand_length : forall s n, fits s n -> length (expand s n) = n.
Proof. intros [x|a] n H; simpl in *; [apply repeat_length|exact H]. Qed.

Lemma zipQ_repeat : forall op a x, zipQ op a (repeat x (length a)) = map (fun y => op y x) a.
Proof.
  intros op a x. unfold zipQ. induction a as [|y a IH]; simpl; [reflexivity|]. f_equal. exact IH.
Qed.

Lemma zipQ_length : forall op a b, length a = length b -> length (zipQ op a b) = length a.
Proof. intros op a b H. unfold zipQ. rewrite map_length, combine_length. lia. Qed.

Lemma bc_same : forall op a b, length a = length b -> bc op a b = Ok (zipQ op a b).
Proof.
  intros op a b Hl. unfold bc.
  destruct b as [|y [|y2 b]].
  - destruct a as [|x a]; [reflexivity|simpl in Hl; lia].
  - destruct a as [|x [|x2 a]]; simpl in Hl; try lia. reflexivity.
  - destruct a as [|x [|x2 a]]; simpl in Hl; try lia.
    rewrite (proj2 (Nat.eqb_eq _ _)) by (simpl; lia). reflexivity.
Qed.

Lemma arr_op_fits : forall op a s, fits s (length a) -> arr_op op a s = Ok (zipQ op a (expand s (length a))).
Proof.
  intros op a [x|b] H; simpl in *.
  - rewrite zipQ_repeat. reflexivity.
  - apply bc_same. symmetry; exact H.
Qed.

Lemma same_refl : forall a, same_values a a.
Proof. induction a; constructor; [reflexivity|assumption]. Qed.

Lemma same_trans : forall a b c, same_values a b -> same_values b c -> same_values a c.
Proof.
  intros a b c H. revert c. induction H as [|x y a b Hx H IH]; intros c Hc; inversion Hc; subst; constructor.
  - rewrite Hx. assumption.
  - apply IH. assumption.
Qed.

Lemma same_length : forall a b, same_values a b -> length a = length b.
Proof. intros a b H. induction H; simpl; congruence. Qed.

Lemma zipQ_same : forall op (Hop : forall x x' y, x == x' -> op x y == op x' y) a a' b,
    same_values a a' -> same_values (zipQ op a b) (zipQ op a' b).
Proof.
  intros op Hop a a' b H. revert b. induction H as [|x y a a' Hx H IH]; intros b; unfold zipQ; simpl; [constructor|].
  destruct b as [|z b]; simpl; constructor; [apply Hop; exact Hx|apply IH].
Qed.

Lemma round_trip_lists : forall v S A,
    length S = length v -> length A = length v -> Forall (fun x => ~ x == 0) S ->
    same_values (zipQ Qmult (zipQ Qplus (zipQ Qminus (zipQ Qdiv v S) A) A) S) v.
Proof.
  induction v as [|x v IH]; intros [|s S] [|a A] HS HA Hn; simpl in *; try discriminate; [constructor|].
  inversion Hn as [|y l Hs Hn']; subst.
  unfold zipQ; simpl. constructor; [field; exact Hs|]. apply IH; [lia|lia|exact Hn'].
Qed.

Lemma nonzero_expand : forall s n, nonzero s -> Forall (fun x => ~ x == 0) (expand s n).
Proof.
  intros [x|a] n H; simpl in *; [|exact H]. apply Forall_forall. intros y Hy.
  apply repeat_spec in Hy. subst. exact H.
Qed.

(** ** indices *)
Lemma norm_index_lt : forall n i k, norm_index n i = Some k -> (k < n)%nat.
Proof.
  intros n i k H. unfold norm_index in H.
  destruct (Z.leb_spec 0 i); simpl in H.
  - destruct (Z.ltb_spec i (Z.of_nat n)).
    + injection H as <-. lia.
    + destruct (Z.leb_spec (- Z.of_nat n) i); simpl in H; [|discriminate].
      destruct (Z.ltb_spec i 0); [lia|discriminate].
  - destruct (Z.leb_spec (- Z.of_nat n) i); simpl in H; [|discriminate].
    destruct (Z.ltb_spec i 0); [|discriminate]. injection H as <-. lia.
Qed.

Lemma norm_indices_lt : forall n is ks, norm_indices n is = Ok ks -> Forall (fun k => (k < n)%nat) ks.
Proof.
  intros n. induction is as [|i is IH]; intros ks H; simpl in H.
  - injection H as <-. constructor.
  - destruct (norm_index n i) as [k|] eqn:E; [|discriminate].
    destruct (norm_indices n is) as [ks'|]; simpl in H; [|discriminate]. injection H as <-.
    constructor; [eapply norm_index_lt; exact E|apply IH; reflexivity].
Qed.

Lemma norm_index_addresses : forall n i k, addresses n i k -> norm_index n i = Some k.
Proof.
  intros n i k [Hk H]. unfold norm_index.
  destruct (Z.leb_spec 0 i), (Z.ltb_spec i (Z.of_nat n)), (Z.leb_spec (- Z.of_nat n) i), (Z.ltb_spec i 0); simpl;
    try lia; f_equal; lia.
Qed.

Lemma norm_indices_addresses : forall n is ks, Forall2 (addresses n) is ks -> norm_indices n is = Ok ks.
Proof.
  intros n is ks H. induction H as [|i k is ks H1 H2 IH]; [reflexivity|].
  simpl. rewrite (norm_index_addresses _ _ _ H1), IH. reflexivity.
Qed.

Lemma setnth_length : forall {A} (l : list A) k x, length (setnth l k x) = length l.
Proof. intros A. induction l as [|y l IH]; intros [|k] x; simpl; auto. Qed.

Lemma setnth_same : forall {A} (l : list A) k x, (k < length l)%nat -> nth_error (setnth l k x) k = Some x.
Proof. intros A. induction l as [|y l IH]; intros [|k] x H; simpl in *; try lia; [reflexivity|]. apply IH. lia. Qed.

Lemma setnth_other : forall {A} (l : list A) k j x, j <> k -> nth_error (setnth l k x) j = nth_error l j.
Proof.
  intros A. induction l as [|y l IH]; intros [|k] [|j] x H; simpl; try reflexivity; try lia.
  apply IH. lia.
Qed.

Lemma put_idx_length : forall {A} ks (xs l : list A), length (put_idx l ks xs) = length l.
Proof.
  intros A. induction ks as [|k ks IH]; intros [|x xs] l; simpl; try reflexivity.
  rewrite IH. apply setnth_length.
Qed.

Lemma put_idx_other : forall {A} ks (xs l : list A) j, ~ In j ks -> nth_error (put_idx l ks xs) j = nth_error l j.
Proof.
  intros A. induction ks as [|k ks IH]; intros [|x xs] l j H; simpl; try reflexivity.
  rewrite IH by (intros Hin; apply H; right; exact Hin).
  apply setnth_other. intros ->. apply H; left; reflexivity.
Qed.

Lemma take_put : forall {A} ks (xs l : list A),
    NoDup ks -> Forall (fun k => (k < length l)%nat) ks -> length xs = length ks ->
    take_idx (put_idx l ks xs) ks = Ok xs.
Proof.
  intros A ks xs l Hnd Hlt Hl.
  assert (H : forall ks1 (xs1 l1 : list A), NoDup ks1 -> Forall (fun k => (k < length l1)%nat) ks1 ->
                length xs1 = length ks1 ->
                forall i k x, nth_error ks1 i = Some k -> nth_error xs1 i = Some x ->
                nth_error (put_idx l1 ks1 xs1) k = Some x).
  { clear. induction ks1 as [|k1 ks1 IH]; intros [|x1 xs1] l1 Hnd Hlt Hl i k x Hk Hx; simpl in *; try discriminate.
    - destruct i; discriminate.
    - inversion Hnd; subst. inversion Hlt; subst. destruct i as [|i]; simpl in *.
      + injection Hk as <-. injection Hx as <-. rewrite put_idx_other by assumption.
        apply setnth_same. assumption.
      + eapply IH with (i := i); try eassumption; try lia.
        rewrite setnth_length. assumption. }
  specialize (H ks xs l Hnd Hlt Hl). generalize (put_idx l ks xs) H. clear -Hl.
  intros l' H. revert xs Hl H. induction ks as [|k ks IH]; intros [|x xs] Hl H; simpl in *; try discriminate; [reflexivity|].
  rewrite (H 0%nat k x eq_refl eq_refl). rewrite (IH xs); [reflexivity|lia|].
  intros i k' x' Hk Hx. apply (H (S i)); assumption.
Qed.

Lemma norm_indices_length_indep : forall n is ks, norm_indices n is = Ok ks -> length ks = length is.
Proof.
  intros n. induction is as [|i is IH]; intros ks H; simpl in H.
  - injection H as <-. reflexivity.
  - destruct (norm_index n i); [|discriminate].
    destruct (norm_indices n is) as [ks'|]; simpl in H; [|discriminate]. injection H as <-.
    simpl. f_equal. apply IH. reflexivity.
Qed.

Lemma spread_same : forall n a, length a = n -> spread n a = Ok a.
Proof.
  intros n a H. unfold spread. destruct a as [|x [|y a]].
  - simpl in *. subst. reflexivity.
  - simpl in H. subst. reflexivity.
  - rewrite (proj2 (Nat.eqb_eq _ _) H). reflexivity.
Qed.

Lemma take_seq : forall {A} (l : list A), take_idx l (seq 0 (length l)) = Ok l.
Proof.
  intros A l. enough (H : forall k (a b : list A), l = a ++ b -> length a = k -> take_idx l (seq k (length b)) = Ok b).
  { apply (H 0%nat [] l); reflexivity. }
  intros k a b. revert k a. induction b as [|x b IH]; intros k a Hl Ha; simpl; [reflexivity|].
  rewrite Hl, nth_error_app2, Ha, Nat.sub_diag by lia. simpl.
  rewrite <- Hl. rewrite (IH (S k) (a ++ [x])); [reflexivity| |].
  - rewrite <- app_assoc. exact Hl.
  - rewrite app_length. simpl. lia.
Qed.

(** ** scaled value to model value and back *)
Lemma unscale : forall (m : meta) vals,
    fits (m_scaler m) (length vals) -> fits (m_adder m) (length vals) ->
    exists x1 x2,
      match m_scaler m with
      | Arr a => val_op Qdiv (NpArr vals) (Arr a)
      | Num y => if Qeq_bool y 1 then Ok (NpArr vals) else val_op Qdiv (NpArr vals) (Num y)
      end = Ok (NpArr x1) /\
      match m_adder m with
      | Arr a => val_op Qminus (NpArr x1) (Arr a)
      | Num y => if Qeq_bool y 0 then Ok (NpArr x1) else val_op Qminus (NpArr x1) (Num y)
      end = Ok (NpArr x2) /\
      same_values x2 (zipQ Qminus (zipQ Qdiv vals (expand (m_scaler m) (length vals)))
                           (expand (m_adder m) (length vals))).
Proof.
  intros m vals Hs Ha.
  assert (H1 : exists x1, match m_scaler m with
      | Arr a => val_op Qdiv (NpArr vals) (Arr a)
      | Num y => if Qeq_bool y 1 then Ok (NpArr vals) else val_op Qdiv (NpArr vals) (Num y)
      end = Ok (NpArr x1) /\ same_values x1 (zipQ Qdiv vals (expand (m_scaler m) (length vals)))).
  { destruct (m_scaler m) as [y|a] eqn:E.
    - destruct (Qeq_bool y 1) eqn:E1.
      + exists vals. split; [reflexivity|]. apply Qeq_bool_iff in E1. simpl. rewrite zipQ_repeat.
        clear -E1. induction vals as [|v vals IH]; simpl; constructor; [|exact IH].
        rewrite E1. field.
      + exists (zipQ Qdiv vals (expand (Num y) (length vals))). split; [|apply same_refl].
        unfold val_op. rewrite arr_op_fits by exact I. reflexivity.
    - exists (zipQ Qdiv vals (expand (Arr a) (length vals))). split; [|apply same_refl].
      unfold val_op. rewrite arr_op_fits by exact Hs. reflexivity. }
  destruct H1 as (x1 & E1 & S1).
  assert (L1 : length x1 = length vals).
  { rewrite (same_length _ _ S1), zipQ_length; [reflexivity|]. rewrite expand_length by exact Hs. reflexivity. }
  assert (Hsub : forall x x' y, x == x' -> x - y == x' - y) by (intros; lra).
  exists x1. destruct (m_adder m) as [y|a] eqn:E.
  - destruct (Qeq_bool y 0) eqn:E0.
    + exists x1. split; [exact E1|]. split; [reflexivity|]. apply Qeq_bool_iff in E0.
      eapply same_trans; [exact S1|]. simpl.
      set (d := zipQ Qdiv vals (expand (m_scaler m) (length vals))) in *.
      replace (length vals) with (length d) by (rewrite <- (same_length _ _ S1); exact L1).
      rewrite zipQ_repeat. generalize d. clear -E0.
      induction d as [|v l IH]; simpl; constructor; [rewrite E0; ring|exact IH].
    + eexists. split; [exact E1|]. split.
      * unfold val_op. rewrite arr_op_fits by exact I. cbn [bind]. reflexivity.
      * rewrite L1. apply zipQ_same; assumption.
  - eexists. split; [exact E1|]. split.
    + unfold val_op. rewrite arr_op_fits by (simpl in *; lia). cbn [bind]. reflexivity.
    + rewrite L1. apply zipQ_same; assumption.
Qed.

Lemma get_scaled : forall v m fv,
    match m_indices m with
    | Some is => let! ks := norm_indices (length (flat v)) is in take_idx (flat v) ks
    | None => Ok (flat v)
    end = Ok fv ->
    fits (m_scaler m) (length fv) -> fits (m_adder m) (length fv) ->
    exists w, get_distrib_var v m = Ok w /\
      same_values w (zipQ Qmult (zipQ Qplus fv (expand (m_adder m) (length fv)))
                          (expand (m_scaler m) (length fv))).
Proof.
  intros v m fv Hfv Hs Ha. unfold get_distrib_var. rewrite Hfv. cbn [bind].
  destruct (is_arr (m_scaler m) || is_arr (m_adder m) || num_neqb (m_scaler m) 1 || num_neqb (m_adder m) 0) eqn:E.
  - rewrite arr_op_fits by exact Ha. cbn [bind].
    assert (L : length (zipQ Qplus fv (expand (m_adder m) (length fv))) = length fv).
    { apply zipQ_length. rewrite expand_length by exact Ha. reflexivity. }
    rewrite arr_op_fits by (rewrite L; exact Hs). rewrite L. eexists; split; [reflexivity|apply same_refl].
  - exists fv. split; [reflexivity|].
    destruct (m_scaler m) as [s|sa]; destruct (m_adder m) as [aa|ab]; simpl in E; try discriminate.
    apply orb_false_iff in E as [E1 E2]. apply negb_false_iff in E1, E2.
    apply Qeq_bool_iff in E1, E2. cbn [expand]. clear -E1 E2.
    induction fv as [|x fv IH]; unfold zipQ in *; simpl; constructor; [rewrite E1, E2; ring|exact IH].
Qed.

(** C09 *)
Lemma desvar_round_trip : forall v m ks vals,
    (0 < length (flat v))%nat ->
    (vkind_of v = KFlat \/ m_indices m = None) ->
    (vkind_of v = KScalar -> length (flat v) = 1%nat) ->
    selection (length (flat v)) m ks -> NoDup ks ->
    fits (m_scaler m) (length ks) -> fits (m_adder m) (length ks) -> nonzero (m_scaler m) ->
    length vals = length ks ->
    exists v' w,
      set_desvar v m (NpArr vals) None = Ok v' /\
      get_distrib_var v' m = Ok w /\ same_values w vals /\
      vkind_of v' = vkind_of v /\ length (flat v') = length (flat v) /\
      (forall k, ~ In k ks -> nth_error (flat v') k = nth_error (flat v) k).
Proof.
  intros v m ks vals Hpos Hkind Hsc Hsel Hnd Hfs Hfa Hnz Hlen.
  rewrite <- Hlen in Hfs, Hfa.
  destruct (unscale m vals Hfs Hfa) as (x1 & x2 & E1 & E2 & S2).
  assert (L2 : length x2 = length vals).
  { rewrite (same_length _ _ S2).
    assert (Ld : length (zipQ Qdiv vals (expand (m_scaler m) (length vals))) = length vals)
      by (apply zipQ_length; rewrite expand_length by exact Hfs; reflexivity).
    rewrite zipQ_length; [exact Ld|]. rewrite expand_length by exact Hfa. exact Ld. }
  (* the state after the assignment *)
  assert (Hset : exists v', set_desvar v m (NpArr vals) None = Ok v' /\
      vkind_of v' = vkind_of v /\ length (flat v') = length (flat v) /\
      (forall k, ~ In k ks -> nth_error (flat v') k = nth_error (flat v) k) /\
      match m_indices m with
      | Some is => let! ks := norm_indices (length (flat v')) is in take_idx (flat v') ks
      | None => Ok (flat v')
      end = Ok x2).
  { unfold set_desvar. cbn [truthy bind].
    rewrite (proj2 (Nat.eqb_neq _ _)) by lia.
    rewrite E1. cbn [bind]. rewrite E2. cbn [bind].
    destruct (m_indices m) as [is|] eqn:Ei.
    - destruct Hkind as [Hk|Hk]; [|discriminate].
      unfold selection in Hsel. rewrite Ei in Hsel. apply norm_indices_addresses in Hsel.
      unfold assign_indices. rewrite Hk, Hsel. cbn [bind entries].
      rewrite spread_same by lia. cbn [bind].
      eexists; split; [reflexivity|]. simpl.
      split; [reflexivity|]. split; [apply put_idx_length|].
      split; [intros k Hk'; apply put_idx_other; exact Hk'|].
      rewrite put_idx_length, Hsel. cbn [bind].
      apply take_put; [exact Hnd|eapply norm_indices_lt; exact Hsel|lia].
    - unfold selection in Hsel. rewrite Ei in Hsel. subst ks. rewrite seq_length in Hlen.
      unfold assign_whole. destruct (vkind_of v) eqn:Ek; cbn [entries].
      + specialize (Hsc eq_refl).
        destruct x2 as [|q [|q2 x2]]; simpl in L2; try lia.
        destruct (flat v) as [|f0 [|f1 fl]]; simpl in Hsc; try lia.
        eexists; split; [reflexivity|]. simpl. split; [reflexivity|]. split; [reflexivity|].
        split; [|reflexivity]. intros k Hk. destruct k as [|k]; [exfalso; apply Hk; left; reflexivity|reflexivity].
      + rewrite spread_same by lia. cbn [bind]. eexists; split; [reflexivity|]. simpl.
        split; [reflexivity|]. split; [lia|]. split; [|reflexivity].
        intros k Hk. rewrite (proj2 (nth_error_None _ _)), (proj2 (nth_error_None _ _)); [reflexivity| |].
        * destruct (le_lt_dec (length (flat v)) k); [assumption|]. exfalso. apply Hk. apply in_seq. lia.
        * destruct (le_lt_dec (length (flat v)) k); [lia|]. exfalso. apply Hk. apply in_seq. lia.
      + rewrite spread_same by lia. cbn [bind]. eexists; split; [reflexivity|]. simpl.
        split; [reflexivity|]. split; [lia|]. split; [|reflexivity].
        intros k Hk. rewrite (proj2 (nth_error_None _ _)), (proj2 (nth_error_None _ _)); [reflexivity| |].
        * destruct (le_lt_dec (length (flat v)) k); [assumption|]. exfalso. apply Hk. apply in_seq. lia.
        * destruct (le_lt_dec (length (flat v)) k); [lia|]. exfalso. apply Hk. apply in_seq. lia. }
  destruct Hset as (v' & Es & K' & L' & O' & Efv).
  assert (Hfs2 : fits (m_scaler m) (length x2)) by (rewrite L2; exact Hfs).
  assert (Hfa2 : fits (m_adder m) (length x2)) by (rewrite L2; exact Hfa).
  destruct (get_scaled v' m x2 Efv Hfs2 Hfa2) as (w & Ew & Sw).
  exists v', w. split; [exact Es|]. split; [exact Ew|]. split; [|split; [exact K'|split; assumption]].
  eapply same_trans; [exact Sw|]. rewrite L2.
  eapply same_trans.
  - apply zipQ_same; [intros x x' y Hx; rewrite Hx; reflexivity|].
    apply zipQ_same; [intros x x' y Hx; rewrite Hx; reflexivity|]. exact S2.
  - apply round_trip_lists.
    + rewrite expand_length by exact Hfs. reflexivity.
    + rewrite expand_length by exact Hfa. reflexivity.
    + apply nonzero_expand. exact Hnz.
Qed.

(** C11 *)
Lemma pick_entry : forall s n i k,
    fits s n -> norm_index n i = Some k -> pick s i = Ok (Num (entry s k)).
Proof.
  intros [x|a] n i k Hf Hk; simpl in *; [reflexivity|]. rewrite Hf, Hk.
  destruct (nth_error a k) as [y|] eqn:E.
  - rewrite (nth_error_nth _ _ _ E). reflexivity.
  - apply nth_error_None in E. apply norm_index_lt in Hk. lia.
Qed.

Lemma set_one_entry : forall v m x i k,
    vkind_of v = KFlat -> i <> 0%Z -> addresses (length (flat v)) i k ->
    fits (m_scaler m) (length (flat v)) -> fits (m_adder m) (length (flat v)) -> nonzero (m_scaler m) ->
    exists v' y,
      set_desvar v m (NpFloat x) (Some i) = Ok v' /\ vkind_of v' = KFlat /\
      nth_error (flat v') k = Some y /\ (y + entry (m_adder m) k) * entry (m_scaler m) k == x /\
      (forall j, j <> k -> nth_error (flat v') j = nth_error (flat v) j).
Proof.
  intros v m x i k Hk Hi Hn Hfs Hfa Hnz.
  apply norm_index_addresses in Hn. pose proof (norm_index_lt _ _ _ Hn) as Hlt.
  unfold set_desvar. unfold truthy. rewrite (proj2 (Z.eqb_neq i 0) Hi). rewrite Hn. cbn [bind].
  rewrite (proj2 (Nat.eqb_neq _ _)) by lia.
  assert (Hs0 : ~ entry (m_scaler m) k == 0).
  { destruct (m_scaler m) as [s|a]; simpl in *; [exact Hnz|].
    rewrite Forall_forall in Hnz. apply Hnz. apply nth_In. lia. }
  assert (H1 : exists x1, match m_scaler m with
      | Num y => if Qeq_bool y 1 then Ok (NpFloat x) else val_op Qdiv (NpFloat x) (Num y)
      | Arr a => bind (pick (Arr a) i) (fun s => val_op Qdiv (NpFloat x) s)
      end = Ok (NpFloat x1) /\ x1 == x / entry (m_scaler m) k).
  { destruct (m_scaler m) as [s|a].
    - destruct (Qeq_bool s 1) eqn:E.
      + apply Qeq_bool_iff in E. exists x. split; [reflexivity|]. simpl. rewrite E. field.
      + eexists; split; [reflexivity|]. reflexivity.
    - rewrite (pick_entry (Arr a) _ i k Hfs Hn). cbn [bind]. eexists; split; [reflexivity|]. reflexivity. }
  destruct H1 as (x1 & E1 & Q1). rewrite E1. cbn [bind].
  assert (H2 : exists x2, match m_adder m with
      | Num y => if Qeq_bool y 0 then Ok (NpFloat x1) else val_op Qminus (NpFloat x1) (Num y)
      | Arr a => bind (pick (Arr a) i) (fun s => val_op Qminus (NpFloat x1) s)
      end = Ok (NpFloat x2) /\ x2 == x1 - entry (m_adder m) k).
  { destruct (m_adder m) as [s|a].
    - destruct (Qeq_bool s 0) eqn:E.
      + apply Qeq_bool_iff in E. exists x1. split; [reflexivity|]. simpl. rewrite E. ring.
      + eexists; split; [reflexivity|]. reflexivity.
    - rewrite (pick_entry (Arr a) _ i k Hfa Hn). cbn [bind]. eexists; split; [reflexivity|]. reflexivity. }
  destruct H2 as (x2 & E2 & Q2). rewrite E2. cbn [bind].
  unfold assign_index. rewrite Hk, Hn. cbn [entries].
  exists (mkVar KFlat (setnth (flat v) k x2)), x2. split; [reflexivity|]. split; [reflexivity|]. simpl.
  split; [apply setnth_same; exact Hlt|]. split.
  - rewrite Q2, Q1. field. exact Hs0.
  - intros j Hj. apply setnth_other. exact Hj.
Qed.

Lemma index_zero_is_no_index : forall v m x, set_desvar v m x (Some 0%Z) = set_desvar v m x None.
Proof. reflexivity. Qed.

(** C10 *)
Lemma scaled_value_eq : forall x a s, scaled_value x a s == (x + a) * s.
Proof.
  intros x a s. unfold scaled_value.
  destruct (Qeq_bool s 1) eqn:E1; simpl; [|reflexivity].
  destruct (Qeq_bool a 0) eqn:E2; simpl; [|reflexivity].
  apply Qeq_bool_iff in E1, E2. rewrite E1, E2. ring.
Qed.

Lemma Qle_scale : forall a b f, 0 < f -> (a <= b <-> a * f <= b * f).
Proof.
  intros a b f Hf. split; intros H.
  - apply Qmult_le_compat_r; lra.
  - apply Qmult_le_r in H; assumption.
Qed.

Lemma bounds_positive_scaler : forall fmax lower upper adder scaler x,
    0 < scaler -> - fmax <= x -> x <= fmax ->
    (within lower upper x <->
     scaled_lower fmax lower adder scaler <= scaled_value x adder scaler /\
     scaled_value x adder scaler <= scaled_upper fmax upper adder scaler).
Proof.
  intros fmax lower upper adder scaler x Hs Hlo Hhi.
  rewrite !scaled_value_eq. unfold within, scaled_lower, scaled_upper.
  rewrite <- !Qle_scale by exact Hs.
  destruct lower as [l|], upper as [u|]; split; intros [H1 H2]; split; lra.
Qed.

Lemma bounds_negative_scaler : forall fmax lower upper adder scaler x,
    scaler < 0 -> - fmax <= x -> x <= fmax ->
    (within lower upper x <->
     scaled_upper fmax upper adder scaler <= scaled_value x adder scaler /\
     scaled_value x adder scaler <= scaled_lower fmax lower adder scaler).
Proof.
  intros fmax lower upper adder scaler x Hs Hlo Hhi.
  rewrite !scaled_value_eq. unfold within, scaled_lower, scaled_upper.
  assert (Hneg : forall a b, a * scaler <= b * scaler <-> b <= a).
  { intros a b. rewrite (Qle_scale b a (- scaler)) by lra. split; intros H; lra. }
  rewrite !Hneg.
  destruct lower as [l|], upper as [u|]; split; intros [H1 H2]; split; lra.
Qed.

(** ** C12 *)
Lemma scale_num_ok : forall b a s n, fits b n -> fits a n -> fits s n ->
    exists y, scale_num b a s = Ok y /\ fits y n /\
      forall k, (k < n)%nat -> entry y k == (entry b k + entry a k) * entry s k.
Proof.
  assert (Hz : forall op (p q : list Q) k n, length p = n -> length q = n -> (k < n)%nat ->
                 nth k (zipQ op p q) 0 = op (nth k p 0) (nth k q 0)).
  { intros op. induction p as [|x p IH]; intros [|y q] k n Hp Hq Hk; simpl in *; try lia.
    destruct k as [|k]; [reflexivity|]. simpl. apply (IH q k (length p)); lia. }
  assert (Hm : forall (f : Q -> Q) l k, (k < length l)%nat -> nth k (map f l) 0 = f (nth k l 0)).
  { intros f. induction l as [|x l IH]; intros k Hk; simpl in *; [lia|].
    destruct k as [|k]; [reflexivity|]. apply IH. lia. }
  intros b a s n Hb Ha Hs. unfold scale_num.
  assert (Hop : forall (op : Q -> Q -> Q) x y, fits x n -> fits y n ->
            exists r, match x, y with
                 | Num p, Num q => Ok (Num (op p q))
                 | Num p, Arr q => Ok (Arr (map (fun z => op p z) q))
                 | Arr p, _ => let! r := arr_op op p y in Ok (Arr r)
                 end = Ok r /\ fits r n /\ forall k, (k < n)%nat -> entry r k == op (entry x k) (entry y k)).
  { intros op [p|p] [q|q] Hx Hy; simpl in Hx, Hy.
    - eexists; split; [reflexivity|]. split; [exact I|]. intros; reflexivity.
    - eexists; split; [reflexivity|]. simpl. split; [rewrite map_length; exact Hy|].
      intros k Hk. rewrite Hm by lia. reflexivity.
    - eexists; split; [reflexivity|]. simpl. split; [rewrite map_length; exact Hx|].
      intros k Hk. rewrite (Hm (fun x => op x q)) by lia. reflexivity.
    - rewrite arr_op_fits by (simpl; lia). eexists; split; [reflexivity|]. simpl.
      split; [rewrite zipQ_length; lia|]. intros k Hk. rewrite (Hz op p q k n) by lia. reflexivity. }
  destruct (Hop Qplus b a Hb Ha) as (r & Er & Fr & Vr).
  destruct (Hop Qmult r s Fr Hs) as (y & Ey & Fy & Vy).
  exists y. split.
  - rewrite Er. cbn [bind]. exact Ey.
  - split; [exact Fy|]. intros k Hk. rewrite (Vy k Hk), (Vr k Hk). reflexivity.
Qed.

Definition legalb (s : supports) (a : con_args) : bool :=
  if is_some (c_equals a)
  then negb (is_some (c_lower a)) && negb (is_some (c_upper a)) && s_eq s
  else (is_some (c_lower a) || is_some (c_upper a)) && s_ineq s &&
       (negb (is_some (c_lower a) && is_some (c_upper a)) || s_two s).

Lemma legalb_iff : forall s a, legalb s a = true <-> legal s a.
Proof.
  intros s a. unfold legalb, legal.
  destruct (c_equals a) as [e|], (c_lower a) as [l|], (c_upper a) as [u|]; simpl;
    destruct (s_eq s), (s_ineq s), (s_two s); simpl;
    (split; [intros H; try discriminate|intros H]);
    try (left; repeat split; congruence);
    try (right; repeat split; try congruence; try (left; congruence); try (right; congruence));
    try reflexivity;
    try (destruct H as [(A & B & C & D)|(A & B & C & D)]; try congruence;
         try (destruct B as [B|B]; congruence);
         try (assert (false = true) by (apply D; congruence); congruence)).
Qed.

Lemma add_constraint_illegal : forall s cons a,
    ~ legal s a \/ In (c_name a) (dkeys cons) -> add_constraint s cons a = Err RuntimeError.
Proof.
  intros s cons a H. unfold add_constraint.
  destruct (smem cons (c_name a)) eqn:Em; [reflexivity|].
  destruct H as [H|H].
  - assert (Hb : legalb s a = false) by (destruct (legalb s a) eqn:E; [apply legalb_iff in E; contradiction|reflexivity]).
    unfold legalb in Hb.
    destruct (c_equals a) as [e|], (c_lower a) as [l|], (c_upper a) as [u|]; simpl in *;
      destruct (s_eq s), (s_ineq s), (s_two s); simpl in *; try discriminate; reflexivity.
  - exfalso. unfold smem, dmem in Em. destruct (dget String.eqb cons (c_name a)) eqn:E; [discriminate|].
    apply dget_none in E; [contradiction|apply String.eqb_eq].
Qed.

(** what an accepted call stores *)
Definition stored (a : con_args) (k : con) : Prop :=
  (is_some (k_lower k) = is_some (c_lower a)) /\ (is_some (k_upper k) = is_some (c_upper a)) /\
  (is_some (k_equals k) = is_some (c_equals a)) /\ k_linear k = c_linear a /\
  m_scaler (k_meta k) = c_scaler a /\ m_adder (k_meta k) = c_adder a /\
  m_indices (k_meta k) = truthy_list (c_indices a) /\
  (forall n b, fits (c_adder a) n -> fits (c_scaler a) n -> fits b n ->
     (c_lower a = Some b -> exists y, k_lower k = Some y /\
        forall i, (i < n)%nat -> entry y i == (entry b i + entry (c_adder a) i) * entry (c_scaler a) i) /\
     (c_upper a = Some b -> exists y, k_upper k = Some y /\
        forall i, (i < n)%nat -> entry y i == (entry b i + entry (c_adder a) i) * entry (c_scaler a) i) /\
     (c_equals a = Some b -> exists y, k_equals k = Some y /\
        forall i, (i < n)%nat -> entry y i == (entry b i + entry (c_adder a) i) * entry (c_scaler a) i)).

Lemma scale_opt_ok : forall b a s n,
    (forall x, b = Some x -> fits x n) -> fits a n -> fits s n ->
    exists y, scale_opt b a s = Ok y /\ is_some y = is_some b.
Proof.
  intros [x|] a s n Hb Ha Hs; simpl.
  - destruct (scale_num_ok x a s n (Hb x eq_refl) Ha Hs) as (y & E & _). rewrite E.
    eexists; split; reflexivity.
  - eexists; split; reflexivity.
Qed.

Lemma add_constraint_legal : forall s cons a,
    legal s a -> ~ In (c_name a) (dkeys cons) -> consistent a ->
    exists k, add_constraint s cons a = Ok (cons ++ [(c_name a, k)]) /\ stored a k.
Proof.
  intros s cons a Hl Hn (n & Ha & Hs & Hlo & Hup & Heq). unfold add_constraint.
  assert (Em : smem cons (c_name a) = false).
  { unfold smem, dmem. destruct (dget String.eqb cons (c_name a)) eqn:E; [|reflexivity].
    exfalso. apply Hn. eapply dget_some_in_keys; [apply String.eqb_eq|exact E]. }
  rewrite Em.
  destruct (scale_opt_ok (c_lower a) (c_adder a) (c_scaler a) n Hlo Ha Hs) as (lo & Elo & Slo).
  destruct (scale_opt_ok (c_upper a) (c_adder a) (c_scaler a) n Hup Ha Hs) as (up & Eup & Sup).
  destruct (scale_opt_ok (c_equals a) (c_adder a) (c_scaler a) n Heq Ha Hs) as (eq & Eeq & Seq).
  assert (Hset : forall k, sset cons (c_name a) k = cons ++ [(c_name a, k)]).
  { intros k. clear -Hn. induction cons as [|[m x] r IH]; simpl; [reflexivity|].
    unfold sset; simpl. rewrite (proj2 (String.eqb_neq _ _)).
    - f_equal. apply IH. intros H; apply Hn; right; exact H.
    - intros E. apply Hn. left. symmetry. exact E. }
  exists (mkCon lo up eq (c_linear a) (mkMeta (c_scaler a) (c_adder a) (truthy_list (c_indices a)))).
  split.
  - assert (Hb : legalb s a = true) by (apply legalb_iff; exact Hl). unfold legalb in Hb.
    rewrite Elo, Eup, Eeq. cbn [bind]. rewrite Hset.
    destruct (c_equals a) as [e|], (c_lower a) as [l|], (c_upper a) as [u|]; simpl in *;
      destruct (s_eq s), (s_ineq s), (s_two s); simpl in *; try discriminate; reflexivity.
  - unfold stored. simpl. repeat (split; [assumption || reflexivity|]).
    intros n' b Ha' Hs' Hb'.
    assert (Hgen : forall o r, scale_opt o (c_adder a) (c_scaler a) = Ok r -> o = Some b ->
              exists y, r = Some y /\ forall i, (i < n')%nat ->
                 entry y i == (entry b i + entry (c_adder a) i) * entry (c_scaler a) i).
    { intros o r Er ->. simpl in Er.
      destruct (scale_num_ok b _ _ n' Hb' Ha' Hs') as (y & Ey & _ & Vy). rewrite Ey in Er.
      cbn [bind] in Er. injection Er as <-. exists y. split; [reflexivity|exact Vy]. }
    split; [|split]; eapply Hgen; eassumption.
Qed.

Lemma add_constraints_accepted : forall s l cons,
    (forall a, In a l -> consistent a) ->
    exists ks, add_constraints s cons l = cons ++ ks /\
      Forall2 (fun a nk => fst nk = c_name a /\ stored a (snd nk))
              (accepted s (dkeys cons) l (legalb s)) ks.
Proof.
  intros s. induction l as [|a l IH]; intros cons Hc; simpl.
  - exists []. rewrite app_nil_r. split; [reflexivity|constructor].
  - assert (Hex : existsb (String.eqb (c_name a)) (dkeys cons) = true <-> In (c_name a) (dkeys cons)).
    { rewrite existsb_exists. split.
      - intros (x & Hx & E). apply String.eqb_eq in E. subst. exact Hx.
      - intros H. exists (c_name a). split; [exact H|apply String.eqb_refl]. }
    assert (Hcr : forall b, In b l -> consistent b) by (intros b Hb; apply Hc; right; exact Hb).
    destruct (legalb s a) eqn:El; simpl.
    + destruct (existsb (String.eqb (c_name a)) (dkeys cons)) eqn:Ee; simpl.
      * rewrite add_constraint_illegal by (right; apply Hex; reflexivity). apply IH; exact Hcr.
      * apply legalb_iff in El.
        destruct (add_constraint_legal s cons a El) as (k & Ek & Sk).
        { intros H. apply Hex in H. congruence. }
        { apply Hc; left; reflexivity. }
        rewrite Ek. destruct (IH (cons ++ [(c_name a, k)]) Hcr) as (ks & E1 & F1).
        exists ((c_name a, k) :: ks). split; [rewrite E1, <- app_assoc; reflexivity|].
        constructor; [split; [reflexivity|exact Sk]|].
        assert (Hacc : forall u1 u2, (forall x, In x u1 <-> In x u2) ->
                   accepted s u1 l (legalb s) = accepted s u2 l (legalb s)).
        { clear. induction l as [|b l IH]; intros u1 u2 Hu; simpl; [reflexivity|].
          assert (E : existsb (String.eqb (c_name b)) u1 = existsb (String.eqb (c_name b)) u2).
          { apply eq_true_iff_eq. rewrite !existsb_exists. split; intros (x & Hx & Ex); exists x; (split; [apply Hu; exact Hx|exact Ex]). }
          rewrite E. destruct (legalb s b && negb (existsb (String.eqb (c_name b)) u2)).
          - f_equal. apply IH. intros x. simpl. rewrite (Hu x). reflexivity.
          - apply IH. exact Hu. }
        rewrite (Hacc (c_name a :: dkeys cons) (dkeys (cons ++ [(c_name a, k)]))); [exact F1|].
        intros x. unfold dkeys. rewrite map_app, in_app_iff. simpl. tauto.
    + rewrite add_constraint_illegal; [apply IH; exact Hcr|].
      left. intros H. apply legalb_iff in H. congruence.
Qed.

Definition wantedb (ct : ctype) (lt : lintype) (a : con_args) : bool :=
  match ct with CAll => true | CEq => is_some (c_equals a) | CIneq => negb (is_some (c_equals a)) end &&
  match lt with LAll => true | LLinear => c_linear a | LNonlinear => negb (c_linear a) end.

Lemma wantedb_iff : forall ct lt a, wantedb ct lt a = true <-> wanted ct lt a.
Proof.
  intros ct lt a. unfold wantedb, wanted.
  destruct ct, lt, (c_equals a), (c_linear a); simpl; split; intros H; try discriminate;
    try reflexivity; try (split; congruence); try (destruct H; congruence);
    try (split; [exact I|congruence]); try (split; [congruence|exact I]); try (split; exact I);
    try (destruct H as [H1 H2]; try congruence; exfalso; apply H1; reflexivity).
Qed.

Lemma con_selected_wanted : forall ct lt a k, stored a k -> con_selected ct lt k = wantedb ct lt a.
Proof.
  intros ct lt a k (_ & _ & He & Hl & _). unfold con_selected, wantedb. rewrite He, Hl.
  destruct ct, lt; simpl; try reflexivity; rewrite ?andb_true_r; try apply andb_comm; reflexivity.
Qed.

Lemma get_constraints_names : forall vars ct lt l ks r,
    Forall2 (fun a nk => fst nk = c_name a /\ stored a (snd nk)) l ks ->
    get_constraints vars ct lt ks = Ok r ->
    map fst r = map c_name (filter (wantedb ct lt) l) /\
    (forall n x, In (n, x) r -> exists a k v, In a l /\ c_name a = n /\ wanted ct lt a /\ stored a k /\
        vars n = Some v /\ get_distrib_var v (k_meta k) = Ok x).
Proof.
  intros vars ct lt l ks r H. revert r.
  induction H as [|a [n k] l ks [Hn Hs] H IH]; intros r Hr; simpl in Hr.
  - injection Hr as <-. split; [reflexivity|intros n x []].
  - simpl in Hn, Hs. subst n. simpl. rewrite (con_selected_wanted ct lt a k Hs) in Hr.
    destruct (wantedb ct lt a) eqn:Ew.
    + destruct (vars (c_name a)) as [v|] eqn:Ev; [|discriminate].
      destruct (get_distrib_var v (k_meta k)) as [x|] eqn:Ex; cbn [bind] in Hr; [|discriminate].
      destruct (get_constraints vars ct lt ks) as [xs|] eqn:Exs; cbn [bind] in Hr; [|discriminate].
      injection Hr as <-. destruct (IH xs eq_refl) as [I1 I2]. split.
      * simpl. f_equal. exact I1.
      * intros n y [Heq|Hin].
        -- injection Heq as <- <-. exists a, k, v. split; [left; reflexivity|]. split; [reflexivity|].
           split; [apply wantedb_iff; exact Ew|]. split; [exact Hs|]. split; assumption.
        -- destruct (I2 n y Hin) as (a' & k' & v' & H1 & H2). exists a', k', v'. split; [right; exact H1|exact H2].
    + destruct (IH r Hr) as [I1 I2]. split; [exact I1|].
      intros n y Hin. destruct (I2 n y Hin) as (a' & k' & v' & H1 & H2). exists a', k', v'. split; [right; exact H1|exact H2].
Qed.

Lemma accepted_names_nodup : forall s lb l used,
    NoDup (map c_name (accepted s used l lb)) /\
    (forall a, In a (accepted s used l lb) -> ~ In (c_name a) used /\ In a l /\ lb a = true).
Proof.
  intros s lb. induction l as [|a l IH]; intros used; simpl.
  - split; [constructor|intros a []].
  - destruct (lb a && negb (existsb (String.eqb (c_name a)) used)) eqn:E; simpl.
    + apply andb_true_iff in E as [E1 E2]. apply negb_true_iff in E2.
      destruct (IH (c_name a :: used)) as [N1 N2]. split.
      * constructor; [|exact N1]. intros Hin. apply in_map_iff in Hin as (b & Eb & Hb).
        destruct (N2 b Hb) as [Hb' _]. apply Hb'. left. symmetry; exact Eb.
      * intros b [<-|Hb].
        -- split; [|split; [left; reflexivity|exact E1]]. intros Hin.
           assert (existsb (String.eqb (c_name a)) used = true); [|congruence].
           apply existsb_exists. exists (c_name a). split; [exact Hin|apply String.eqb_refl].
        -- destruct (N2 b Hb) as (H1 & H2 & H3). split; [intros H; apply H1; right; exact H|].
           split; [right; exact H2|exact H3].
    + destruct (IH used) as [N1 N2]. split; [exact N1|]. intros b Hb.
      destruct (N2 b Hb) as (H1 & H2 & H3). split; [exact H1|]. split; [right; exact H2|exact H3].
Qed.

(** every accepted constraint is reported exactly once as its type *)
Lemma constraints_partition : forall s l vars ct lt r,
    (forall a, In a l -> consistent a) ->
    get_constraints vars ct lt (add_constraints s [] l) = Ok r ->
    map fst r = map c_name (filter (wantedb ct lt) (accepted s [] l (legalb s))) /\
    NoDup (map fst r) /\
    (forall n x, In (n, x) r -> exists a k v,
        In a (accepted s [] l (legalb s)) /\ c_name a = n /\ wanted ct lt a /\
        stored a k /\ vars n = Some v /\ get_distrib_var v (k_meta k) = Ok x).
Proof.
  intros s l vars ct lt r Hc H.
  destruct (add_constraints_accepted s l [] Hc) as (ks & E & F). rewrite E in H. simpl in *.
  destruct (get_constraints_names vars ct lt _ ks r F H) as [I1 I2].
  split; [exact I1|]. split; [|exact I2]. rewrite I1.
  destruct (accepted_names_nodup s (legalb s) l []) as [N _].
  clear -N. induction (accepted s [] l (legalb s)) as [|a t IH]; simpl in *; [constructor|].
  inversion N as [|x y Hni N']; subst. destruct (wantedb ct lt a); simpl; [|apply IH; exact N'].
  constructor; [|apply IH; exact N']. intros Hin. apply Hni.
  apply in_map_iff in Hin as (b & Eb & Hb). apply filter_In in Hb as [Hb _].
  rewrite <- Eb. apply in_map. exact Hb.
Qed.

(** ** C13 *)
Lemma fold_conv_get : forall (f : num -> num) l d n,
    sget (fold_left (fun d nm => if is_unit_scaler (snd nm) then d else sset d (fst nm) (f (snd nm))) l d) n
    = match find (fun nm => String.eqb n (fst nm) && negb (is_unit_scaler (snd nm))) (rev l) with
      | Some nm => Some (f (snd nm))
      | None => sget d n
      end.
Proof.
  intros f. induction l as [|[m s] l IH]; intros d n; simpl; [reflexivity|].
  rewrite IH. clear IH.
  assert (Hf : forall (p : string * num -> bool) a b, find p (a ++ b) =
            match find p a with Some x => Some x | None => find p b end).
  { intros p. induction a as [|x a IH]; intros b; simpl; [reflexivity|]. destruct (p x); [reflexivity|apply IH]. }
  rewrite Hf.
  destruct (find (fun nm => String.eqb n (fst nm) && negb (is_unit_scaler (snd nm))) (rev l)); [reflexivity|].
  simpl. destruct (is_unit_scaler s); simpl.
  - rewrite andb_false_r. reflexivity.
  - rewrite sget_sset. rewrite andb_true_r. destruct (String.eqb n m); reflexivity.
Qed.

Lemma find_conv_unique : forall l n s,
    NoDup (map fst l) -> In (n, s) l ->
    find (fun nm => String.eqb n (fst nm) && negb (is_unit_scaler (snd nm))) (rev l)
    = if is_unit_scaler s then None else Some (n, s).
Proof.
  intros l n s Hnd Hin.
  destruct (find (fun nm => String.eqb n (fst nm) && negb (is_unit_scaler (snd nm))) (rev l)) as [[m s']|] eqn:E.
  - apply find_some in E as [E1 E2]. simpl in E2. apply andb_true_iff in E2 as [E2 E3].
    apply String.eqb_eq in E2. subst m. apply in_rev in E1.
    assert (s' = s).
    { pose proof (in_dget String.eqb String.eqb_eq l n s Hnd Hin) as G1.
      pose proof (in_dget String.eqb String.eqb_eq l n s' Hnd E1) as G2. congruence. }
    subst s'. apply negb_true_iff in E3. rewrite E3. reflexivity.
  - destruct (is_unit_scaler s) eqn:Es; [reflexivity|].
    apply (find_none _ _) with (x := (n, s)) in E; [|apply -> in_rev; exact Hin].
    simpl in E. rewrite String.eqb_refl, Es in E. discriminate.
Qed.

Lemma slice_scalar : forall o s n k,
    (o = Some (Num s) \/ (o = None /\ s == 1)) ->
    exists f, slice_factor o n k = Ok f /\ f == s.
Proof.
  intros o s n k [->|[-> Hs]]; simpl; eexists; (split; [reflexivity|]); [reflexivity|symmetry; exact Hs].
Qed.

Lemma dv_conv_scalar : forall desvars n s,
    NoDup (map fst desvars) -> In (n, Num s) desvars ->
    sget (dv_conversions desvars) n = Some (Num (/ s)) \/
    (sget (dv_conversions desvars) n = None /\ / s == 1).
Proof.
  intros desvars n s Hnd Hin. unfold dv_conversions. rewrite fold_conv_get.
  rewrite (find_conv_unique _ _ _ Hnd Hin). simpl.
  destruct (Qeq_bool s 1) eqn:E; simpl; [right|left; reflexivity].
  split; [reflexivity|]. apply Qeq_bool_iff in E. rewrite E. reflexivity.
Qed.

Lemma fn_conv_scalar : forall objs cons n s,
    NoDup (map fst (objs ++ cons)) -> In (n, Num s) (objs ++ cons) ->
    sget (fn_conversions objs cons) n = Some (Num s) \/
    (sget (fn_conversions objs cons) n = None /\ s == 1).
Proof.
  intros objs cons n s Hnd Hin. unfold fn_conversions.
  rewrite (fold_conv_get (fun x => x)).
  rewrite (find_conv_unique _ _ _ Hnd Hin). simpl.
  destruct (Qeq_bool s 1) eqn:E; simpl; [right|left; reflexivity].
  split; [reflexivity|]. apply Qeq_bool_iff in E. exact E.
Qed.

Definition gradient_right (g : option num -> option num -> nat -> nat -> (nat -> nat -> Q) -> nat -> nat -> res Q) : Prop :=
  forall desvars objs cons f x sf sx af ax nf nx J j i,
    NoDup (map fst desvars) -> NoDup (map fst (objs ++ cons)) ->
    In (x, Num sx) desvars -> In (f, Num sf) (objs ++ cons) -> ~ sx == 0 ->
    exists G, g (sget (dv_conversions desvars) x) (sget (fn_conversions objs cons) f) nf nx J j i = Ok G /\
      forall f0 d1 d2,
        scaled_value (f0 + J j i * d2) af sf - scaled_value (f0 + J j i * d1) af sf
        == G * (scaled_value d2 ax sx - scaled_value d1 ax sx).

Lemma gradient_scalar_right : gradient_right grad_fwd /\ gradient_right grad_rev /\ gradient_right grad_fd.
Proof.
  assert (Hf : forall G J sf sx a b, G == J * a * b -> a == / sx -> b == sf -> ~ sx == 0 ->
     forall af ax f0 d1 d2,
        scaled_value (f0 + J * d2) af sf - scaled_value (f0 + J * d1) af sf
        == G * (scaled_value d2 ax sx - scaled_value d1 ax sx)).
  { intros G J sf sx a b HG Ha Hb Hnz af ax f0 d1 d2. rewrite !scaled_value_eq, HG, Ha, Hb. field. exact Hnz. }
  unfold gradient_right. repeat split; intros desvars objs cons f x sf sx af ax nf nx J j i Hd Ho Hx Hfn Hnz;
    pose proof (dv_conv_scalar desvars x sx Hd Hx) as Cd;
    pose proof (fn_conv_scalar objs cons f sf Ho Hfn) as Cf.
  - destruct (slice_scalar _ (/ sx) nf j Cd) as (a & Ea & Qa).
    destruct (slice_scalar _ sf nf j Cf) as (b & Eb & Qb).
    exists (J j i * a * b). split; [unfold grad_fwd; rewrite Ea, Eb; reflexivity|].
    apply (Hf _ _ sf sx a b); try assumption. reflexivity.
  - destruct (slice_scalar _ (/ sx) nx i Cd) as (a & Ea & Qa).
    destruct (slice_scalar _ sf nx i Cf) as (b & Eb & Qb).
    exists (J j i * b * a). split; [unfold grad_rev; rewrite Ea, Eb; reflexivity|].
    apply (Hf _ _ sf sx a b); try assumption. ring.
  - destruct (slice_scalar _ (/ sx) nx i Cd) as (a & Ea & Qa).
    destruct (slice_scalar _ sf nx i Cf) as (b & Eb & Qb).
    exists (J j i * a * b). split; [unfold grad_fd; rewrite Ea, Eb; reflexivity|].
    apply (Hf _ _ sf sx a b); try assumption. reflexivity.
Qed.

(** ** statements in the vocabulary of the specification *)
Lemma accepted_ext : forall s lb1 lb2 l used, (forall a, lb1 a = lb2 a) ->
    accepted s used l lb1 = accepted s used l lb2.
Proof.
  intros s lb1 lb2. induction l as [|a l IH]; intros used H; simpl; [reflexivity|].
  rewrite (H a). destruct (lb2 a && negb (existsb (String.eqb (c_name a)) used)); [f_equal|]; apply IH; exact H.
Qed.

Lemma legalb_unique : forall s lb, (forall a, lb a = true <-> legal s a) -> forall a, lb a = legalb s a.
Proof. intros s lb H a. apply eq_true_iff_eq. rewrite H, legalb_iff. reflexivity. Qed.

Lemma wantedb_unique : forall ct lt wb, (forall a, wb a = true <-> wanted ct lt a) -> forall a, wb a = wantedb ct lt a.
Proof. intros ct lt wb H a. apply eq_true_iff_eq. rewrite H, wantedb_iff. reflexivity. Qed.

Lemma nth_error_zip : forall op a b i x y,
    nth_error a i = Some x -> nth_error b i = Some y -> nth_error (zipQ op a b) i = Some (op x y).
Proof.
  intros op. induction a as [|x a IH]; intros [|y b] [|i] p q Hp Hq; simpl in *; try discriminate.
  - injection Hp as <-. injection Hq as <-. reflexivity.
  - apply IH; assumption.
Qed.

Lemma expand_entry : forall s n i, fits s n -> (i < n)%nat -> nth_error (expand s n) i = Some (entry s i).
Proof.
  intros [x|a] n i Hf Hi; simpl in *.
  - clear Hf. revert i Hi. induction n as [|n IH]; intros i Hi; [lia|]. destruct i as [|i]; [reflexivity|].
    simpl. apply IH. lia.
  - destruct (nth_error a i) as [y|] eqn:E.
    + rewrite (nth_error_nth _ _ _ E). reflexivity.
    + apply nth_error_None in E. lia.
Qed.

Lemma same_nth : forall a b i y, same_values a b -> nth_error b i = Some y ->
    exists x, nth_error a i = Some x /\ x == y.
Proof.
  intros a b i y H. revert i. induction H as [|p q a b Hp H IH]; intros [|i] Hy; simpl in *; try discriminate.
  - injection Hy as <-. exists p. split; [reflexivity|exact Hp].
  - apply IH. exact Hy.
Qed.

Lemma take_idx_spec : forall {A} (l : list A) ks,
    Forall (fun k => (k < length l)%nat) ks ->
    exists xs, take_idx l ks = Ok xs /\ length xs = length ks /\
      forall i k, nth_error ks i = Some k -> nth_error xs i = nth_error l k.
Proof.
  intros A l. induction ks as [|k ks IH]; intros H; simpl.
  - exists []. split; [reflexivity|]. split; [reflexivity|]. intros [|i] k E; discriminate.
  - inversion H; subst. destruct (IH H3) as (xs & E & L & V).
    destruct (nth_error l k) as [x|] eqn:Ex.
    + rewrite E. cbn [bind]. exists (x :: xs). split; [reflexivity|]. split; [simpl; lia|].
      intros [|i] k' Hk; simpl in *; [injection Hk as <-; symmetry; exact Ex|apply V; exact Hk].
    + apply nth_error_None in Ex. lia.
Qed.

Lemma get_entries : forall v m ks,
    selection (length (flat v)) m ks -> fits (m_scaler m) (length ks) -> fits (m_adder m) (length ks) ->
    exists w, get_distrib_var v m = Ok w /\ length w = length ks /\
      forall i k x, nth_error ks i = Some k -> nth_error (flat v) k = Some x ->
        exists y, nth_error w i = Some y /\ y == (x + entry (m_adder m) i) * entry (m_scaler m) i.
Proof.
  intros v m ks Hsel Hs Ha.
  assert (Hfv : exists fv, match m_indices m with
      | Some is => let! ks := norm_indices (length (flat v)) is in take_idx (flat v) ks
      | None => Ok (flat v) end = Ok fv /\ length fv = length ks /\
      forall i k, nth_error ks i = Some k -> nth_error fv i = nth_error (flat v) k).
  { unfold selection in Hsel. destruct (m_indices m) as [is|].
    - apply norm_indices_addresses in Hsel. rewrite Hsel. cbn [bind]. apply take_idx_spec. eapply norm_indices_lt; exact Hsel.
    - subst ks. exists (flat v). split; [reflexivity|]. split; [rewrite seq_length; reflexivity|].
      intros i k Hk.
      assert (Hi : (i < length (flat v))%nat).
      { apply nth_error_Some in Hk || (assert (nth_error (seq 0 (length (flat v))) i <> None) as Hk2 by congruence;
          apply nth_error_Some in Hk2; rewrite seq_length in Hk2; exact Hk2). }
      rewrite (nth_error_nth' (seq 0 (length (flat v))) 0%nat) in Hk by (rewrite seq_length; exact Hi).
      rewrite seq_nth in Hk by exact Hi. injection Hk as <-. reflexivity. }
  destruct Hfv as (fv & Efv & Lfv & Vfv).
  assert (Hs' : fits (m_scaler m) (length fv)) by (rewrite Lfv; exact Hs).
  assert (Ha' : fits (m_adder m) (length fv)) by (rewrite Lfv; exact Ha).
  destruct (get_scaled v m fv Efv Hs' Ha') as (w & Ew & Sw).
  exists w. split; [exact Ew|].
  assert (Lz : length (zipQ Qplus fv (expand (m_adder m) (length fv))) = length fv).
  { apply zipQ_length. rewrite expand_length by exact Ha'. reflexivity. }
  split.
  - rewrite (same_length _ _ Sw), zipQ_length; [lia|]. rewrite expand_length by exact Hs'. exact Lz.
  - intros i k x Hk Hx.
    assert (Hi : (i < length fv)%nat).
    { rewrite Lfv. apply nth_error_Some. congruence. }
    eapply same_nth; [exact Sw|].
    apply nth_error_zip; [|apply expand_entry; assumption].
    apply nth_error_zip; [|apply expand_entry; assumption].
    rewrite (Vfv i k Hk). exact Hx.
Qed.

Lemma constraints_reported : forall s l vars ct lt r lb wb,
    (forall a, lb a = true <-> legal s a) -> (forall a, wb a = true <-> wanted ct lt a) ->
    (forall a, In a l -> consistent a) ->
    get_constraints vars ct lt (add_constraints s [] l) = Ok r ->
    map fst r = map c_name (filter wb (accepted s [] l lb)) /\ NoDup (map fst r) /\
    (forall n x, In (n, x) r -> exists a v,
        In a (accepted s [] l lb) /\ c_name a = n /\ wanted ct lt a /\ vars n = Some v /\
        forall ks, selection (length (flat v)) (mkMeta (c_scaler a) (c_adder a) (truthy_list (c_indices a))) ks ->
          fits (c_scaler a) (length ks) -> fits (c_adder a) (length ks) ->
          length x = length ks /\
          forall i k y, nth_error ks i = Some k -> nth_error (flat v) k = Some y ->
            exists z, nth_error x i = Some z /\ z == (y + entry (c_adder a) i) * entry (c_scaler a) i).
Proof.
  intros s l vars ct lt r lb wb Hlb Hwb Hc H.
  pose proof (legalb_unique s lb Hlb) as Ul. pose proof (wantedb_unique ct lt wb Hwb) as Uw.
  destruct (constraints_partition s l vars ct lt r Hc H) as (P1 & P2 & P3).
  rewrite (accepted_ext s lb (legalb s) l [] Ul).
  split; [|split; [exact P2|]].
  - rewrite P1. f_equal. apply filter_ext. intros a. symmetry. apply Uw.
  - intros n x Hin. destruct (P3 n x Hin) as (a & k & v & A1 & A2 & A3 & A4 & A5 & A6).
    exists a, v. repeat (split; [assumption|]). intros ks Hsel Hfs Hfa.
    destruct A4 as (_ & _ & _ & _ & M1 & M2 & M3 & _).
    assert (Em : k_meta k = mkMeta (c_scaler a) (c_adder a) (truthy_list (c_indices a))).
    { rewrite <- M1, <- M2, <- M3. destruct (k_meta k); reflexivity. }
    rewrite Em in A6. destruct (get_entries v _ ks Hsel Hfs Hfa) as (w & Ew & Lw & Vw).
    rewrite Ew in A6. injection A6 as <-. split; [exact Lw|]. exact Vw.
Qed.

Lemma get_constraints_split : forall vars lt cons r,
    get_constraints vars CAll lt cons = Ok r ->
    exists re ri, get_constraints vars CEq lt cons = Ok re /\
      get_constraints vars CIneq lt cons = Ok ri /\ Permutation (re ++ ri) r.
Proof.
  intros vars lt. induction cons as [|[n k] cons IH]; intros r H; simpl in H.
  - injection H as <-. exists [], []. repeat split. constructor.
  - simpl. unfold con_selected in *. rewrite andb_true_r in H.
    destruct (match lt with LLinear => k_linear k | LNonlinear => negb (k_linear k) | LAll => true end).
    + destruct (vars n) as [v|]; [|discriminate].
      destruct (get_distrib_var v (k_meta k)) as [x|]; cbn [bind] in H; [|discriminate].
      destruct (get_constraints vars CAll lt cons) as [xs|]; cbn [bind] in H; [|discriminate].
      injection H as <-. destruct (IH xs eq_refl) as (re & ri & E1 & E2 & P).
      rewrite E1, E2. cbn [bind andb].
      destruct (is_some (k_equals k)); simpl.
      * exists ((n, x) :: re), ri. repeat split. simpl. constructor. exact P.
      * exists re, ((n, x) :: ri). repeat split.
        eapply Permutation_trans; [|constructor; exact P]. symmetry. apply Permutation_middle.
    + cbn [andb]. apply IH. exact H.
Qed.

Lemma get_constraints_split_linear : forall vars ct cons r,
    get_constraints vars ct LAll cons = Ok r ->
    exists rl rn, get_constraints vars ct LLinear cons = Ok rl /\
      get_constraints vars ct LNonlinear cons = Ok rn /\ Permutation (rl ++ rn) r.
Proof.
  intros vars ct. induction cons as [|[n k] cons IH]; intros r H; simpl in H.
  - injection H as <-. exists [], []. repeat split. constructor.
  - simpl. unfold con_selected in *. cbn [andb] in H.
    destruct (match ct with CEq => is_some (k_equals k) | CIneq => negb (is_some (k_equals k)) | CAll => true end).
    + rewrite !andb_true_r. destruct (vars n) as [v|]; [|discriminate].
      destruct (get_distrib_var v (k_meta k)) as [x|]; cbn [bind] in H; [|discriminate].
      destruct (get_constraints vars ct LAll cons) as [xs|]; cbn [bind] in H; [|discriminate].
      injection H as <-. destruct (IH xs eq_refl) as (re & ri & E1 & E2 & P).
      rewrite E1, E2. cbn [bind].
      destruct (k_linear k); simpl.
      * exists ((n, x) :: re), ri. repeat split. simpl. constructor. exact P.
      * exists re, ((n, x) :: ri). repeat split.
        eapply Permutation_trans; [|constructor; exact P]. symmetry. apply Permutation_middle.
    + rewrite !andb_false_r. apply IH. exact H.
Qed.

Lemma constraint_call : forall s cons a, consistent a ->
    (legal s a /\ ~ In (c_name a) (dkeys cons) ->
       exists k, add_constraint s cons a = Ok (cons ++ [(c_name a, k)]) /\
         forall n b, fits (c_adder a) n -> fits (c_scaler a) n -> fits b n ->
           (c_lower a = Some b -> exists y, k_lower k = Some y /\
              forall i, (i < n)%nat -> entry y i == (entry b i + entry (c_adder a) i) * entry (c_scaler a) i) /\
           (c_upper a = Some b -> exists y, k_upper k = Some y /\
              forall i, (i < n)%nat -> entry y i == (entry b i + entry (c_adder a) i) * entry (c_scaler a) i) /\
           (c_equals a = Some b -> exists y, k_equals k = Some y /\
              forall i, (i < n)%nat -> entry y i == (entry b i + entry (c_adder a) i) * entry (c_scaler a) i)) /\
    (~ (legal s a /\ ~ In (c_name a) (dkeys cons)) -> add_constraint s cons a = Err RuntimeError).
Proof.
  intros s cons a Hc. split.
  - intros [Hl Hn]. destruct (add_constraint_legal s cons a Hl Hn Hc) as (k & E & S).
    exists k. split; [exact E|]. apply S.
  - intros H. apply add_constraint_illegal.
    destruct (in_dec string_dec (c_name a) (dkeys cons)) as [Hi|Hi]; [right; exact Hi|left].
    intros Hl. apply H. split; assumption.
Qed.

(** Running a model: execution order, marking, residuals, feed-forward models. *)
From Verif Require Import Base RunModel RunSpec RunProofs RunProofs2.
Local Open Scope string_scope.
Local Open Scope nat_scope.
Local Open Scope list_scope.

(** ** a variable belongs to one component *)
Lemma split_unique : forall {A} (f : A -> list string) l a x m1 m2 n1 b n2,
    NoDup (flat_map f l) -> l = m1 ++ a :: m2 -> l = n1 ++ b :: n2 -> In x (f a) -> In x (f b) -> m1 = n1 /\ a = b /\ m2 = n2.
Proof.
  intros A f l a x m1. revert l. induction m1 as [|y m1 IH]; intros l m2 n1 b n2 Hn E1 E2 Ha Hb.
  - subst l. destruct n1 as [|z n1]; simpl in E2; injection E2 as E2 E3; [subst; auto|].
    exfalso. simpl in Hn. apply NoDup_app_inv in Hn. destruct Hn as (_ & _ & D). apply (D x Ha).
    rewrite E3. apply in_flat_map. exists b. split; [apply in_or_app; right; left; reflexivity|assumption].
  - subst l. destruct n1 as [|z n1]; simpl in E2; injection E2 as E2 E3.
    + exfalso. simpl in Hn. apply NoDup_app_inv in Hn. destruct Hn as (_ & _ & D). apply (D x); [rewrite E2; assumption|].
      apply in_flat_map. exists a. split; [apply in_or_app; right; left; reflexivity|assumption].
    + simpl in Hn. apply NoDup_app_inv in Hn. destruct Hn as (_ & Hn & _).
      destruct (IH (m1 ++ a :: m2) m2 n1 b n2 Hn eq_refl E3 Ha Hb) as (-> & -> & ->). subst. auto.
Qed.
Lemma owner_unique : forall {A} (f : A -> list string) l a b x,
    NoDup (flat_map f l) -> In a l -> In b l -> In x (f a) -> In x (f b) -> a = b.
Proof.
  intros A f l a b x Hn Ha Hb Hxa Hxb. apply in_split in Ha. destruct Ha as (m1 & m2 & E1).
  apply in_split in Hb. destruct Hb as (n1 & n2 & E2).
  apply (split_unique f l a x m1 m2 n1 b n2 Hn E1 E2 Hxa Hxb).
Qed.

Section More.
  Context {V : Type} (vadd vsub : V -> V -> V) (vopp : V -> V).
  Context (root : sys V) (conns : list (conn V)).
  Context (L : legal_model root conns).

  Let io := in_order root.
  Let Htgt := lm_targets root conns L.

  Lemma in_order_split : forall k a b p1 p2 p3, io k -> comps root = p1 ++ b :: p2 ++ a :: p3 ->
      In (k_src k) (c_unks a) -> In (k_tgt k) (c_params b) -> False.
  Proof.
    intros k a b p1 p2 p3 (a' & b' & (m1 & m2 & m3 & E) & Hs & Ht) E2 Ha Hb.
    assert (E3 : comps root = (m1 ++ a' :: m2) ++ b' :: m3) by (rewrite E, <- app_assoc; reflexivity).
    assert (E4 : comps root = (p1 ++ b :: p2) ++ a :: p3) by (rewrite E2, <- app_assoc; reflexivity).
    destruct (split_unique c_params _ b' (k_tgt k) (m1 ++ a' :: m2) m3 p1 b (p2 ++ a :: p3) (lm_params _ _ L) E3 E2 Ht Hb) as (Q1 & _ & _).
    destruct (split_unique c_unks _ a' (k_src k) m1 (m2 ++ b' :: m3) (p1 ++ b :: p2) a p3 (lm_unks _ _ L) E E4 Hs Ha) as (Q2 & _ & _).
    apply (f_equal (@length _)) in Q1. apply (f_equal (@length _)) in Q2. rewrite app_length in *. simpl in *. lia.
  Qed.
  Lemma in_order_self : forall k c p1 p3, io k -> comps root = p1 ++ c :: p3 ->
      In (k_src k) (c_unks c) -> In (k_tgt k) (c_params c) -> False.
  Proof.
    intros k c p1 p3 (a' & b' & (m1 & m2 & m3 & E) & Hs & Ht) E2 Ha Hb.
    assert (E3 : comps root = (m1 ++ a' :: m2) ++ b' :: m3) by (rewrite E, <- app_assoc; reflexivity).
    destruct (split_unique c_params _ b' (k_tgt k) (m1 ++ a' :: m2) m3 p1 c p3 (lm_params _ _ L) E3 E2 Ht Hb) as (Q1 & _ & _).
    destruct (split_unique c_unks _ a' (k_src k) m1 (m2 ++ b' :: m3) p1 c p3 (lm_unks _ _ L) E E2 Hs Ha) as (Q2 & _ & _).
    apply (f_equal (@length _)) in Q1. apply (f_equal (@length _)) in Q2. rewrite app_length in *. simpl in *. lia.
  Qed.

  Lemma comps_app : forall (l l' : list (sys V)), flat_map comps (l ++ l') = flat_map comps l ++ flat_map comps l'.
  Proof. intros. apply flat_map_app. Qed.

  Lemma tree_ordered : forall t q1 q2, comps root = q1 ++ comps t ++ q2 -> ordered conns io t.
  Proof.
    induction t as [c|par nl subs IH] using sys_ind2; intros q1 q2 E.
    - intros k Hk It Is Hio. exact (in_order_self k c q1 q2 Hio E Is It).
    - simpl in E. cbn [ordered]. split.
      + intros pre x post Es k Hk It Is Hio.
        apply in_flat_map in It. destruct It as (y & Hy & It). apply in_flat_map in It. destruct It as (b & Hb & It).
        apply in_flat_map in Is. destruct Is as (a & Ha & Is).
        rewrite Es, comps_app in E. simpl in E.
        apply in_split in Ha. destruct Ha as (a1 & a2 & Ea). rewrite Ea in E.
        assert (Hb' : In b (flat_map comps pre)) by (apply in_flat_map; exists y; split; assumption).
        apply in_split in Hb'. destruct Hb' as (b1 & b2 & Eb). rewrite Eb in E.
        apply (in_order_split k a b (q1 ++ b1) (b2 ++ a1) (a2 ++ flat_map comps post ++ q2) Hio); [|assumption|assumption].
        rewrite E. repeat (rewrite <- app_assoc; simpl). reflexivity.
      + assert (G : forall l pre, subs = pre ++ l ->
          (fix all (l : list (sys V)) : Prop := match l with [] => True | x :: l' => ordered conns io x /\ all l' end) l).
        { induction l as [|x l IHl]; intros pre Es; [exact I|]. split.
          - apply (IH x) with (q1 := q1 ++ flat_map comps pre) (q2 := flat_map comps l ++ q2).
            + rewrite Es. apply in_or_app. right. left. reflexivity.
            + rewrite E, Es, comps_app. simpl. repeat (rewrite <- app_assoc; simpl). reflexivity.
          - apply (IHl (pre ++ [x])). rewrite <- app_assoc. exact Es. }
        apply (G subs []). reflexivity.
  Qed.
  Lemma root_ordered : ordered conns io root.
  Proof. apply (tree_ordered root [] []). rewrite app_nil_r. reflexivity. Qed.

  (** ** marking *)
  Lemma position_some : forall (p : comp V -> bool) l n, position p l = Some n ->
      exists l1 c l2, l = l1 ++ c :: l2 /\ length l1 = n /\ p c = true /\ forall x, In x l1 -> p x = false.
  Proof.
    induction l as [|c l IH]; intros n H; simpl in H; [discriminate|]. destruct (p c) eqn:E.
    - injection H as <-. exists [], c, l. repeat split; [assumption|intros x []].
    - destruct (position p l) as [m|]; [|discriminate]. injection H as <-. destruct (IH m eq_refl) as (l1 & d & l2 & -> & Hl & Hp & Hf).
      exists (c :: l1), d, l2. repeat split; [simpl; lia|assumption|]. intros x [<-|Hx]; auto.
  Qed.
  Lemma find_owner : forall (f : comp V -> list string) x c l, NoDup (flat_map f l) -> In c l -> In x (f c) ->
      find (fun c => smem x (f c)) l = Some c.
  Proof.
    intros f x c l Hn Hc Hx. destruct (find (fun c => smem x (f c)) l) as [d|] eqn:E.
    - apply find_some in E. destruct E as [Hd E]. apply smem_in in E. f_equal. exact (owner_unique f l d c x Hn Hd Hc E Hx).
    - exfalso. pose proof (find_none _ _ E c Hc) as G. simpl in G. apply smem_out in G. contradiction.
  Qed.
  Lemma position_owner : forall (f : comp V -> list string) x c l l1 l2, NoDup (flat_map f l) -> l = l1 ++ c :: l2 -> In x (f c) ->
      position (fun c => smem x (f c)) l = Some (length l1).
  Proof.
    intros f x c l l1 l2 Hn E Hx. destruct (position (fun c0 => smem x (f c0)) l) as [n|] eqn:Ep.
    - apply position_some in Ep. destruct Ep as (m1 & d & m2 & E2 & Hl & Hp & _). apply smem_in in Hp.
      destruct (split_unique f l d x m1 m2 l1 c l2 Hn E2 E Hp Hx) as (-> & _ & _). rewrite Hl. reflexivity.
    - exfalso. subst l. clear Hn. induction l1 as [|y l1 IH]; simpl in Ep.
      + rewrite (proj2 (smem_in x (f c)) Hx) in Ep. discriminate.
      + destruct (smem x (f y)); [discriminate|]. destruct (position _ (l1 ++ c :: l2)); [discriminate|]. apply IH. reflexivity.
  Qed.

  Lemma two_positions : forall (a b : comp V) l, In a l -> In b l -> a <> b ->
      (exists l1 l2 l3, l = l1 ++ a :: l2 ++ b :: l3) \/ (exists l1 l2 l3, l = l1 ++ b :: l2 ++ a :: l3).
  Proof.
    induction l as [|c l IH]; intros Ha Hb Hne; [destruct Ha|]. destruct Ha as [->|Ha], Hb as [->|Hb]; [congruence| | |].
    - left. apply in_split in Hb. destruct Hb as (l2 & l3 & ->). exists [], l2, l3. reflexivity.
    - right. apply in_split in Ha. destruct Ha as (l2 & l3 & ->). exists [], l2, l3. reflexivity.
    - destruct (IH Ha Hb Hne) as [(l1 & l2 & l3 & ->)|(l1 & l2 & l3 & ->)]; [left|right]; exists (c :: l1), l2, l3; reflexivity.
  Qed.

  Lemma out_of_order_spec : forall k, In k conns -> exists b, In b (comps root) /\ In (k_tgt k) (c_params b) /\
      ((in_order root k /\ out_of_order root k = Ok None) \/ (~ in_order root k /\ out_of_order root k = Ok (Some (c_name b)))).
  Proof.
    intros k Hk. destruct (lm_ends _ _ L k Hk) as (a & b & Ha & Hb & Hne & Hs & Ht).
    exists b. split; [assumption|]. split; [assumption|].
    assert (Hab : a <> b) by congruence. unfold out_of_order.
    rewrite (find_owner c_params (k_tgt k) b _ (lm_params _ _ L) Hb Ht).
    destruct (two_positions a b _ Ha Hb Hab) as [(l1 & l2 & l3 & E)|(l1 & l2 & l3 & E)].
    - left. split; [exists a, b; split; [exists l1, l2, l3; assumption|split; assumption]|].
      assert (E3 : comps root = (l1 ++ a :: l2) ++ b :: l3) by (rewrite E, <- app_assoc; reflexivity).
      rewrite (position_owner c_params (k_tgt k) b _ (l1 ++ a :: l2) l3 (lm_params _ _ L) E3 Ht).
      rewrite (position_owner c_unks (k_src k) a _ l1 (l2 ++ b :: l3) (lm_unks _ _ L) E Hs).
      rewrite (proj2 (Nat.ltb_ge _ _)); [reflexivity|]. rewrite app_length. simpl. lia.
    - right. split; [intros Hio; exact (in_order_split k a b l1 l2 l3 Hio E Hs Ht)|].
      assert (E3 : comps root = (l1 ++ b :: l2) ++ a :: l3) by (rewrite E, <- app_assoc; reflexivity).
      rewrite (position_owner c_unks (k_src k) a _ (l1 ++ b :: l2) l3 (lm_unks _ _ L) E3 Hs).
      rewrite (position_owner c_params (k_tgt k) b _ l1 (l2 ++ a :: l3) (lm_params _ _ L) E Ht).
      rewrite (proj2 (Nat.ltb_lt _ _)); [reflexivity|]. rewrite app_length. simpl. lia.
  Qed.

  Lemma ubc_exact : exists m, get_ubc root conns = Ok m /\
      forall n, In n m <-> exists b k, In b (comps root) /\ c_name b = n /\ In k conns /\ In (k_tgt k) (c_params b) /\ ~ in_order root k.
  Proof.
    assert (G : forall ks, incl ks conns -> exists m, get_ubc root ks = Ok m /\
      forall n, In n m <-> exists b k, In b (comps root) /\ c_name b = n /\ In k ks /\ In (k_tgt k) (c_params b) /\ ~ in_order root k).
    { induction ks as [|k ks IH]; intros Hi.
      - exists []. split; [reflexivity|]. intros n. split; [intros []|]. intros (b & k & _ & _ & [] & _).
      - destruct IH as (m & Em & Hm); [intros y Hy; apply Hi; right; assumption|].
        destruct (out_of_order_spec k) as (b & Hb & Ht & Hc); [apply Hi; left; reflexivity|].
        destruct Hc as [[Hio E]|[Hno E]]; simpl; rewrite E; cbn [bind]; rewrite Em; cbn [bind].
        + exists m. split; [reflexivity|]. intros n. rewrite Hm. split.
          * intros (b' & k' & H1 & H2 & H3 & H4 & H5). exists b', k'. repeat split; try assumption. right. assumption.
          * intros (b' & k' & H1 & H2 & [->|H3] & H4 & H5); [contradiction|]. exists b', k'. repeat split; assumption.
        + exists (c_name b :: m). split; [reflexivity|]. intros n. simpl. rewrite Hm. split.
          * intros [<-|(b' & k' & H1 & H2 & H3 & H4 & H5)].
            -- exists b, k. repeat split; try assumption. left. reflexivity.
            -- exists b', k'. repeat split; try assumption. right. assumption.
          * intros (b' & k' & H1 & H2 & [<-|H3] & H4 & H5).
            -- left. rewrite (owner_unique c_params _ b b' (k_tgt k) (lm_params _ _ L) Hb H1 Ht H4). assumption.
            -- right. exists b', k'. repeat split; assumption. }
    destruct (G conns (incl_refl _)) as (m & Em & Hm). exists m. split; assumption.
  Qed.

  (** ** residuals *)
  Context (marked : list string).
  Context (Hr : restores vadd vsub vopp).
  Notation apply_sys := (apply_sys vadd vsub vopp conns marked).
  Notation run_sys := (run_sys vadd vsub vopp conns marked).
  Notation ap_ser := (ap_ser vadd vsub vopp conns marked).

  Lemma shown_ext : forall (c : comp V) s s', residual_shown vadd vopp c s -> (forall p, In p (c_params c) -> pv s' p = pv s p) ->
      (forall u, In u (c_unks c) -> uv s' u = uv s u) -> (forall u, In u (c_unks c) -> rv s' u = rv s u) ->
      residual_shown vadd vopp c s'.
  Proof.
    intros c s s' (rs & H1 & H2 & H3) Hp Hu Hv. exists rs. unfold true_residual in *.
    rewrite (map_ext_in (pv s') (pv s)), (map_ext_in (uv s') (uv s)), (map_ext_in (rv s') (rv s)) by assumption.
    repeat split; assumption.
  Qed.

  Lemma est_sub : forall P U cs P' U' cs' (s : st V), incl P' P -> incl U' U -> incl cs' cs -> est conns io P U cs s -> est conns io P' U' cs' s.
  Proof.
    intros P U cs P' U' cs' s HP HU HC (E1 & E2). split.
    - intros k Hk Hio (I1 & I2). apply E1; [assumption|assumption|split; auto].
    - intros c Hc. apply E2. auto.
  Qed.

  Lemma apply_shows : forall t, serial t -> NoDup (sys_params t) -> NoDup (sys_unks t) ->
      (forall c, In c (comps t) -> run_apply marked (Comp c) = false -> forall k, In k conns -> In (k_tgt k) (c_params c) -> io k) ->
      (forall c k, In c (comps t) -> In k conns -> In (k_tgt k) (c_params c) -> In (k_src k) (c_unks c) -> False) ->
      forall s s', (match t with Comp c => run_apply marked t = true | _ => True end) ->
      est conns io (sys_params t) (sys_unks t) (comps t) s -> apply_sys true t s = Ok s' ->
      (forall k, In k conns -> internal (sys_params t) (sys_unks t) k -> pv s' (k_tgt k) = k_conv k (uv s' (k_src k))) /\
      (forall c, In c (comps t) -> run_apply marked (Comp c) = true -> residual_shown vadd vopp c s').
  Proof.
    induction t as [c|par nl subs IH] using sys_ind2; intros Hser Np Nu Hm Hself s s' Hv He H.
    - rewrite comp_params, comp_unks in *. split.
      + intros k Hk (It & Is). exfalso. exact (Hself c k (or_introl eq_refl) Hk It Is).
      + intros c' [<-|[]] _. simpl in H. destruct (apply_comp_spec vadd vsub vopp conns Hr _ _ _ _ Nu H) as (Hu & Hp & _ & rs & T & Hl & Hrv).
        exists rs. split; [|split; assumption]. unfold true_residual in *.
        rewrite (map_ext_in (pv s') (pv s)), (map_ext_in (uv s') (uv s)) by (intros; auto). exact T.
    - destruct Hser as [-> Hser]. rewrite sys_params_grp, sys_unks_grp in *. rewrite apply_grp in H. clear Hv.
      set (U := flat_map sys_unks subs) in *. set (P := flat_map sys_params subs) in *.
      assert (G : forall l done s0 s1, subs = done ++ l -> est conns io P U (flat_map comps subs) s0 ->
        (forall k, In k conns -> In (k_tgt k) (flat_map sys_params done) -> In (k_src k) U -> pv s0 (k_tgt k) = k_conv k (uv s0 (k_src k))) ->
        (forall c, In c (flat_map comps done) -> run_apply marked (Comp c) = true -> residual_shown vadd vopp c s0) ->
        ap_ser U l s0 = Ok s1 ->
        (forall k, In k conns -> In (k_tgt k) P -> In (k_src k) U -> pv s1 (k_tgt k) = k_conv k (uv s1 (k_src k))) /\
        (forall c, In c (flat_map comps subs) -> run_apply marked (Comp c) = true -> residual_shown vadd vopp c s1)).
      { induction l as [|x l IHl]; intros done s0 s3 Es E0 C0 R0 H0; simpl in H0.
        - injection H0 as <-. rewrite app_nil_r in Es. subst done. split; assumption.
        - assert (Hx : In x subs) by (rewrite Es; apply in_or_app; right; left; reflexivity).
          assert (Es' : subs = (done ++ [x]) ++ l) by (rewrite <- app_assoc; exact Es).
          assert (Hcx : forall c, In c (comps x) -> In c (flat_map comps subs)) by (intros c Hc; apply in_flat_map; exists x; split; assumption).
          destruct (run_apply marked x) eqn:Ev.
          + set (s1 := transfer conns U x s0) in *. destruct (apply_sys true x s1) as [s2|] eqn:Ea; [|discriminate]. cbn [bind] in H0.
            assert (T : refreshed conns P U s0 s1) by (apply transfer_refreshed; apply incl_params; exact Hx).
            assert (E1 : est conns io P U (flat_map comps subs) s1) by (eapply est_refreshed; eassumption).
            assert (Npx : NoDup (sys_params x)) by (apply (nodup_part _ subs); assumption).
            assert (Nux : NoDup (sys_unks x)) by (apply (nodup_part _ subs); assumption).
            destruct (apply_refreshed vadd vsub vopp conns marked Hr x Nux _ _ _ Ea) as [Rx Rrv].
            assert (E2 : est conns io P U (flat_map comps subs) s2).
            { eapply est_refreshed; [exact Htgt|exact E1|].
              eapply refreshed_mono; [apply (incl_params x); exact Hx|apply (incl_unks x); exact Hx|exact Rx]. }
            destruct (IH x Hx) with (s := s1) (s' := s2) as [X1 X2]; try assumption.
            { apply (all_in serial subs Hser x Hx). }
            { intros c Hc. apply Hm. apply Hcx. assumption. }
            { intros c k Hc. apply Hself. apply Hcx. assumption. }
            { destruct x; [exact Ev|exact I]. }
            { eapply est_sub; [apply (incl_params x); exact Hx|apply (incl_unks x); exact Hx| |exact E1]. exact Hcx. }
            assert (Dp : forall p, In p (flat_map sys_params done) -> In p (sys_params x) -> False).
            { unfold P in Np. rewrite Es, flat_map_app in Np. simpl in Np. apply NoDup_app_inv in Np. destruct Np as (_ & _ & D).
              intros p A B. apply (D p A). apply in_or_app. left. assumption. }
            assert (Du : forall p, In p (flat_map sys_unks done) -> In p (sys_unks x) -> False).
            { assert (Nu' := Nu). unfold U in Nu'. rewrite Es, flat_map_app in Nu'. simpl in Nu'. apply NoDup_app_inv in Nu'. destruct Nu' as (_ & _ & D).
              intros p A B. apply (D p A). apply in_or_app. left. assumption. }
            destruct Rx as [Ru Rp].
            assert (Kp : forall p, In p (flat_map sys_params done) -> pv s2 p = pv s0 p).
            { intros p Hp. transitivity (pv s1 p).
              - destruct (Rp p) as [->|(k & Hk & Ek & (I1 & _) & _)]; [reflexivity|]. exfalso. subst p. exact (Dp _ Hp I1).
              - apply deliver_not. intros k Hk Ek. destruct (moves U x k) eqn:M; [|reflexivity]. exfalso. apply moves_iff in M.
                apply (Dp p Hp). rewrite <- Ek. tauto. }
            assert (Ku : forall u, uv s2 u = uv s0 u) by (intros u; rewrite Ru; reflexivity).
            apply (IHl (done ++ [x]) s2 s3); try assumption.
            * intros k Hk It Is. rewrite flat_map_app in It. simpl in It. rewrite app_nil_r in It. apply in_app_or in It. destruct It as [It|It].
              -- rewrite Kp, Ku by assumption. apply C0; assumption.
              -- destruct (in_dec string_dec (k_src k) (sys_unks x)) as [Hi|Hi]; [apply X1; [assumption|split; assumption]|].
                 rewrite Ku. destruct (Rp (k_tgt k)) as [->|(k' & Hk' & Ek & _ & ->)].
                 ++ apply deliver_at; [exact Htgt|assumption|]. apply moves_iff. repeat split; assumption.
                 ++ rewrite (tgt_unique conns Htgt k' k Hk' Hk Ek). reflexivity.
            * intros c Hc Hrun. rewrite comps_app in Hc. simpl in Hc. rewrite app_nil_r in Hc. apply in_app_or in Hc. destruct Hc as [Hc|Hc]; [|apply X2; assumption].
              destruct (comps_grp_incl done c Hc) as [Ip Iu].
              apply (shown_ext c s0 s2); [apply R0; assumption|intros; apply Kp; auto|intros; apply Ku|].
              intros u Hu. rewrite Rrv; [reflexivity|]. intros Hi. exact (Du u (Iu u Hu) Hi).
          + destruct x as [c|p' n' l']; [|discriminate].
            apply (IHl (done ++ [Comp c]) s0 s3); try assumption.
            * intros k Hk It Is. rewrite flat_map_app in It. apply in_app_or in It. destruct It as [It|It]; [apply C0; assumption|].
              simpl in It. rewrite app_nil_r, comp_params in It. apply (proj1 E0); [assumption| |].
              -- apply (Hm c); [apply Hcx; left; reflexivity|exact Ev|assumption|assumption].
              -- split; [|assumption]. apply (incl_params (Comp c) subs Hx). rewrite comp_params. assumption.
            * intros c' Hc Hrun. rewrite comps_app in Hc. apply in_app_or in Hc. destruct Hc as [Hc|Hc]; [apply R0; assumption|].
              simpl in Hc. destruct Hc as [<-|[]]. congruence. }
      destruct (G subs [] s s' eq_refl He) as [G1 G2]; [intros k _ []|intros c []|exact H|].
      split; [|exact G2]. intros k Hk (It & Is). apply G1; assumption.
  Qed.
End More.

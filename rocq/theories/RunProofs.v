(** Running a model: what one run of a system changes and establishes. *)
From Verif Require Import Base RunModel RunSpec.
Local Open Scope string_scope.
Local Open Scope nat_scope.
Local Open Scope list_scope.

Lemma smem_in : forall x l, smem x l = true <-> In x l.
Proof.
  intros x l. unfold smem. rewrite existsb_exists. split.
  - intros (y & Hy & E). apply String.eqb_eq in E. subst. assumption.
  - intros H. exists x. split; [assumption|apply String.eqb_refl].
Qed.
Lemma smem_out : forall x l, smem x l = false <-> ~ In x l.
Proof. intros x l. rewrite <- smem_in. destruct (smem x l); intuition congruence. Qed.

Lemma NoDup_app_inv : forall {A} (a b : list A), NoDup (a ++ b) ->
    NoDup a /\ NoDup b /\ forall x, In x a -> In x b -> False.
Proof.
  induction a as [|x a IH]; intros b H; simpl in *; [repeat split; [constructor|assumption|intros x []]|].
  inversion H as [|y l Hy Hl]; subst. destruct (IH b Hl) as (Ha & Hb & Hd). split.
  - constructor; [|assumption]. intros Hi. apply Hy. apply in_or_app. tauto.
  - split; [assumption|]. intros y [<-|Hi] Hy'; [apply Hy; apply in_or_app; tauto|exact (Hd y Hi Hy')].
Qed.

Section Proofs.
  Context {V : Type} (vadd vsub : V -> V -> V) (vopp : V -> V).

  Lemma sys_ind2 : forall (P : sys V -> Prop), (forall c, P (Comp c)) ->
      (forall par nl subs, (forall x, In x subs -> P x) -> P (Grp par nl subs)) -> forall t, P t.
  Proof.
    intros P Hc Hg. fix IH 1. intros [c|par nl subs]; [apply Hc|]. apply Hg.
    induction subs as [|x l IHl]; [intros y []|].
    intros y [E|Hy]; [rewrite <- E; apply IH|apply IHl; assumption].
  Qed.

  Lemma all_in : forall (Q : sys V -> Prop) l,
      (fix all (l : list (sys V)) : Prop := match l with [] => True | x :: l' => Q x /\ all l' end) l ->
      forall x, In x l -> Q x.
  Proof. induction l as [|y l IH]; intros H x []; [subst; apply H|apply IH; [apply H|assumption]]. Qed.

  Lemma sys_params_grp : forall par nl (subs : list (sys V)), sys_params (Grp par nl subs) = flat_map sys_params subs.
  Proof.
    intros par nl subs. unfold sys_params. simpl. induction subs as [|x l IH]; [reflexivity|].
    simpl. rewrite flat_map_app, IH. reflexivity.
  Qed.
  Lemma sys_unks_grp : forall par nl (subs : list (sys V)), sys_unks (Grp par nl subs) = flat_map sys_unks subs.
  Proof.
    intros par nl subs. unfold sys_unks. simpl. induction subs as [|x l IH]; [reflexivity|].
    simpl. rewrite flat_map_app, IH. reflexivity.
  Qed.

  (** ** reading and writing *)
  Lemma write_other : forall (e : string -> V) ns xs v, ~ In v ns -> write e ns xs v = e v.
  Proof.
    induction ns as [|n ns IH]; intros xs v H; [reflexivity|]. destruct xs as [|x xs]; [reflexivity|].
    simpl. destruct (String.eqb_spec v n) as [->|]; [exfalso; apply H; left; reflexivity|].
    apply IH. intros Hi. apply H. right. assumption.
  Qed.
  Lemma map_ext_in' : forall {A B} (f g : A -> B) l, (forall x, In x l -> f x = g x) -> map f l = map g l.
  Proof. intros A B f g l H. apply map_ext_in. exact H. Qed.
  Lemma map_write : forall (e : string -> V) ns xs, NoDup ns -> length xs = length ns -> map (write e ns xs) ns = xs.
  Proof.
    induction ns as [|n ns IH]; intros xs Hn Hl; destruct xs as [|x xs]; try discriminate; [reflexivity|].
    inversion Hn as [|y l Hy Hl']; subst. simpl. rewrite String.eqb_refl. f_equal.
    injection Hl as Hl. transitivity (map (write e ns xs) ns); [|apply IH; assumption].
    apply map_ext_in'. intros y Hi. destruct (String.eqb_spec y n) as [->|]; [contradiction|]. reflexivity.
  Qed.

  Lemma vzip_length : forall (f : V -> V -> V) a b, length a = length b -> length (vzip f a b) = length a.
  Proof. intros f a. induction a as [|x a IH]; intros [|y b] H; try discriminate; [reflexivity|]. simpl. f_equal. apply IH. injection H as H. assumption. Qed.
  Lemma vzip_restore : forall a b, (forall x y, vsub y (vadd (vopp x) y) = x) -> length a = length b ->
      vzip vsub b (vzip vadd (map vopp a) b) = a.
  Proof.
    induction a as [|x a IH]; intros [|y b] Hr Hl; try discriminate; [reflexivity|]. simpl. rewrite Hr. f_equal.
    apply IH; [assumption|]. injection Hl as Hl. assumption.
  Qed.
  Lemma vzip_map : forall a b, vzip vadd (map vopp a) b = map (fun x => vadd (vopp (fst x)) (snd x)) (combine a b).
  Proof. induction a as [|x a IH]; intros [|y b]; try reflexivity. simpl. f_equal. apply IH. Qed.

  (** ** the frame of a run and of an evaluation of residuals *)
  Section Frame.
    Context (conns : list (conn V)).
    Context (Htgt : NoDup (map k_tgt conns)).

    Lemma tgt_unique : forall k k', In k conns -> In k' conns -> k_tgt k = k_tgt k' -> k = k'.
    Proof.
      clear -Htgt. induction conns as [|a l IH]; intros k k' Hk Hk' E; [destruct Hk|].
      inversion Htgt as [|y m Hy Hm]; subst.
      destruct Hk as [<-|Hk], Hk' as [<-|Hk']; [reflexivity| | |].
      - exfalso. apply Hy. rewrite E. apply in_map. assumption.
      - exfalso. apply Hy. rewrite <- E. apply in_map. assumption.
      - apply IH; assumption.
    Qed.

    Definition internal (P U : list string) (k : conn V) : Prop := In (k_tgt k) P /\ In (k_src k) U.

    Definition framed (P U : list string) (s s' : st V) : Prop :=
      (forall v, ~ In v U -> uv s' v = uv s v) /\
      (forall v, ~ In v U -> rv s' v = rv s v) /\
      (forall p, (forall k, In k conns -> k_tgt k = p -> ~ internal P U k) -> pv s' p = pv s p).

    (** an evaluation of residuals: unknowns as before, parameters as before or refreshed *)
    Definition refreshed (P U : list string) (s s' : st V) : Prop :=
      (forall v, uv s' v = uv s v) /\
      (forall p, pv s' p = pv s p \/ exists k, In k conns /\ k_tgt k = p /\ internal P U k /\ pv s' p = k_conv k (uv s (k_src k))).

    Lemma framed_refl : forall P U s, framed P U s s.
    Proof. repeat split; intros; reflexivity. Qed.
    Lemma framed_trans : forall P U s1 s2 s3, framed P U s1 s2 -> framed P U s2 s3 -> framed P U s1 s3.
    Proof.
      intros P U s1 s2 s3 (A1 & A2 & A3) (B1 & B2 & B3). repeat split; intros.
      - rewrite B1, A1 by assumption. reflexivity.
      - rewrite B2, A2 by assumption. reflexivity.
      - rewrite B3, A3 by assumption. reflexivity.
    Qed.
    Lemma framed_mono : forall P U P' U' s1 s2, incl P P' -> incl U U' -> framed P U s1 s2 -> framed P' U' s1 s2.
    Proof.
      intros P U P' U' s1 s2 HP HU (A1 & A2 & A3). repeat split; intros.
      - apply A1. intros Hv. apply H, HU, Hv.
      - apply A2. intros Hv. apply H, HU, Hv.
      - apply A3. intros k Hk E (I1 & I2). apply (H k Hk E). split; auto.
    Qed.
    Lemma refreshed_refl : forall P U s, refreshed P U s s.
    Proof. split; intros; [reflexivity|left; reflexivity]. Qed.
    Lemma refreshed_trans : forall P U s1 s2 s3, refreshed P U s1 s2 -> refreshed P U s2 s3 -> refreshed P U s1 s3.
    Proof.
      intros P U s1 s2 s3 (A1 & A2) (B1 & B2). split; intros.
      - rewrite B1, A1. reflexivity.
      - destruct (B2 p) as [->|(k & Hk & E & I & ->)]; [apply A2|]. right. exists k. repeat split; try assumption; try apply I.
        rewrite A1. reflexivity.
    Qed.
    Lemma refreshed_mono : forall P U P' U' s1 s2, incl P P' -> incl U U' -> refreshed P U s1 s2 -> refreshed P' U' s1 s2.
    Proof.
      intros P U P' U' s1 s2 HP HU (A1 & A2). split; [assumption|]. intros p.
      destruct (A2 p) as [->|(k & Hk & E & (I1 & I2) & ->)]; [left; reflexivity|]. right. exists k.
      repeat split; auto.
    Qed.

    (** ** delivery *)
    Lemma deliver_at : forall (f : conn V -> bool) s k, In k conns -> f k = true ->
        pv (deliver (filter f conns) s) (k_tgt k) = k_conv k (uv s (k_src k)).
    Proof.
      intros f s k Hk Hf. simpl.
      destruct (find (fun k0 => String.eqb (k_tgt k0) (k_tgt k)) (filter f conns)) as [k'|] eqn:E.
      - apply find_some in E. destruct E as [Hi E]. apply filter_In in Hi. destruct Hi as [Hi _].
        apply String.eqb_eq in E. rewrite (tgt_unique k' k Hi Hk E). reflexivity.
      - pose proof (find_none _ _ E k (proj2 (filter_In f k conns) (conj Hk Hf))) as G. simpl in G.
        rewrite String.eqb_refl in G. discriminate.
    Qed.
    Lemma deliver_not : forall (f : conn V -> bool) s p, (forall k, In k conns -> k_tgt k = p -> f k = false) ->
        pv (deliver (filter f conns) s) p = pv s p.
    Proof.
      intros f s p H. simpl. destruct (find (fun k0 => String.eqb (k_tgt k0) p) (filter f conns)) as [k'|] eqn:E; [|reflexivity].
      apply find_some in E. destruct E as [Hi E]. apply filter_In in Hi. destruct Hi as [Hi E'].
      apply String.eqb_eq in E. rewrite (H k' Hi E) in E'. discriminate.
    Qed.
    Lemma deliver_cases : forall (f : conn V -> bool) s p,
        pv (deliver (filter f conns) s) p = pv s p \/
        exists k, In k conns /\ k_tgt k = p /\ f k = true /\ pv (deliver (filter f conns) s) p = k_conv k (uv s (k_src k)).
    Proof.
      intros f s p. simpl. destruct (find (fun k0 => String.eqb (k_tgt k0) p) (filter f conns)) as [k'|] eqn:E; [|left; reflexivity].
      apply find_some in E. destruct E as [Hi E]. apply filter_In in Hi. destruct Hi as [Hi E'].
      apply String.eqb_eq in E. right. exists k'. repeat split; assumption.
    Qed.

    Lemma moves_iff : forall all (x : sys V) k, moves all x k = true <->
        In (k_tgt k) (sys_params x) /\ In (k_src k) all /\ ~ In (k_src k) (sys_unks x).
    Proof.
      intros all x k. unfold moves. rewrite !andb_true_iff, negb_true_iff, !smem_in, smem_out. tauto.
    Qed.

    Lemma transfer_framed : forall P U x s, incl (sys_params x) P -> framed P U s (transfer conns U x s).
    Proof.
      intros P U x s HP. repeat split; try reflexivity. intros p H. apply deliver_not.
      intros k Hk E. destruct (moves U x k) eqn:M; [|reflexivity]. exfalso. apply moves_iff in M.
      apply (H k Hk E). split; [apply HP|]; tauto.
    Qed.
    Lemma transfer_refreshed : forall P U x s, incl (sys_params x) P -> refreshed P U s (transfer conns U x s).
    Proof.
      intros P U x s HP. split; [reflexivity|]. intros p. unfold transfer. destruct (deliver_cases (moves U x) s p) as [->|(k & Hk & E & M & ->)].
      - left. reflexivity.
      - right. exists k. apply moves_iff in M. repeat split; try assumption; try apply HP; tauto.
    Qed.
    Lemma transfer_all_refreshed : forall P U subs s, (forall x, In x subs -> incl (sys_params x) P) ->
        refreshed P U s (transfer_all conns U subs s).
    Proof.
      intros P U subs s HP. split; [reflexivity|]. intros p. unfold transfer_all.
      destruct (deliver_cases (fun k => existsb (fun sub => moves U sub k) subs) s p) as [->|(k & Hk & E & M & ->)].
      - left. reflexivity.
      - right. exists k. apply existsb_exists in M. destruct M as (x & Hx & M). apply moves_iff in M.
        repeat split; try assumption; try apply (HP x Hx); tauto.
    Qed.
    Lemma refreshed_framed : forall P U s s', refreshed P U s s' -> (forall v, ~ In v U -> rv s' v = rv s v) -> framed P U s s'.
    Proof.
      intros P U s s' (A1 & A2) Hr. repeat split; [intros; apply A1|assumption|].
      intros p H. destruct (A2 p) as [->|(k & Hk & E & I & _)]; [reflexivity|]. exfalso. exact (H k Hk E I).
    Qed.

    (** ** components *)
    Lemma run_comp_framed : forall c s s', run_comp c s = Ok s' -> framed (c_params c) (c_unks c) s s'.
    Proof.
      intros c s s' H. unfold run_comp in H. destruct (c_solve c _ _) as [us|]; [|discriminate]. cbn [bind] in H.
      destruct (_ =? _); [|discriminate]. injection H as <-. repeat split; try reflexivity.
      intros v Hv. simpl. apply write_other. assumption.
    Qed.
    Lemma run_comp_solved : forall (c : comp V) s s', NoDup (c_unks c) -> run_comp c s = Ok s' -> solved c s'.
    Proof.
      intros c s s' Hn H. unfold run_comp in H. destruct (c_solve c _ _) as [us|] eqn:E; [|discriminate]. cbn [bind] in H.
      destruct (Nat.eqb_spec (length us) (length (c_unks c))); [|discriminate]. injection H as <-.
      exists (read (uv s) (c_unks c)). simpl. rewrite map_write by assumption. exact E.
    Qed.

    Definition restores : Prop := forall x y, vsub y (vadd (vopp x) y) = x.

    Lemma apply_comp_spec : restores -> forall sc (c : comp V) s s', NoDup (c_unks c) -> apply_comp vadd vsub vopp sc c s = Ok s' ->
        (forall v, uv s' v = uv s v) /\ (forall p, pv s' p = pv s p) /\ (forall v, ~ In v (c_unks c) -> rv s' v = rv s v) /\
        exists rs, true_residual vadd vopp c s rs /\ length rs = length (c_unks c) /\
          map (rv s') (c_unks c) = (if sc then map (fun x => c_scale c (fst x) (snd x)) (combine (c_unks c) rs) else rs).
    Proof.
      intros Hr sc c s s' Hn H. unfold apply_comp, true_residual in *.
      assert (Hsc : forall e rs, length rs = length (c_unks c) ->
                map (if sc then fun v => if smem v (c_unks c) then c_scale c v (write e (c_unks c) rs v) else write e (c_unks c) rs v
                     else write e (c_unks c) rs) (c_unks c) =
                if sc then map (fun x => c_scale c (fst x) (snd x)) (combine (c_unks c) rs) else rs).
      { intros e rs Hl. destruct sc; [|apply map_write; assumption].
        transitivity (map (fun x => c_scale c (fst x) (snd x)) (combine (c_unks c) (map (write e (c_unks c) rs) (c_unks c))));
          [|rewrite map_write by assumption; reflexivity].
        generalize (write e (c_unks c) rs). intros w.
        assert (G : forall l, incl l (c_unks c) -> map (fun v => if smem v (c_unks c) then c_scale c v (w v) else w v) l =
                  map (fun x => c_scale c (fst x) (snd x)) (combine l (map w l))).
        { induction l as [|a l IH]; intros Hi; [reflexivity|]. simpl.
          rewrite (proj2 (smem_in a (c_unks c))) by (apply Hi; left; reflexivity). f_equal.
          apply IH. intros y Hy. apply Hi. right. assumption. }
        apply G. apply incl_refl. }
      assert (Ho : forall e rs v, ~ In v (c_unks c) ->
                (if sc then fun v => if smem v (c_unks c) then c_scale c v (write e (c_unks c) rs v) else write e (c_unks c) rs v
                 else write e (c_unks c) rs) v = e v).
      { intros e rs v Hv. destruct sc; [rewrite (proj2 (smem_out v _) Hv)|]; apply write_other; assumption. }
      destruct (c_resid c) as [f|].
      - destruct (f _ _) as [rs|] eqn:E; [|discriminate]. cbn [bind] in H.
        destruct (Nat.eqb_spec (length rs) (length (c_unks c))); [|discriminate]. injection H as <-. simpl.
        repeat split; [intros v Hv; apply Ho; assumption|]. exists rs. split; [first [exact E|reflexivity]|]. split; [assumption|]. apply Hsc. assumption.
      - destruct (run_comp c s) as [s1|] eqn:E; [|discriminate]. cbn [bind] in H. injection H as <-. simpl.
        pose proof (run_comp_framed c s s1 E) as (F1 & F2 & F3).
        assert (Hp : pv s1 = pv s).
        { unfold run_comp in E. destruct (c_solve c _ _); [|discriminate]. cbn [bind] in E. destruct (_ =? _); [|discriminate].
          injection E as <-. reflexivity. }
        assert (Hl : length (map (uv s) (c_unks c)) = length (map (uv s1) (c_unks c))) by (rewrite !map_length; reflexivity).
        split.
        + intros v. unfold read. rewrite vzip_restore by (try exact Hr; exact Hl).
          destruct (in_dec string_dec v (c_unks c)) as [Hv|Hv].
          * assert (G : map (write (uv s1) (c_unks c) (map (uv s) (c_unks c))) (c_unks c) = map (uv s) (c_unks c))
              by (apply map_write; [assumption|apply map_length]).
            revert G Hv. generalize (write (uv s1) (c_unks c) (map (uv s) (c_unks c))). clear. intros w.
            induction (c_unks c) as [|b m IHm]; intros G Hv; [destruct Hv|].
            injection G as G1 G2. destruct Hv as [<-|Hv]; [assumption|apply IHm; assumption].
          * rewrite write_other by assumption. apply F1. assumption.
        + split; [intros p; rewrite Hp; reflexivity|]. split.
          * intros v Hv. rewrite Ho by assumption. apply F2. assumption.
          * exists (vzip vadd (map vopp (read (uv s) (c_unks c))) (read (uv s1) (c_unks c))). split.
            -- unfold run_comp in E. destruct (c_solve c _ _) as [us|] eqn:Es; [|discriminate]. cbn [bind] in E.
               destruct (Nat.eqb_spec (length us) (length (c_unks c))); [|discriminate]. injection E as <-.
               exists us. split; [first [exact Es|reflexivity]|]. split; [assumption|]. simpl. unfold read. rewrite map_write by assumption. apply vzip_map.
            -- assert (G : length (vzip vadd (map vopp (read (uv s) (c_unks c))) (read (uv s1) (c_unks c))) = length (c_unks c))
                 by (unfold read; rewrite vzip_length; rewrite !map_length; reflexivity).
               split; [exact G|]. apply Hsc. exact G.
    Qed.
  End Frame.
End Proofs.

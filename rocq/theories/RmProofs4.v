(** Lemmas for C103: startup on all processes, runs. *)
From Verif Require Import Base BaseFacts RecordModel RecordSpec RecordProofs RmModel RmSpec RmProofs RmProofs2 RmProofs3.
Local Open Scope string_scope.

Lemma returned_ok : forall V (P : nat -> mgr V -> Prop) l k0,
    (forall k e, nth_error l k = Some e -> exists m, e = Returns m /\ P (k0 + k)%nat m) ->
    exists ms, all_returned l = Some ms /\ length ms = length l /\
      forall k m, nth_error ms k = Some m -> P (k0 + k)%nat m.
Proof.
  induction l as [|e l IH]; intros k0 H.
  - exists []. split; [reflexivity|]. split; [reflexivity|]. intros [|k] m E; discriminate.
  - destruct (H 0%nat e eq_refl) as (m & -> & G).
    destruct (IH (S k0)) as (ms & E' & LE & F).
    { intros k x X. destruct (H (S k) x X) as (y & Y & Z). exists y. split; auto.
      replace (S k0 + k)%nat with (k0 + S k)%nat by lia. exact Z. }
    exists (m :: ms). split.
    { unfold all_returned in *. simpl. rewrite E'. reflexivity. }
    split; [simpl; congruence|]. intros [|k] x X; simpl in X.
    + injection X as <-. exact G.
    + specialize (F _ _ X). replace (k0 + S k)%nat with (S k0 + k)%nat by lia. exact F.
Qed.

Lemma Forall3_comp : forall A B (P Q S : A -> B -> B -> Prop) la l0 l1 l2,
    Forall3 P la l0 l1 -> Forall3 Q la l1 l2 -> (forall a x y z, P a x y -> Q a y z -> S a x z) ->
    Forall3 S la l0 l2.
Proof.
  intros A B P Q S la l0 l1 l2 F. revert l2. induction F; intros l2 G H0; inversion G; subst; constructor; eauto.
Qed.

Lemma Forall3_nth : forall A B C (P : A -> B -> C -> Prop) la lb lc i a,
    Forall3 P la lb lc -> nth_error la i = Some a ->
    exists b c, nth_error lb i = Some b /\ nth_error lc i = Some c /\ P a b c.
Proof.
  intros A B C P la lb lc i a F. revert i. induction F as [|x y z la lb lc H F IH]; intros [|i] E; try discriminate; simpl in *.
  - injection E as <-. eauto.
  - apply IH; auto.
Qed.

Lemma log_of_nth : forall V (m : mgr V) i r, nth_error (mg_recs m) i = Some r -> log_of m i = rc_log r.
Proof.
  intros. unfold log_of, logs. rewrite (nth_error_nth _ i [] (map_nth_error rc_log i _ H)). reflexivity.
Qed.

Section Rm4.
  Context {V : Type}.
  Variable matches : string -> string -> bool.
  Variables (path : string) (pn un : list string) (lp lu : list (list string)).
  Hypothesis L : laid_out pn un lp lu.

  Local Notation ready := (@ready V matches path pn un lp lu).
  Local Notation all_ready := (@all_ready V matches path pn un lp lu).
  Local Notation first_rel := (@first_rel V matches pn un lp lu).
  Local Notation share := (@share V matches pn un lp lu).

  Lemma startup_procs_ok : forall rs s ms k0,
      (forall k m, nth_error ms k = Some m -> no_stale lp lu (k0 + k)%nat m) ->
      Forall (fun m => config m = rs) ms ->
      Forall (fun m => (mg_serial m || existsb (fun cfg => negb (snd cfg)) rs)%bool = s) ms ->
      exists ms1, startup_procs matches k0 (owning_ranks (all_locals lu lp)) path pn un ms = map Ok ms1 /\
        length ms1 = length ms /\ (forall k m, nth_error ms1 k = Some m -> ready rs s (k0 + k)%nat m) /\
        map logs ms1 = map logs ms.
  Proof.
    induction ms as [|m ms IH]; intros k0 NS C S.
    - exists []. split; [reflexivity|]. split; [reflexivity|]. split; [|reflexivity]. intros [|k] x E; discriminate.
    - inversion C as [|? ? C1 C2]; subst. inversion S as [|? ? S1 S2]; subst.
      destruct (IH (Datatypes.S k0)) as (ms1 & E & LE & RD & LG); auto.
      { intros k x X. replace (Datatypes.S k0 + k)%nat with (k0 + Datatypes.S k)%nat by lia. apply NS. exact X. }
      destruct (startup_ready matches path pn un lp lu L k0 m) as (m1 & E1 & RD1 & LG1).
      { specialize (NS 0%nat m eq_refl). now rewrite Nat.add_0_r in NS. }
      exists (m1 :: ms1). cbn [startup_procs map]. rewrite E1, E. split; [reflexivity|].
      split; [simpl; congruence|]. split; [|congruence].
      intros [|k] x X; simpl in X.
      + injection X as <-. rewrite Nat.add_0_r. exact RD1.
      + specialize (RD _ _ X). replace (k0 + Datatypes.S k)%nat with (Datatypes.S k0 + k)%nat by lia. exact RD.
  Qed.

  Lemma startup_all_ok : forall rs s ms, length ms = length lp ->
      (forall k m, nth_error ms k = Some m -> no_stale lp lu k m) ->
      Forall (fun m => config m = rs) ms ->
      Forall (fun m => (mg_serial m || existsb (fun cfg => negb (snd cfg)) rs)%bool = s) ms ->
      exists ms1, startup_all matches lu lp path pn un ms = map Ok ms1 /\
        all_ready rs s ms1 /\ map logs ms1 = map logs ms.
  Proof.
    intros rs s ms LM NS C S. destruct (startup_procs_ok rs s ms 0 NS C S) as (ms1 & E & LE & RD & LG).
    exists ms1. split; [exact E|]. split; [|exact LG]. split; [congruence|]. intros k m X. apply (RD k m X).
  Qed.

  (** ** recorders that are not called *)
  Lemma record_loop_skip : forall w p u s c (l : list (recst V)), w <> 0%nat ->
      Forall (fun r => rc_par r = false) l -> record_loop w p u s c l = Ok l.
  Proof.
    intros w p u s c l W F. induction F as [|r l P F IH]; cbn [record_loop]; auto.
    rewrite P. apply Nat.eqb_neq in W. rewrite W. cbn [orb bind]. rewrite IH. reflexivity.
  Qed.
  Lemma with_recs_same : forall m : mgr V, with_recs m (mg_recs m) = m.
  Proof. intros []. reflexivity. Qed.
  Lemma record_case_skip : forall w (m : mgr V) p u s c, w <> 0%nat ->
      Forall (fun r => rc_par r = false) (mg_recs m) -> record_case w m p u s c = Ok m.
  Proof.
    intros w m p u s c W F. unfold record_case. destruct p; auto.
    rewrite record_loop_skip by auto. cbn [bind]. now rewrite with_recs_same.
  Qed.
  Lemma ready_serial : forall rs ser k m, Forall (fun cfg => snd cfg = false) rs -> ready rs ser k m ->
      Forall (fun r => rc_par r = false) (mg_recs m).
  Proof.
    intros rs ser k m F RD. pose proof (rd_recs _ _ _ _ _ _ _ _ _ _ RD) as G. clear RD.
    induction G as [|cfg r rs0 l (_ & P & _) G IH]; constructor; inversion F; subst; auto. congruence.
  Qed.

  (** ** serial recorders *)
  Definition run_rel (rel : coord * list (vecs V) -> rec_opts * bool -> entry V -> Prop)
      (its : list (coord * list (vecs V))) (cfg : rec_opts * bool) (r r' : recst V) : Prop :=
    exists es, rc_log r' = (rc_log r ++ es)%list /\ Forall2 (fun it e => rel it cfg e) its es.

  Lemma run_rel_nil : forall rel k rs l, Forall2 (@rec_ready V matches path pn un lp lu k) rs l ->
      Forall3 (run_rel rel []) rs l l.
  Proof.
    intros rel k rs l F. induction F; constructor; auto. exists []. rewrite app_nil_r. auto.
  Qed.
  Lemma run_rel_cons : forall rel it its rs l0 l1 l2,
      Forall3 (adv (rel it)) rs l0 l1 -> Forall3 (run_rel rel its) rs l1 l2 ->
      Forall3 (run_rel rel (it :: its)) rs l0 l2.
  Proof.
    intros rel it its rs l0 l1 l2 F G. eapply Forall3_comp; [exact F|exact G|].
    intros cfg x y z (e & E1 & R1) (es & E2 & R2). exists (e :: es). split.
    - rewrite E2, E1, <- app_assoc. reflexivity.
    - constructor; auto.
  Qed.

  Definition it_ok (it : coord * list (vecs V)) : Prop :=
    get_pathname (fst it) = path /\ vectors_of lp lu (snd it).

  Lemma serial_step : forall rs ms worlds it,
      all_ready rs true ms -> Forall (fun cfg => snd cfg = false) rs -> rs <> [] -> lp <> [] ->
      length worlds = length lp -> nth_error worlds 0 = Some 0%nat ->
      (forall k, (0 < k)%nat -> nth_error worlds k <> Some 0%nat) -> it_ok it ->
      exists ms', all_returned (record_all (fst it) (procs_of worlds ms (snd it))) = Some ms' /\
        all_ready rs true ms' /\
        (forall m m', nth_error ms 0 = Some m -> nth_error ms' 0 = Some m' ->
           Forall3 (adv (first_rel it)) rs (mg_recs m) (mg_recs m')) /\
        (forall k m', (0 < k)%nat -> nth_error ms' k = Some m' -> nth_error ms k = Some m').
  Proof.
    intros rs ms worlds [c vs] RD SER NRS NLP LW W0 WK (G & VS). cbn [fst snd] in *.
    destruct (record_all_gathers matches path pn un lp lu L rs ms worlds vs c RD NRS NLP LW VS)
      as (d & u & s & LEN & H0 & HK & GP & GU & GR).
    destruct RD as (LM & RD).
    destruct (returned_ok V (fun k m' => ready rs true k m' /\
        match k with
        | O => forall m, nth_error ms 0 = Some m -> Forall3 (adv (first_rel (c, vs))) rs (mg_recs m) (mg_recs m')
        | S _ => nth_error ms k = Some m'
        end) (record_all c (procs_of worlds ms vs)) 0) as (ms' & E & LE & PR).
    { intros k e X. assert (KL : (k < length lp)%nat) by (rewrite <- LEN; apply nth_error_Some; congruence).
      destruct (nth_error ms k) as [m|] eqn:M; [|apply nth_error_None in M; lia].
      destruct (nth_error worlds k) as [w|] eqn:W; [|apply nth_error_None in W; lia].
      destruct k as [|k]; cbn [plus].
      - rewrite W0 in W. injection W as <-. rewrite (H0 _ _ W0 M) in X.
        destruct (first_ok matches path pn un lp lu L rs true m vs c d u s (RD _ _ M) G GP GU GR) as (m' & E & RD' & F).
        rewrite E in X. injection X as <-. exists m'. split; [reflexivity|]. split; auto.
        intros m1 M1. congruence.
      - rewrite (HK (S k) w m ltac:(lia) W M) in X.
        rewrite record_case_skip in X.
        + injection X as <-. exists m. split; [reflexivity|]. auto.
        + intros ->. apply (WK (S k) ltac:(lia)). exact W.
        + eapply ready_serial; eauto. }
    exists ms'. split; [exact E|]. split.
    { split; [congruence|]. intros k m X. apply (PR k m X). }
    split.
    - intros m m' M M'. apply (proj2 (PR 0%nat m' M')). exact M.
    - intros [|k] m' K M'; [lia|]. apply (proj2 (PR (S k) m' M')).
  Qed.

  Lemma serial_run : forall rs worlds its ms,
      all_ready rs true ms -> Forall (fun cfg => snd cfg = false) rs -> rs <> [] -> lp <> [] ->
      length worlds = length lp -> nth_error worlds 0 = Some 0%nat ->
      (forall k, (0 < k)%nat -> nth_error worlds k <> Some 0%nat) -> Forall it_ok its ->
      exists ms', record_run worlds ms its = Some ms' /\ length ms' = length ms /\
        (forall m m', nth_error ms 0 = Some m -> nth_error ms' 0 = Some m' ->
           Forall3 (run_rel first_rel its) rs (mg_recs m) (mg_recs m')) /\
        (forall k m', (0 < k)%nat -> nth_error ms' k = Some m' -> nth_error ms k = Some m').
  Proof.
    induction its as [|it its IH]; intros ms RD SER NRS NLP LW W0 WK OK.
    - exists ms. split; [reflexivity|]. split; [reflexivity|]. split; [|auto].
      intros m m' M M'. rewrite M in M'. injection M' as <-. eapply run_rel_nil. eapply rd_recs. apply RD. eauto.
    - inversion OK as [|? ? O1 O2]; subst.
      destruct (serial_step rs ms worlds it RD SER NRS NLP LW W0 WK O1) as (ms1 & E & RD1 & H0 & HK).
      destruct (IH ms1 RD1 SER NRS NLP LW W0 WK O2) as (ms' & E' & LE & F0 & FK).
      cbn [record_run]. destruct it as [c vs]. cbn [fst snd] in *. rewrite E. exists ms'. split; [exact E'|].
      assert (LL : length ms1 = length ms) by (destruct RD, RD1; congruence).
      split; [congruence|]. split; [|auto].
      intros m m' M M'. destruct (nth_same _ _ ms ms1 0 m (eq_sym LL) M) as (m1 & M1).
      eapply run_rel_cons; eauto.
  Qed.

  (** ** parallel recorders *)
  Lemma parallel_step : forall rs ms worlds it,
      all_ready rs false ms -> Forall (fun cfg => snd cfg = true) rs -> rs <> [] -> lp <> [] ->
      length worlds = length lp -> it_ok it ->
      exists ms', all_returned (record_all (fst it) (procs_of worlds ms (snd it))) = Some ms' /\
        all_ready rs false ms' /\
        (forall k m m', nth_error ms k = Some m -> nth_error ms' k = Some m' ->
           Forall3 (adv (share k it)) rs (mg_recs m) (mg_recs m')).
  Proof.
    intros rs ms worlds [c vs] (LM & RD) PAR NRS NLP LW (G & VS). cbn [fst snd] in *.
    assert (LV : length vs = length lp) by (destruct VS as (<- & _); now rewrite map_length).
    set (ps := procs_of worlds ms vs).
    assert (LP : length ps = length lp) by (unfold ps; rewrite procs_len; congruence).
    assert (RA : record_all c ps = map (record_alone c) ps).
    { unfold record_all. destruct ps as [|p0 ps'] eqn:PS; [reflexivity|].
      destruct (procs_inv worlds ms vs 0 p0) as (_ & M & _); [fold ps; rewrite PS; reflexivity|].
      pose proof (RD _ _ M) as A. rewrite (rd_ser _ _ _ _ _ _ _ _ _ _ A).
      assert (NE : nonempty (mg_recs (pr_mgr p0)) = true).
      { pose proof (rd_recs _ _ _ _ _ _ _ _ _ _ A) as F. destruct F; [contradiction|reflexivity]. }
      rewrite NE. reflexivity. }
    destruct (returned_ok V (fun k m' => ready rs false k m' /\
        forall m, nth_error ms k = Some m -> Forall3 (adv (share k (c, vs))) rs (mg_recs m) (mg_recs m'))
        (record_all c ps) 0) as (ms' & E & LE & PR).
    { intros k e X. rewrite RA, nth_error_map in X. destruct (nth_error ps k) as [p|] eqn:P; [|discriminate].
      injection X as <-. destruct (procs_inv _ _ _ _ _ P) as (W & M & NV). destruct p as [w m v]. cbn [pr_mgr pr_vecs pr_world] in *.
      destruct (alone_ok matches path pn un lp lu L rs false k m vs v w c PAR (RD _ _ M) VS NV G) as (m' & E & RD' & F).
      exists m'. split; [exact E|]. cbn [plus]. split; [exact RD'|]. intros m1 M1. congruence. }
    exists ms'. split; [exact E|]. split.
    { split; [rewrite LE, RA, map_length; exact LP|]. intros k m X. apply (PR k m X). }
    intros k m m' M M'. apply (proj2 (PR k m' M')). exact M.
  Qed.

  Lemma parallel_run : forall rs worlds its ms,
      all_ready rs false ms -> Forall (fun cfg => snd cfg = true) rs -> rs <> [] -> lp <> [] ->
      length worlds = length lp -> Forall it_ok its ->
      exists ms', record_run worlds ms its = Some ms' /\ length ms' = length ms /\
        (forall k m m', nth_error ms k = Some m -> nth_error ms' k = Some m' ->
           Forall3 (run_rel (share k) its) rs (mg_recs m) (mg_recs m')).
  Proof.
    induction its as [|it its IH]; intros ms RD PAR NRS NLP LW OK.
    - exists ms. split; [reflexivity|]. split; [reflexivity|].
      intros k m m' M M'. rewrite M in M'. injection M' as <-. eapply run_rel_nil. eapply rd_recs. apply RD. eauto.
    - inversion OK as [|? ? O1 O2]; subst.
      destruct (parallel_step rs ms worlds it RD PAR NRS NLP LW O1) as (ms1 & E & RD1 & H0).
      destruct (IH ms1 RD1 PAR NRS NLP LW O2) as (ms' & E' & LE & F0).
      cbn [record_run]. destruct it as [c vs]. cbn [fst snd] in *. rewrite E. exists ms'. split; [exact E'|].
      assert (LL : length ms1 = length ms) by (destruct RD, RD1; congruence).
      split; [congruence|].
      intros k m m' M M'. destruct (nth_same _ _ ms ms1 k m (eq_sym LL) M) as (m1 & M1).
      eapply run_rel_cons; eauto.
  Qed.

  (** ** serial recorders of a group without process 0 of the world *)
  Lemma subgroup_run : forall rs worlds its ms,
      all_ready rs true ms -> Forall (fun cfg => snd cfg = false) rs -> rs <> [] -> lp <> [] ->
      length worlds = length lp -> (forall k, nth_error worlds k <> Some 0%nat) -> Forall it_ok its ->
      record_run worlds ms its = Some ms.
  Proof.
    induction its as [|[c vs] its IH]; intros ms RD SER NRS NLP LW WK OK; [reflexivity|].
    inversion OK as [|? ? (G & VS) O2]; subst. cbn [fst snd] in *. cbn [record_run].
    destruct (record_all_gathers matches path pn un lp lu L rs ms worlds vs c RD NRS NLP LW VS)
      as (d & u & s & LEN & H0 & HK & _).
    destruct RD as (LM & RD).
    destruct (returned_ok V (fun k m' => nth_error ms k = Some m') (record_all c (procs_of worlds ms vs)) 0) as (ms' & E & LE & PR).
    { intros k e X. assert (KL : (k < length lp)%nat) by (rewrite <- LEN; apply nth_error_Some; congruence).
      destruct (nth_error ms k) as [m|] eqn:M; [|apply nth_error_None in M; lia].
      destruct (nth_error worlds k) as [w|] eqn:W; [|apply nth_error_None in W; lia].
      assert (w <> 0%nat) by (intros ->; apply (WK k W)).
      exists m. split; [|exact M]. destruct k as [|k].
      - rewrite (H0 _ _ W M), record_case_skip in X; [now injection X as <-|auto|eapply ready_serial; eauto].
      - rewrite (HK (S k) w m ltac:(lia) W M), record_case_skip in X; [now injection X as <-|auto|eapply ready_serial; eauto]. }
    rewrite E.
    assert (ms' = ms).
    { clear - PR LE LEN LM. assert (LL : length ms' = length ms) by congruence. clear - PR LL.
      cbn [plus] in PR. apply nth_ext with (d := mkMgr [] [] [] false false false false []) (d' := mkMgr [] [] [] false false false false []); auto.
      intros n Hn. destruct (nth_error ms' n) as [m|] eqn:X; [|apply nth_error_None in X; lia].
      rewrite (nth_error_nth _ _ _ X), (nth_error_nth _ _ _ (PR _ _ X)). reflexivity. }
    subst ms'. apply IH; auto. split; auto.
  Qed.

  (** ** both kinds of recorders *)
  Lemma record_loop_raises : forall w s c k rs (l : list (recst V)),
      Forall2 (@rec_ready V matches path pn un lp lu k) rs l -> get_pathname c = path -> w <> 0%nat ->
      s = None \/ s = Some [] ->
      (exists o, In (o, true) rs /\ ro_unknowns o = true) ->
      record_loop w (Some []) None s c l = Err AttributeError.
  Proof.
    intros w s c k rs l F G W S. induction F as [|cfg r rs0 l0 (O & P & T) F IH]; intros (o & I & U); [destruct I|].
    cbn [record_loop]. rewrite P. apply Nat.eqb_neq in W. rewrite W, orb_false_r.
    assert (SP : @section V (ro_params (fst cfg)) (rc_table r) (Some []) KP c = Ok (if ro_params (fst cfg) then Some [] else None)).
    { unfold section. destruct (ro_params (fst cfg)); reflexivity. }
    destruct (snd cfg) eqn:PC.
    - unfold rec_iteration. rewrite O, SP. cbn [bind].
      destruct (ro_unknowns (fst cfg)) eqn:UC; [reflexivity|].
      cbn [section bind].
      destruct I as [I|I]; [subst cfg; cbn in UC; congruence|].
      assert (SS : @section V (ro_resids (fst cfg)) (rc_table r) s KR c = Err AttributeError \/
                   exists x, @section V (ro_resids (fst cfg)) (rc_table r) s KR c = Ok x).
      { unfold section. destruct (ro_resids (fst cfg)); [|eauto]. destruct S as [-> | ->]; [left; reflexivity|right; cbn; eauto]. }
      destruct SS as [-> | (x & ->)]; [reflexivity|]. cbn [bind]. rewrite IH; eauto.
    - cbn [bind]. destruct I as [I|I]; [subst cfg; discriminate|]. rewrite IH; eauto.
  Qed.
End Rm4.

(** Lemmas for C103: the managers after startup, and one iteration. *)
From Verif Require Import Base BaseFacts RecordModel RecordSpec RecordProofs RmModel RmSpec RmProofs.
Local Open Scope string_scope.

Section Rm2.
  Context {V : Type}.
  Variable matches : string -> string -> bool.
  Variables (path : string) (pn un : list string) (lp lu : list (list string)).
  Hypothesis L : laid_out pn un lp lu.

  Let R := owning_ranks (all_locals lu lp).
  Definition sel (o : rec_opts) (names : list string) : list string :=
    filter (fun n => check_path matches n (ro_includes o) (ro_excludes o)) names.
  Definition fp o := if ro_params o then sel o pn else [].
  Definition fu o := if ro_unknowns o then sel o un else [].
  Definition fr o := if ro_resids o then sel o un else [].
  Definition own (k : nat) (names : list string) : list string := filter (ownb k R) names.

  Definition names_of (k : nat) (cfg : rec_opts * bool) : filtered :=
    if snd cfg then mkFiltered (own k (fp (fst cfg))) (own k (fu (fst cfg))) (own k (fr (fst cfg)))
    else mkFiltered (fp (fst cfg)) (fu (fst cfg)) (fr (fst cfg)).

  Definition rec_ready (k : nat) (cfg : rec_opts * bool) (r : recst V) : Prop :=
    rc_opts r = fst cfg /\ rc_par r = snd cfg /\ sget (rc_table r) path = Some (names_of k cfg).

  Lemma sel_in : forall o names n, In n (sel o names) <-> wanted matches o names n.
  Proof.
    intros. unfold sel, wanted. rewrite filter_In, check_path_selected. unfold selected. tauto.
  Qed.
  Lemma fp_in : forall o n, In n (fp o) -> In n pn.
  Proof. unfold fp. intros o n. destruct (ro_params o); [|intros []]. intro H. apply sel_in in H. apply H. Qed.
  Lemma fu_in : forall o n, In n (fu o) -> In n un.
  Proof. unfold fu. intros o n. destruct (ro_unknowns o); [|intros []]. intro H. apply sel_in in H. apply H. Qed.
  Lemma fr_in : forall o n, In n (fr o) -> In n un.
  Proof. unfold fr. intros o n. destruct (ro_resids o); [|intros []]. intro H. apply sel_in in H. apply H. Qed.

  Lemma first_p : forall n k, In n pn -> (sget R n = Some k <-> first_at lp n k).
  Proof.
    intros n k I. unfold R. rewrite owning_get. apply all_locals_first_p; [apply L|].
    intros l J K. eapply lo_disj; eauto. eapply lo_lu; eauto.
  Qed.
  Lemma first_u : forall n k, In n un -> (sget R n = Some k <-> first_at lu n k).
  Proof.
    intros n k I. unfold R. rewrite owning_get. apply all_locals_first_u; [apply L|].
    intros l J K. eapply lo_disj; eauto. eapply lo_lp; eauto.
  Qed.
  Lemma owned_p : forall n, In n pn -> exists k, sget R n = Some k.
  Proof.
    intros n I. destruct (first_at_ex lp n) as (k & K); [apply (lo_p _ _ _ _ L); auto|].
    exists k. now apply first_p.
  Qed.
  Lemma owned_u : forall n, In n un -> exists k, sget R n = Some k.
  Proof.
    intros n I. destruct (first_at_ex lu n) as (k & K); [apply (lo_u _ _ _ _ L); auto|].
    exists k. now apply first_u.
  Qed.
  Lemma ownb_iff : forall n k, ownb k R n = true <-> sget R n = Some k.
  Proof.
    intros. unfold ownb. destruct (sget R n) as [o|].
    - rewrite Nat.eqb_eq. split; congruence.
    - split; discriminate.
  Qed.
  Lemma own_in_p : forall k o n, In n (own k (fp o)) <-> In n (fp o) /\ first_at lp n k.
  Proof.
    intros. unfold own. rewrite filter_In, ownb_iff. split; intros [A B]; split; auto; apply first_p; auto; eapply fp_in; eauto.
  Qed.
  Lemma own_in_u : forall k o n, In n (own k (fu o)) <-> In n (fu o) /\ first_at lu n k.
  Proof.
    intros. unfold own. rewrite filter_In, ownb_iff. split; intros [A B]; split; auto; apply first_u; auto; eapply fu_in; eauto.
  Qed.
  Lemma own_in_r : forall k o n, In n (own k (fr o)) <-> In n (fr o) /\ first_at lu n k.
  Proof.
    intros. unfold own. rewrite filter_In, ownb_iff. split; intros [A B]; split; auto; apply first_u; auto; eapply fr_in; eauto.
  Qed.

  Definition cfg_of (r : recst V) : rec_opts * bool := (rc_opts r, rc_par r).

  Lemma startup_get : forall o t, sget (startup matches o t path pn un un) path
      = Some (mkFiltered (fp o) (fu o) (fr o)).
  Proof.
    intros. unfold startup. rewrite sget_sset, String.eqb_refl. unfold fp, fu, fr, sel.
    destruct (ro_resids o), (ro_unknowns o); reflexivity.
  Qed.

  Lemma startup_one_ok : forall k m r, exists r' : recst V,
      rec_ready k (cfg_of r) r' /\ rc_log r' = rc_log r /\
      startup_one matches (Some (k, R)) path pn un m r =
      Ok (mkMgr (supdate (mg_vp m) (own k (fp (rc_opts r)))) (supdate (mg_vu m) (own k (fu (rc_opts r))))
            (supdate (mg_vr m) (own k (fr (rc_opts r))))
            (mg_serial m || negb (rc_par r))
            (mg_rp m || nonempty (fp (rc_opts r))) (mg_ru m || nonempty (fu (rc_opts r)))
            (mg_rr m || nonempty (fr (rc_opts r)))
            (mg_recs m ++ [r'])).
  Proof.
    intros k m r. unfold startup_one. rewrite startup_get. cbn [f_p f_u f_r].
    rewrite !localize_ok; [| | |]; try (intros n I; [apply owned_u; eapply fr_in; eauto|| apply owned_u; eapply fu_in; eauto || apply owned_p; eapply fp_in; eauto]);
      try (intros n I; first [apply owned_p; eapply fp_in; eassumption | apply owned_u; eapply fu_in; eassumption | apply owned_u; eapply fr_in; eassumption]).
    cbn [bind]. eexists. split; [|split; [|reflexivity]]; [|reflexivity].
    unfold rec_ready, names_of, cfg_of. cbn [rc_opts rc_par rc_table fst snd]. split; [reflexivity|]. split; [reflexivity|].
    destruct (rc_par r).
    - rewrite sget_sset, String.eqb_refl. reflexivity.
    - apply startup_get.
  Qed.

  Lemma startup_loop_ok : forall k l m, exists m',
      startup_loop matches (Some (k, R)) path pn un m l = Ok m' /\
      (exists l', mg_recs m' = (mg_recs m ++ l')%list /\
                  Forall2 (fun r r' => rec_ready k (cfg_of r) r' /\ rc_log r' = rc_log r) l l') /\
      (forall n, In n (mg_vp m') <-> In n (mg_vp m) \/ exists r, In r l /\ In n (own k (fp (rc_opts r)))) /\
      (forall n, In n (mg_vu m') <-> In n (mg_vu m) \/ exists r, In r l /\ In n (own k (fu (rc_opts r)))) /\
      (forall n, In n (mg_vr m') <-> In n (mg_vr m) \/ exists r, In r l /\ In n (own k (fr (rc_opts r)))) /\
      mg_serial m' = (mg_serial m || existsb (fun r => negb (rc_par r)) l)%bool /\
      mg_rp m' = (mg_rp m || existsb (fun r => nonempty (fp (rc_opts r))) l)%bool /\
      mg_ru m' = (mg_ru m || existsb (fun r => nonempty (fu (rc_opts r))) l)%bool /\
      mg_rr m' = (mg_rr m || existsb (fun r => nonempty (fr (rc_opts r))) l)%bool.
  Proof.
    induction l as [|r l IH]; intros m; cbn [startup_loop].
    - exists m. split; [reflexivity|]. split; [exists []; rewrite app_nil_r; auto|].
      simpl. rewrite !orb_false_r.
      assert (X : forall (P : Prop) (Q : recst V -> Prop), P <-> P \/ exists r, False /\ Q r).
      { intros. split; auto. intros [H|(r & [] & _)]; auto. }
      repeat split; auto; try (intros [H|(r & [] & _)]; auto).
    - destruct (startup_one_ok k m r) as (r' & RR & LG & ->). cbn [bind].
      match goal with |- context [startup_loop _ _ _ _ _ ?x _] => destruct (IH x) as (m' & E & (l' & E1 & F) & VP & VU & VR & S & P & U & T) end.
      cbn [mg_recs mg_vp mg_vu mg_vr mg_serial mg_rp mg_ru mg_rr] in *.
      exists m'. split; [exact E|]. split.
      { exists (r' :: l'). split; [rewrite E1, <- app_assoc; reflexivity|]. constructor; auto. }
      simpl existsb. rewrite S, P, U, T, !orb_assoc.
      split; [|split; [|split; [|repeat split; auto]]].
      + intro n. rewrite VP, supdate_in. split.
        * intros [[H|H]|(x & I & H)]; [auto|right; exists r; simpl; auto|right; exists x; simpl; auto].
        * intros [H|(x & [<-|I] & H)]; [auto|auto|right; eauto].
      + intro n. rewrite VU, supdate_in. split.
        * intros [[H|H]|(x & I & H)]; [auto|right; exists r; simpl; auto|right; exists x; simpl; auto].
        * intros [H|(x & [<-|I] & H)]; [auto|auto|right; eauto].
      + intro n. rewrite VR, supdate_in. split.
        * intros [[H|H]|(x & I & H)]; [auto|right; exists r; simpl; auto|right; exists x; simpl; auto].
        * intros [H|(x & [<-|I] & H)]; [auto|auto|right; eauto].
  Qed.

  (** a manager that startup has prepared *)
  Record ready (rs : list (rec_opts * bool)) (ser : bool) (k : nat) (m : mgr V) : Prop := {
    rd_recs : Forall2 (rec_ready k) rs (mg_recs m);
    rd_ser : mg_serial m = ser;
    rd_rp : mg_rp m = existsb (fun cfg => nonempty (fp (fst cfg))) rs;
    rd_ru : mg_ru m = existsb (fun cfg => nonempty (fu (fst cfg))) rs;
    rd_rr : mg_rr m = existsb (fun cfg => nonempty (fr (fst cfg))) rs;
    rd_stale : no_stale lp lu k m;
    rd_vp : forall cfg n, In cfg rs -> In n (fp (fst cfg)) -> first_at lp n k -> In n (mg_vp m);
    rd_vu : forall cfg n, In cfg rs -> In n (fu (fst cfg)) -> first_at lu n k -> In n (mg_vu m);
    rd_vr : forall cfg n, In cfg rs -> In n (fr (fst cfg)) -> first_at lu n k -> In n (mg_vr m) }.

  Lemma Forall2_map_l : forall A B C (f : A -> B) (P : B -> C -> Prop) l l',
      Forall2 (fun a c => P (f a) c) l l' -> Forall2 P (map f l) l'.
  Proof. intros A B C f P l l' H. induction H; simpl; auto. Qed.

  Lemma existsb_map : forall A B (f : A -> B) p l, existsb p (map f l) = existsb (fun a => p (f a)) l.
  Proof. induction l as [|a l IH]; simpl; auto. now rewrite IH. Qed.

  Lemma startup_ready : forall k m, no_stale lp lu k m -> exists m',
      mgr_startup matches (Some (k, R)) path pn un m = Ok m' /\
      ready (config m) (mg_serial m || existsb (fun cfg => negb (snd cfg)) (config m)) k m' /\
      logs m' = logs m.
  Proof.
    intros k m (NP & NU & NR). unfold mgr_startup.
    match goal with |- context [startup_loop _ _ _ _ _ ?x _] => destruct (startup_loop_ok k (mg_recs m) x) as (m' & E & (l' & E1 & F) & VP & VU & VR & S & P & U & T) end.
    cbn [mg_recs mg_vp mg_vu mg_vr mg_serial mg_rp mg_ru mg_rr app orb] in *.
    exists m'. split; [exact E|]. unfold config, logs.
    assert (CF : Forall2 (rec_ready k) (map cfg_of (mg_recs m)) l').
    { apply Forall2_map_l. clear - F. induction F; constructor; tauto. }
    assert (CI : forall cfg, In cfg (map cfg_of (mg_recs m)) -> exists r, In r (mg_recs m) /\ rc_opts r = fst cfg).
    { intros cfg I. apply in_map_iff in I. destruct I as (r & <- & I). exists r. auto. }
    split.
    - constructor.
      + rewrite E1. exact CF.
      + rewrite S. f_equal. rewrite existsb_map. reflexivity.
      + rewrite P, existsb_map. reflexivity.
      + rewrite U, existsb_map. reflexivity.
      + rewrite T, existsb_map. reflexivity.
      + split; [|split].
        * intros n I. apply VP in I. destruct I as [I|(r & _ & I)]; auto. now apply own_in_p in I.
        * intros n I. apply VU in I. destruct I as [I|(r & _ & I)]; auto. now apply own_in_u in I.
        * intros n I. apply VR in I. destruct I as [I|(r & _ & I)]; auto. now apply own_in_r in I.
      + intros cfg n I J K. apply VP. destruct (CI _ I) as (r & Ir & Er). right. exists r. split; auto.
        rewrite Er. apply own_in_p. auto.
      + intros cfg n I J K. apply VU. destruct (CI _ I) as (r & Ir & Er). right. exists r. split; auto.
        rewrite Er. apply own_in_u. auto.
      + intros cfg n I J K. apply VR. destruct (CI _ I) as (r & Ir & Er). right. exists r. split; auto.
        rewrite Er. apply own_in_r. auto.
    - rewrite E1. clear - F. induction F; simpl; auto. f_equal; tauto.
  Qed.

  (** ** one iteration *)

  (** one recorder: the dictionary given to it holds every name it asks for *)
  Definition has (d : dict V) (names : list string) : Prop := forall n, In n names -> In n (dkeys d).

  Definition picked (d : dict V) (names : list string) (on : bool) (x : option (dict V)) : Prop :=
    if on then exists e, x = Some e /\ NoDup (dkeys e) /\
                 forall n, sget e n = if existsb (String.eqb n) names then sget d n else None
    else x = None.

  Lemma section_ok : forall on table d k c f,
      sget table (get_pathname c) = Some f -> (on = true -> has d (f_names f k)) ->
      exists x, section on table (Some d) k c = Ok x /\ picked d (f_names f k) on x.
  Proof.
    intros on table d k c f T H. unfold section, picked. destruct on.
    - destruct (filter_vector_ok V table d k c f T (H eq_refl)) as (e & E & N & G).
      cbn [filtered_items]. rewrite E. cbn [bind]. exists (Some e). split; auto. exists e. auto.
    - exists None. auto.
  Qed.

  (** the entry that process k's recorder gets out of three dictionaries *)
  Definition entry_from (k : nat) (cfg : rec_opts * bool) (d u s : dict V) (c : coord) (e : entry V) : Prop :=
    en_coord e = c /\
    picked d (f_p (names_of k cfg)) (ro_params (fst cfg)) (en_p e) /\
    picked u (f_u (names_of k cfg)) (ro_unknowns (fst cfg)) (en_u e) /\
    picked s (f_r (names_of k cfg)) (ro_resids (fst cfg)) (en_r e).

  Lemma rec_iteration_ok : forall k cfg r d u s c,
      rec_ready k cfg r -> get_pathname c = path ->
      has d (f_p (names_of k cfg)) -> has u (f_u (names_of k cfg)) -> has s (f_r (names_of k cfg)) ->
      exists r' e, rec_iteration r (Some d) (Some u) (Some s) c = Ok r' /\ rec_ready k cfg r' /\
        rc_log r' = (rc_log r ++ [e])%list /\ entry_from k cfg d u s c e.
  Proof.
    intros k cfg r d u s c (O & P & T) G HD HU HS. unfold rec_iteration. rewrite O. rewrite <- G in T.
    destruct (section_ok (ro_params (fst cfg)) (rc_table r) d KP c _ T) as (xp & -> & Kp); [auto|].
    destruct (section_ok (ro_unknowns (fst cfg)) (rc_table r) u KU c _ T) as (xu & -> & Ku); [auto|].
    destruct (section_ok (ro_resids (fst cfg)) (rc_table r) s KR c _ T) as (xr & -> & Kr); [auto|].
    cbn [bind]. eexists. exists (mkEntry c xp xu xr). split; [reflexivity|]. cbn [rc_log]. split; [|split; [reflexivity|]].
    - unfold rec_ready. cbn [rc_opts rc_par rc_table]. rewrite <- G. auto.
    - unfold entry_from. cbn [en_coord en_p en_u en_r]. auto.
  Qed.

  (** which recorders of a process are called *)
  Definition called (world : nat) (cfg : rec_opts * bool) : bool := (snd cfg || Nat.eqb world 0)%bool.

  Definition step (world k : nat) (d u s : dict V) (c : coord) (cfg : rec_opts * bool) (r r' : recst V) : Prop :=
    rec_ready k cfg r' /\
    if called world cfg then exists e, rc_log r' = (rc_log r ++ [e])%list /\ entry_from k cfg d u s c e
    else r' = r.

  Inductive Forall3 {A B C} (P : A -> B -> C -> Prop) : list A -> list B -> list C -> Prop :=
  | F3_nil : Forall3 P [] [] []
  | F3_cons : forall a b c la lb lc, P a b c -> Forall3 P la lb lc -> Forall3 P (a :: la) (b :: lb) (c :: lc).

  Lemma record_loop_ok : forall world k d u s c rs l,
      Forall2 (rec_ready k) rs l -> get_pathname c = path ->
      (forall cfg, In cfg rs -> called world cfg = true ->
         has d (f_p (names_of k cfg)) /\ has u (f_u (names_of k cfg)) /\ has s (f_r (names_of k cfg))) ->
      exists l', record_loop world (Some d) (Some u) (Some s) c l = Ok l' /\
                 Forall3 (step world k d u s c) rs l l'.
  Proof.
    intros world k d u s c rs l F G. induction F as [|cfg r rs l RR F IH]; intro H; cbn [record_loop].
    - exists []. split; auto. constructor.
    - destruct IH as (l' & E & F3); [intros; apply H; simpl; auto|].
      assert (CE : (rc_par r || Nat.eqb world 0)%bool = called world cfg).
      { unfold called. destruct RR as (_ & -> & _). reflexivity. }
      rewrite CE. destruct (called world cfg) eqn:C.
      + destruct (H cfg) as (HD & HU & HS); [simpl; auto|auto|].
        destruct (rec_iteration_ok k cfg r d u s c RR G HD HU HS) as (r' & e & -> & RR' & LG & EN).
        cbn [bind]. rewrite E. cbn [bind]. eexists. split; [reflexivity|]. constructor; auto.
        split; [exact RR'|]. rewrite C. eauto.
      + cbn [bind]. rewrite E. cbn [bind]. eexists. split; [reflexivity|]. constructor; auto.
        split; [exact RR|]. rewrite C. reflexivity.
  Qed.

  Lemma step_ready : forall world k d u s c rs l l',
      Forall3 (step world k d u s c) rs l l' -> Forall2 (rec_ready k) rs l'.
  Proof. intros world k d u s c rs l l' F. induction F; constructor; auto. apply H. Qed.

  Lemma with_recs_ready : forall rs ser k m l, ready rs ser k m -> Forall2 (rec_ready k) rs l ->
      ready rs ser k (with_recs m l).
  Proof. intros rs ser k m l [] F. constructor; auto. Qed.

  (** the local values of a process *)
  Definition local_of (names : list string) (vec d : dict V) : Prop :=
    NoDup (dkeys d) /\ forall n, sget d n = if existsb (String.eqb n) names then sget vec n else None.

  Lemma local_case_ok : forall rs ser k m v, ready rs ser k m ->
      nth_error lp k = Some (dkeys (ve_p v)) -> nth_error lu k = Some (dkeys (ve_u v)) ->
      nth_error lu k = Some (dkeys (ve_r v)) ->
      exists d u s, local_case m v = Ok (d, u, s) /\
        local_of (mg_vp m) (ve_p v) d /\ local_of (mg_vu m) (ve_u v) u /\ local_of (mg_vr m) (ve_r v) s.
  Proof.
    intros rs ser k m v RD NP NU NR. destruct (rd_stale _ _ _ _ RD) as (SP & SU & SR). unfold local_case.
    destruct (lookup_all_full V (ve_p v) (mg_vp m)) as (d & -> & D1 & D2).
    { intros n I. destruct (SP n I) as [(l & E & J) _]. congruence. }
    destruct (lookup_all_full V (ve_u v) (mg_vu m)) as (u & -> & U1 & U2).
    { intros n I. destruct (SU n I) as [(l & E & J) _]. congruence. }
    destruct (lookup_all_full V (ve_r v) (mg_vr m)) as (s & -> & S1 & S2).
    { intros n I. destruct (SR n I) as [(l & E & J) _]. congruence. }
    cbn [bind]. exists d, u, s. unfold local_of. auto 10.
  Qed.
End Rm2.

(** Lemmas for C103: an iteration on all processes, and runs. *)
From Verif Require Import Base BaseFacts RecordModel RecordSpec RecordProofs RmModel RmSpec RmProofs RmProofs2.
Local Open Scope string_scope.

Lemma nth_error_ext_ok : forall A B (f : A -> res B) (g : nat -> A -> B -> Prop) l k0,
    (forall k a, nth_error l k = Some a -> exists b, f a = Ok b /\ g (k0 + k)%nat a b) ->
    exists bs, oks (map f l) = Some bs /\ length bs = length l /\
      forall k a b, nth_error l k = Some a -> nth_error bs k = Some b -> g (k0 + k)%nat a b.
Proof.
  induction l as [|a l IH]; intros k0 H.
  - exists []. split; [reflexivity|]. split; [reflexivity|]. intros [|k] x b E; discriminate.
  - destruct (H 0%nat a eq_refl) as (b & E & G).
    destruct (IH (S k0)) as (bs & E' & LE & F).
    { intros k x X. destruct (H (S k) x X) as (y & Y & Z). exists y. split; auto.
      replace (S k0 + k)%nat with (k0 + S k)%nat by lia. exact Z. }
    exists (b :: bs). split.
    { unfold oks in *. simpl. rewrite E, E'. reflexivity. }
    split; [simpl; congruence|]. intros [|k] x y X Y; simpl in X, Y.
    + injection X as <-. injection Y as <-. exact G.
    + specialize (F _ _ _ X Y). replace (k0 + S k)%nat with (S k0 + k)%nat by lia. exact F.
Qed.

Lemma nth_same : forall A B (l : list A) (l' : list B) k a, length l = length l' -> nth_error l k = Some a ->
    exists b, nth_error l' k = Some b.
Proof.
  intros A B l l' k a E N. destruct (nth_error l' k) eqn:X; eauto.
  apply nth_error_None in X. assert (k < length l)%nat by (apply nth_error_Some; congruence). lia.
Qed.

Section Rm3.
  Context {V : Type}.
  Variable matches : string -> string -> bool.
  Variables (path : string) (pn un : list string) (lp lu : list (list string)).
  Hypothesis L : laid_out pn un lp lu.

  Local Notation fp := (fp matches pn).
  Local Notation fu := (fu matches un).
  Local Notation fr := (fr matches un).
  Local Notation ready := (@ready V matches path pn un lp lu).
  Local Notation rec_ready := (@rec_ready V matches path pn un lp lu).
  Local Notation names_of := (names_of matches pn un lp lu).
  Local Notation step := (@step V matches path pn un lp lu).

  (** ** values *)
  Lemma owner_value_of : forall (f : vecs V -> dict V) vs ls n k v x,
      map (fun w => map fst (f w)) vs = ls -> nth_error vs k = Some v -> first_at ls n k ->
      sget (f v) n = Some x -> owner_value (map f vs) n x.
  Proof.
    intros f vs ls n k v x <- N [_ F] G. exists k, (f v). split; [now apply map_nth_error|]. split.
    - unfold sget in G. apply (dget_in String.eqb String.eqb_eq) in G. exact G.
    - intros j d' J E. rewrite nth_error_map in E. destruct (nth_error vs j) as [w|] eqn:W; [|discriminate].
      injection E as <-. apply (F j); auto. rewrite nth_error_map, W. reflexivity.
  Qed.

  Lemma local_value : forall (f : vecs V -> dict V) vs ls n k v,
      map (fun w => map fst (f w)) vs = ls -> nth_error vs k = Some v -> first_at ls n k ->
      exists x, sget (f v) n = Some x.
  Proof.
    intros f vs ls n k v <- N [(l & E & I) _]. rewrite nth_error_map, N in E. injection E as <-.
    destruct (sget (f v) n) eqn:G; eauto. exfalso. apply (proj1 (sget_keys V (f v) n) I). exact G.
  Qed.

  Lemma first_lt : forall ls n k, first_at ls n k -> (k < length ls)%nat.
  Proof. intros ls n k [(l & E & _) _]. apply nth_error_Some. congruence. Qed.

  Lemma kept_of : forall d names on x (chosen : string -> Prop) (value : string -> V -> Prop),
      @picked V d names on x -> (on = true -> @has V d names) ->
      (on = true -> forall n, In n names <-> chosen n) ->
      (forall n v, In n names -> sget d n = Some v -> value n v) -> kept on x chosen value.
  Proof.
    intros d names on x chosen value P H C W. unfold picked, kept in *. destruct on; auto.
    destruct P as (e & -> & N & G). exists e. split; auto.
    eapply holds_of_get; eauto. apply H; auto.
  Qed.

  (** ** a process on its own *)
  Definition adv (rel : rec_opts * bool -> entry V -> Prop) (cfg : rec_opts * bool) (r r' : recst V) : Prop :=
    exists e, rc_log r' = (rc_log r ++ [e])%list /\ rel cfg e.

  Lemma Forall3_impl : forall A B C (P Q : A -> B -> C -> Prop) la lb lc,
      Forall3 P la lb lc -> (forall a b c, In a la -> P a b c -> Q a b c) -> Forall3 Q la lb lc.
  Proof.
    intros A B C P Q la lb lc F. induction F; intro H'; constructor.
    - apply H'; simpl; auto.
    - apply IHF. intros; apply H'; simpl; auto.
  Qed.

  Definition share (k : nat) (it : coord * list (vecs V)) (cfg : rec_opts * bool) (e : entry V) : Prop :=
    share_entry matches (fst cfg) pn un lp lu k it e.
  Definition whole (it : coord * list (vecs V)) (cfg : rec_opts * bool) (e : entry V) : Prop :=
    whole_entry matches (fst cfg) pn un it e.

  Lemma alone_ok : forall rs ser k m vs v w c,
      Forall (fun cfg => snd cfg = true) rs -> ready rs ser k m ->
      vectors_of lp lu vs -> nth_error vs k = Some v -> get_pathname c = path ->
      exists m', record_alone c (mkProc w m v) = Returns m' /\ ready rs ser k m' /\
        Forall3 (adv (share k (c, vs))) rs (mg_recs m) (mg_recs m').
  Proof.
    intros rs ser k m vs v w c PAR RD (VP & VU & VR) NV G. unfold record_alone. cbn [pr_mgr pr_vecs pr_world].
    assert (NP : nth_error lp k = Some (dkeys (ve_p v))).
    { rewrite <- VP. exact (map_nth_error (fun v => map fst (ve_p v)) k vs NV). }
    assert (NU : nth_error lu k = Some (dkeys (ve_u v))).
    { rewrite <- VU. exact (map_nth_error (fun v => map fst (ve_u v)) k vs NV). }
    assert (NR : nth_error lu k = Some (dkeys (ve_r v))).
    { rewrite <- VR. exact (map_nth_error (fun v => map fst (ve_r v)) k vs NV). }
    destruct (local_case_ok matches path pn un lp lu rs ser k m v RD NP NU NR)
      as (d & u & s & -> & (D1 & D2) & (U1 & U2) & (S1 & S2)).
    assert (HP : forall cfg n, In cfg rs -> In n (f_p (names_of k cfg)) ->
      exists x, sget d n = Some x /\ owner_value (map ve_p vs) n x).
    { intros cfg n I J. rewrite Forall_forall in PAR. unfold RmProofs2.names_of in J. rewrite (PAR _ I) in J. simpl in J.
      apply (own_in_p matches pn un lp lu L) in J. destruct J as [J F].
      destruct (local_value ve_p vs lp n k v VP NV F) as (x & X). exists x.
      rewrite D2, (proj2 (existsb_in _ _)) by (eapply rd_vp; eauto).
      split; auto. eapply owner_value_of; eauto. }
    assert (HU : forall cfg n, In cfg rs -> In n (f_u (names_of k cfg)) ->
      exists x, sget u n = Some x /\ owner_value (map ve_u vs) n x).
    { intros cfg n I J. rewrite Forall_forall in PAR. unfold RmProofs2.names_of in J. rewrite (PAR _ I) in J. simpl in J.
      apply (own_in_u matches pn un lp lu L) in J. destruct J as [J F].
      destruct (local_value ve_u vs lu n k v VU NV F) as (x & X). exists x.
      rewrite U2, (proj2 (existsb_in _ _)) by (eapply rd_vu; eauto).
      split; auto. eapply owner_value_of; eauto. }
    assert (HR : forall cfg n, In cfg rs -> In n (f_r (names_of k cfg)) ->
      exists x, sget s n = Some x /\ owner_value (map ve_r vs) n x).
    { intros cfg n I J. rewrite Forall_forall in PAR. unfold RmProofs2.names_of in J. rewrite (PAR _ I) in J. simpl in J.
      apply (own_in_r matches pn un lp lu L) in J. destruct J as [J F].
      destruct (local_value ve_r vs lu n k v VR NV F) as (x & X). exists x.
      rewrite S2, (proj2 (existsb_in _ _)) by (eapply rd_vr; eauto).
      split; auto. eapply owner_value_of; eauto. }
    assert (KEY : forall (f : dict V) names (val : string -> V -> Prop), (forall n, In n names -> exists x, sget f n = Some x /\ val n x) -> has f names).
    { intros f names val H n I. apply sget_keys. destruct (H n I) as (x & -> & _). discriminate. }
    destruct (record_loop_ok matches path pn un lp lu w k d u s c rs (mg_recs m) (rd_recs _ _ _ _ _ _ _ _ _ _ RD) G)
      as (l' & E & F3).
    { intros cfg I _. split; [|split]; eapply KEY; eauto. }
    cbn [record_case]. rewrite E. cbn [bind ended_of]. eexists. split; [reflexivity|]. split.
    - apply with_recs_ready; auto. eapply step_ready; eauto.
    - cbn [mg_recs with_recs]. eapply Forall3_impl; [exact F3|]. intros cfg r r' I (_ & ST).
      assert (PC : snd cfg = true) by (rewrite Forall_forall in PAR; auto).
      unfold called in ST. rewrite PC in ST. cbn [orb] in ST. destruct ST as (e & LG & EN). exists e. split; auto.
      destruct EN as (EC & EP & EU & ER). split; [exact EC|].
      split; [|split].
      + eapply kept_of; [exact EP| | |].
        * intros _. eapply KEY; eauto.
        * intros ON n. unfold RmProofs2.names_of. rewrite PC. simpl. rewrite (own_in_p matches pn un lp lu L).
          unfold RmProofs2.fp. rewrite ON, sel_in. tauto.
        * intros n x J X. destruct (HP cfg n I J) as (y & Y & O). rewrite Y in X. injection X as <-. exact O.
      + eapply kept_of; [exact EU| | |].
        * intros _. eapply KEY; eauto.
        * intros ON n. unfold RmProofs2.names_of. rewrite PC. simpl. rewrite (own_in_u matches pn un lp lu L).
          unfold RmProofs2.fu. rewrite ON, sel_in. tauto.
        * intros n x J X. destruct (HU cfg n I J) as (y & Y & O). rewrite Y in X. injection X as <-. exact O.
      + eapply kept_of; [exact ER| | |].
        * intros _. eapply KEY; eauto.
        * intros ON n. unfold RmProofs2.names_of. rewrite PC. simpl. rewrite (own_in_r matches pn un lp lu L).
          unfold RmProofs2.fr. rewrite ON, sel_in. tauto.
        * intros n x J X. destruct (HR cfg n I J) as (y & Y & O). rewrite Y in X. injection X as <-. exact O.
  Qed.

  (** ** gathering *)
  Lemma merged_get : forall (f : vecs V -> dict V) ls (nm : nat -> list string) vs ds n k v x,
      map (fun w => map fst (f w)) vs = ls -> length ds = length vs ->
      (forall j w d, nth_error vs j = Some w -> nth_error ds j = Some d -> local_of (nm j) (f w) d) ->
      (forall j q, In q (nm j) -> first_at ls q j) ->
      nth_error vs k = Some v -> In n (nm k) -> sget (f v) n = Some x ->
      sget (merge ds) n = Some x.
  Proof.
    intros f ls nm vs ds n k v x VL LEN LOC ST NV I G.
    assert (AT : forall j d, nth_error ds j = Some d -> exists w, nth_error vs j = Some w /\ local_of (nm j) (f w) d).
    { intros j d E. destruct (nth_same _ _ ds vs j d LEN E) as (w & W). eauto. }
    apply merge_get.
    - apply Forall_forall. intros d D. apply In_nth_error in D. destruct D as (j & E).
      destruct (AT _ _ E) as (w & _ & N & _). exact N.
    - intros d D. apply In_nth_error in D. destruct D as (j & E). destruct (AT _ _ E) as (w & W & _ & Q).
      rewrite Q. destruct (existsb (String.eqb n) (nm j)) eqn:X; auto. apply existsb_in in X.
      assert (j = k) by (eapply first_at_uniq; eauto). subst. rewrite NV in W. injection W as <-. auto.
    - destruct (nth_same _ _ vs ds k v (eq_sym LEN) NV) as (d & D). exists d. split; [eapply nth_error_In; eauto|].
      destruct (LOC _ _ _ NV D) as (_ & Q). rewrite Q, (proj2 (existsb_in _ _)); auto.
  Qed.

  (** what a gather gives, when all processes have the same flag *)
  Definition head_of (b : bool) (ds : list (dict V)) : dict V := if b then merge ds else [].
  Definition rest_of (b : bool) : option (dict V) := if b then None else Some [].

  Lemma gather_same : forall A (flag : A -> bool) (b : bool) (ps : list A) d ds,
      ps <> [] -> (forall p, In p ps -> flag p = b) ->
      gather_key (map flag ps) (d :: ds) = Some (Some (head_of b (d :: ds)) :: map (fun _ => rest_of b) ds).
  Proof.
    intros A flag b ps d ds NE H. unfold gather_key.
    assert (M : map flag ps = map (fun _ => b) ps) by (apply map_ext_in; auto).
    rewrite M. destruct ps as [|p ps]; [contradiction|]. destruct b.
    - replace (forallb (fun b => b) (map (fun _ => true) (p :: ps))) with true; [reflexivity|].
      symmetry. apply forallb_forall. intros x X. apply in_map_iff in X. destruct X as (? & <- & _). reflexivity.
    - simpl map at 1. cbn [forallb andb].
      replace (forallb negb (map (fun _ => false) (p :: ps))) with true; [reflexivity|].
      symmetry. apply forallb_forall. intros x X. apply in_map_iff in X. destruct X as (? & <- & _). reflexivity.
  Qed.

  Definition good (value : string -> V -> Prop) (d : dict V) (names : list string) : Prop :=
    forall n, In n names -> exists x, sget d n = Some x /\ value n x.

  Lemma good_incl : forall value d a b, good value d b -> (forall n, In n a -> In n b) -> good value d a.
  Proof. unfold good. auto. Qed.

  Lemma names_sub : forall k cfg,
      (forall n, In n (f_p (names_of k cfg)) -> In n (fp (fst cfg))) /\
      (forall n, In n (f_u (names_of k cfg)) -> In n (fu (fst cfg))) /\
      (forall n, In n (f_r (names_of k cfg)) -> In n (fr (fst cfg))).
  Proof.
    intros. unfold RmProofs2.names_of. destruct (snd cfg); simpl; [|auto].
    split; [|split]; intros n I; apply filter_In in I; apply I.
  Qed.

  (** the first process: every recorder gets what it should *)
  Definition first_rel (it : coord * list (vecs V)) (cfg : rec_opts * bool) (e : entry V) : Prop :=
    if snd cfg then share 0 it cfg e else whole it cfg e.

  Lemma first_ok : forall rs ser m vs c d u s,
      ready rs ser 0 m -> get_pathname c = path ->
      (forall cfg, In cfg rs -> good (owner_value (map ve_p vs)) d (fp (fst cfg))) ->
      (forall cfg, In cfg rs -> good (owner_value (map ve_u vs)) u (fu (fst cfg))) ->
      (forall cfg, In cfg rs -> good (owner_value (map ve_r vs)) s (fr (fst cfg))) ->
      exists m', record_case 0 m (Some d) (Some u) (Some s) c = Ok m' /\ ready rs ser 0 m' /\
        Forall3 (adv (first_rel (c, vs))) rs (mg_recs m) (mg_recs m').
  Proof.
    intros rs ser m vs c d u s RD G GP GU GR.
    assert (KEY : forall value (f : dict V) names, good value f names -> has f names).
    { intros value f names H n I. apply sget_keys. destruct (H n I) as (x & -> & _). discriminate. }
    assert (NP : forall cfg, In cfg rs -> good (owner_value (map ve_p vs)) d (f_p (names_of 0 cfg))).
    { intros cfg I. eapply good_incl; [exact (GP cfg I)|]. apply (names_sub 0 cfg). }
    assert (NU : forall cfg, In cfg rs -> good (owner_value (map ve_u vs)) u (f_u (names_of 0 cfg))).
    { intros cfg I. eapply good_incl; [exact (GU cfg I)|]. apply (names_sub 0 cfg). }
    assert (NR : forall cfg, In cfg rs -> good (owner_value (map ve_r vs)) s (f_r (names_of 0 cfg))).
    { intros cfg I. eapply good_incl; [exact (GR cfg I)|]. apply (names_sub 0 cfg). }
    destruct (record_loop_ok matches path pn un lp lu 0 0 d u s c rs (mg_recs m) (rd_recs _ _ _ _ _ _ _ _ _ _ RD) G)
      as (l' & E & F3).
    { intros cfg I _. split; [|split]; eapply KEY; eauto. }
    cbn [record_case]. rewrite E. cbn [bind]. eexists. split; [reflexivity|]. split.
    - apply with_recs_ready; auto. eapply step_ready; eauto.
    - cbn [mg_recs with_recs]. eapply Forall3_impl; [exact F3|]. intros cfg r r' I (_ & ST).
      unfold called in ST. rewrite orb_true_r in ST. destruct ST as (e & LG & EN). exists e. split; auto.
      destruct EN as (EC & EP & EU & ER). specialize (NP _ I). specialize (NU _ I). specialize (NR _ I).
      unfold first_rel. destruct (snd cfg) eqn:PC.
      + split; [exact EC|]. split; [|split].
        * eapply kept_of; [exact EP|intros _; eapply KEY; eauto| |].
          -- intros ON n. unfold RmProofs2.names_of. rewrite PC. simpl. rewrite (own_in_p matches pn un lp lu L).
             unfold RmProofs2.fp. rewrite ON, sel_in. tauto.
          -- intros n x J X. destruct (NP n J) as (y & Y & O). rewrite Y in X. injection X as <-. exact O.
        * eapply kept_of; [exact EU|intros _; eapply KEY; eauto| |].
          -- intros ON n. unfold RmProofs2.names_of. rewrite PC. simpl. rewrite (own_in_u matches pn un lp lu L).
             unfold RmProofs2.fu. rewrite ON, sel_in. tauto.
          -- intros n x J X. destruct (NU n J) as (y & Y & O). rewrite Y in X. injection X as <-. exact O.
        * eapply kept_of; [exact ER|intros _; eapply KEY; eauto| |].
          -- intros ON n. unfold RmProofs2.names_of. rewrite PC. simpl. rewrite (own_in_r matches pn un lp lu L).
             unfold RmProofs2.fr. rewrite ON, sel_in. tauto.
          -- intros n x J X. destruct (NR n J) as (y & Y & O). rewrite Y in X. injection X as <-. exact O.
      + split; [exact EC|]. split; [|split].
        * eapply kept_of; [exact EP|intros _; eapply KEY; eauto| |].
          -- intros ON n. unfold RmProofs2.names_of. rewrite PC. simpl. unfold RmProofs2.fp. rewrite ON, sel_in. tauto.
          -- intros n x J X. destruct (NP n J) as (y & Y & O). rewrite Y in X. injection X as <-. exact O.
        * eapply kept_of; [exact EU|intros _; eapply KEY; eauto| |].
          -- intros ON n. unfold RmProofs2.names_of. rewrite PC. simpl. unfold RmProofs2.fu. rewrite ON, sel_in. tauto.
          -- intros n x J X. destruct (NU n J) as (y & Y & O). rewrite Y in X. injection X as <-. exact O.
        * eapply kept_of; [exact ER|intros _; eapply KEY; eauto| |].
          -- intros ON n. unfold RmProofs2.names_of. rewrite PC. simpl. unfold RmProofs2.fr. rewrite ON, sel_in. tauto.
          -- intros n x J X. destruct (NR n J) as (y & Y & O). rewrite Y in X. injection X as <-. exact O.
  Qed.

  (** the state of all processes *)
  Definition all_ready (rs : list (rec_opts * bool)) (ser : bool) (ms : list (mgr V)) : Prop :=
    length ms = length lp /\ forall k m, nth_error ms k = Some m -> ready rs ser k m.

  Lemma procs_nth : forall worlds (ms : list (mgr V)) (vs : list (vecs V)) k w m v,
      nth_error worlds k = Some w -> nth_error ms k = Some m -> nth_error vs k = Some v ->
      nth_error (procs_of worlds ms vs) k = Some (mkProc w m v).
  Proof.
    induction worlds as [|w0 worlds IH]; intros [|m0 ms] [|v0 vs] [|k] w m v A B C; try discriminate; simpl in *.
    - congruence.
    - auto.
  Qed.
  Lemma procs_inv : forall worlds (ms : list (mgr V)) (vs : list (vecs V)) k p,
      nth_error (procs_of worlds ms vs) k = Some p ->
      nth_error worlds k = Some (pr_world p) /\ nth_error ms k = Some (pr_mgr p) /\ nth_error vs k = Some (pr_vecs p).
  Proof.
    induction worlds as [|w0 worlds IH]; intros [|m0 ms] [|v0 vs] [|k] p A; try discriminate; simpl in *.
    - injection A as <-. auto.
    - auto.
  Qed.
  Lemma procs_len : forall worlds (ms : list (mgr V)) (vs : list (vecs V)),
      length worlds = length ms -> length vs = length ms -> length (procs_of worlds ms vs) = length ms.
  Proof.
    induction worlds as [|w0 worlds IH]; intros [|m0 ms] [|v0 vs] A B; try discriminate; simpl in *; auto.
  Qed.

  Lemma deliver_nth : forall c (ps : list (proc V)) gp gu gr k p d u s,
      nth_error ps k = Some p -> nth_error gp k = Some d -> nth_error gu k = Some u -> nth_error gr k = Some s ->
      nth_error (deliver c ps gp gu gr) k = Some (ended_of (record_case (pr_world p) (pr_mgr p) d u s c)).
  Proof.
    induction ps as [|p0 ps IH]; intros [|d0 gp] [|u0 gu] [|s0 gr] [|k] p d u s A B C D; try discriminate; simpl in *.
    - congruence.
    - auto.
  Qed.
  Lemma deliver_len : forall c (ps : list (proc V)) gp gu gr n,
      length ps = n -> length gp = n -> length gu = n -> length gr = n -> length (deliver c ps gp gu gr) = n.
  Proof.
    induction ps as [|p0 ps IH]; intros [|d0 gp] [|u0 gu] [|s0 gr] n A B C D; simpl in *; subst; try discriminate; auto.
  Qed.

  Definition bp (rs : list (rec_opts * bool)) : bool := existsb (fun cfg => nonempty (fp (fst cfg))) rs.
  Definition bu (rs : list (rec_opts * bool)) : bool := existsb (fun cfg => nonempty (fu (fst cfg))) rs.
  Definition br (rs : list (rec_opts * bool)) : bool := existsb (fun cfg => nonempty (fr (fst cfg))) rs.

  Lemma nonempty_in : forall (f : rec_opts -> list string) rs cfg n, In cfg rs -> In n (f (fst cfg)) ->
      existsb (fun cfg : rec_opts * bool => nonempty (f (fst cfg))) rs = true.
  Proof.
    intros f rs cfg n I J. apply existsb_exists. exists cfg. split; auto.
    destruct (f (fst cfg)); [destruct J|reflexivity].
  Qed.

  (** record_iteration when there is a serial recorder *)
  Lemma record_all_gathers : forall rs ms worlds vs c,
      all_ready rs true ms -> rs <> [] -> lp <> [] -> length worlds = length lp -> vectors_of lp lu vs ->
      exists d u s,
        length (record_all c (procs_of worlds ms vs)) = length lp /\
        (forall w m, nth_error worlds 0 = Some w -> nth_error ms 0 = Some m ->
           nth_error (record_all c (procs_of worlds ms vs)) 0
           = Some (ended_of (record_case w m (Some d) (Some u) (Some s) c))) /\
        (forall k w m, (0 < k)%nat -> nth_error worlds k = Some w -> nth_error ms k = Some m ->
           nth_error (record_all c (procs_of worlds ms vs)) k
           = Some (ended_of (record_case w m (rest_of (bp rs)) (rest_of (bu rs)) (rest_of (br rs)) c))) /\
        (forall cfg, In cfg rs -> good (owner_value (map ve_p vs)) d (fp (fst cfg))) /\
        (forall cfg, In cfg rs -> good (owner_value (map ve_u vs)) u (fu (fst cfg))) /\
        (forall cfg, In cfg rs -> good (owner_value (map ve_r vs)) s (fr (fst cfg))).
  Proof.
    intros rs ms worlds vs c (LM & RD) NRS NLP LW (VP & VU & VR).
    assert (LV : length vs = length lp) by (rewrite <- VP; now rewrite map_length).
    set (ps := procs_of worlds ms vs).
    assert (LP : length ps = length lp) by (unfold ps; rewrite procs_len; congruence).
    assert (PR : forall k p, nth_error ps k = Some p -> ready rs true k (pr_mgr p) /\ nth_error vs k = Some (pr_vecs p)
                  /\ nth_error ms k = Some (pr_mgr p)).
    { intros k p E. destruct (procs_inv _ _ _ _ _ E) as (A & B & C). auto. }
    destruct (nth_error_ext_ok _ _ (fun p => local_case (pr_mgr p) (pr_vecs p))
      (fun k p x => local_of (mg_vp (pr_mgr p)) (ve_p (pr_vecs p)) (fst (fst x)) /\
                    local_of (mg_vu (pr_mgr p)) (ve_u (pr_vecs p)) (snd (fst x)) /\
                    local_of (mg_vr (pr_mgr p)) (ve_r (pr_vecs p)) (snd x)) ps 0) as (ds & ED & LD & LOC).
    { intros k p E. destruct (PR _ _ E) as (A & B & _).
      destruct (local_case_ok matches path pn un lp lu rs true k (pr_mgr p) (pr_vecs p) A) as (d & u & s & X & Y).
      - rewrite <- VP. exact (map_nth_error (fun v => map fst (ve_p v)) k vs B).
      - rewrite <- VU. exact (map_nth_error (fun v => map fst (ve_u v)) k vs B).
      - rewrite <- VR. exact (map_nth_error (fun v => map fst (ve_r v)) k vs B).
      - exists (d, u, s). auto. }
    cbn [plus] in LOC.
    destruct ps as [|p0 ps'] eqn:PS; [destruct lp; [contradiction|discriminate]|].
    rewrite <- PS in *. 
    destruct ds as [|x0 ds']; [rewrite PS in LD; discriminate|].
    set (ds := x0 :: ds') in *.
    set (dp := map (fun x => fst (fst x)) ds). set (du := map (fun x => snd (fst x)) ds). set (dr := map (fun x => snd x) ds).
    assert (GKp : gather_key (map (fun p => mg_rp (pr_mgr p)) ps) dp
                  = Some (Some (head_of (bp rs) dp) :: map (fun _ => rest_of (bp rs)) (map (fun x => fst (fst x)) ds'))).
    { unfold dp, ds. cbn [map]. apply gather_same; [rewrite PS; discriminate|]. intros p I.
      apply In_nth_error in I. destruct I as (k & E). destruct (PR _ _ E) as (A & _). apply (rd_rp _ _ _ _ _ _ _ _ _ _ A). }
    assert (GKu : gather_key (map (fun p => mg_ru (pr_mgr p)) ps) du
                  = Some (Some (head_of (bu rs) du) :: map (fun _ => rest_of (bu rs)) (map (fun x => snd (fst x)) ds'))).
    { unfold du, ds. cbn [map]. apply gather_same; [rewrite PS; discriminate|]. intros p I.
      apply In_nth_error in I. destruct I as (k & E). destruct (PR _ _ E) as (A & _). apply (rd_ru _ _ _ _ _ _ _ _ _ _ A). }
    assert (GKr : gather_key (map (fun p => mg_rr (pr_mgr p)) ps) dr
                  = Some (Some (head_of (br rs) dr) :: map (fun _ => rest_of (br rs)) (map (fun x => snd x) ds'))).
    { unfold dr, ds. cbn [map]. apply gather_same; [rewrite PS; discriminate|]. intros p I.
      apply In_nth_error in I. destruct I as (k & E). destruct (PR _ _ E) as (A & _). apply (rd_rr _ _ _ _ _ _ _ _ _ _ A). }
    assert (P0 : nth_error ps 0 = Some p0) by (rewrite PS; reflexivity).
    assert (RA : record_all c ps = deliver c ps
        (Some (head_of (bp rs) dp) :: map (fun _ => rest_of (bp rs)) (map (fun x => fst (fst x)) ds'))
        (Some (head_of (bu rs) du) :: map (fun _ => rest_of (bu rs)) (map (fun x => snd (fst x)) ds'))
        (Some (head_of (br rs) dr) :: map (fun _ => rest_of (br rs)) (map (fun x => snd x) ds'))).
    { unfold record_all. rewrite PS. rewrite <- PS.
      destruct (PR _ _ P0) as (A & _).
      assert (NE : nonempty (mg_recs (pr_mgr p0)) = true).
      { pose proof (rd_recs _ _ _ _ _ _ _ _ _ _ A) as F. destruct F; [contradiction|reflexivity]. }
      rewrite NE, (rd_ser _ _ _ _ _ _ _ _ _ _ A). cbn [negb]. rewrite ED.
      fold dp du dr. rewrite GKp, GKu, GKr. reflexivity. }
    exists (head_of (bp rs) dp), (head_of (bu rs) du), (head_of (br rs) dr).
    assert (LDS : length ds' = length ps').
    { unfold ds in LD. rewrite PS in LD. simpl in LD. congruence. }
    split; [|split; [|split; [|split; [|split]]]].
    - rewrite RA. apply deliver_len; auto; simpl; rewrite ?map_length, LDS, <- LP, PS; reflexivity.
    - intros w m W M. rewrite RA. erewrite deliver_nth; [|exact P0|reflexivity|reflexivity|reflexivity].
      destruct (procs_inv worlds ms vs 0 p0) as (A & B & _); [fold ps in PS; exact P0|]. congruence.
    - intros k w m K W M. rewrite RA.
      destruct (nth_same _ _ ms vs k m) as (v & NV); [congruence|auto|].
      assert (E : nth_error ps k = Some (mkProc w m v)) by (apply procs_nth; auto).
      destruct k as [|k]; [lia|].
      assert (KS : exists x, nth_error ds' k = Some x).
      { apply (nth_same _ _ ps' ds' k (mkProc w m v)); auto. rewrite PS in E. exact E. }
      destruct KS as (x & X).
      rewrite (deliver_nth c ps _ _ _ (S k) (mkProc w m v) (rest_of (bp rs)) (rest_of (bu rs)) (rest_of (br rs)) E);
        [reflexivity| | |]; cbn [nth_error]; rewrite !nth_error_map, X; reflexivity.
    - intros cfg I n J.
      assert (B : bp rs = true) by (eapply nonempty_in; eauto).
      rewrite B. cbn [head_of].
      assert (IP : In n pn) by (eapply fp_in; eauto).
      destruct (first_at_ex lp n) as (k & K); [apply (lo_p _ _ _ _ L); auto|].
      destruct (nth_same _ _ lp vs k (nth k lp [])) as (v & NV); [congruence|apply nth_error_nth'; eapply first_lt; eauto|].
      destruct (nth_same _ _ vs ms k v) as (m & NM); [congruence|auto|].
      destruct (local_value ve_p vs lp n k v VP NV K) as (x & X). exists x. split; [|eapply owner_value_of; eauto].
      apply (merged_get ve_p lp (fun j => match nth_error ms j with Some m => mg_vp m | None => [] end) vs dp n k v x); auto.
      + unfold dp. rewrite map_length. congruence.
      + intros j w d W D. destruct (nth_same _ _ vs ms j w) as (mj & MJ); [congruence|auto|]. rewrite MJ.
        unfold dp in D. rewrite nth_error_map in D. destruct (nth_error ds j) as [y|] eqn:Y; [|discriminate]. injection D as <-.
        destruct (nth_same _ _ ms worlds j mj) as (wj & WJ); [congruence|auto|].
        assert (E : nth_error ps j = Some (mkProc wj mj w)) by (apply procs_nth; auto).
        apply (LOC j _ y E Y).
      + intros j q Q. destruct (nth_error ms j) as [mj|] eqn:MJ; [|destruct Q].
        destruct (rd_stale _ _ _ _ _ _ _ _ _ _ (RD _ _ MJ)) as (SP & _). auto.
      + rewrite NM. eapply rd_vp; eauto.
    - intros cfg I n J.
      assert (B : bu rs = true) by (eapply nonempty_in; eauto).
      rewrite B. cbn [head_of].
      assert (IP : In n un) by (eapply fu_in; eauto).
      destruct (first_at_ex lu n) as (k & K); [apply (lo_u _ _ _ _ L); auto|].
      pose proof (lo_len _ _ _ _ L) as LL.
      destruct (nth_same _ _ lu vs k (nth k lu [])) as (v & NV); [congruence|apply nth_error_nth'; eapply first_lt; eauto|].
      destruct (nth_same _ _ vs ms k v) as (m & NM); [congruence|auto|].
      destruct (local_value ve_u vs lu n k v VU NV K) as (x & X). exists x. split; [|eapply owner_value_of; eauto].
      apply (merged_get ve_u lu (fun j => match nth_error ms j with Some m => mg_vu m | None => [] end) vs du n k v x); auto.
      + unfold du. rewrite map_length. congruence.
      + intros j w d W D. destruct (nth_same _ _ vs ms j w) as (mj & MJ); [congruence|auto|]. rewrite MJ.
        unfold du in D. rewrite nth_error_map in D. destruct (nth_error ds j) as [y|] eqn:Y; [|discriminate]. injection D as <-.
        destruct (nth_same _ _ ms worlds j mj) as (wj & WJ); [congruence|auto|].
        assert (E : nth_error ps j = Some (mkProc wj mj w)) by (apply procs_nth; auto).
        apply (LOC j _ y E Y).
      + intros j q Q. destruct (nth_error ms j) as [mj|] eqn:MJ; [|destruct Q].
        destruct (rd_stale _ _ _ _ _ _ _ _ _ _ (RD _ _ MJ)) as (_ & SP & _). auto.
      + rewrite NM. eapply rd_vu; eauto.
    - intros cfg I n J.
      assert (B : br rs = true) by (eapply nonempty_in; eauto).
      rewrite B. cbn [head_of].
      assert (IP : In n un) by (eapply fr_in; eauto).
      destruct (first_at_ex lu n) as (k & K); [apply (lo_u _ _ _ _ L); auto|].
      pose proof (lo_len _ _ _ _ L) as LL.
      destruct (nth_same _ _ lu vs k (nth k lu [])) as (v & NV); [congruence|apply nth_error_nth'; eapply first_lt; eauto|].
      destruct (nth_same _ _ vs ms k v) as (m & NM); [congruence|auto|].
      destruct (local_value ve_r vs lu n k v VR NV K) as (x & X). exists x. split; [|eapply owner_value_of; eauto].
      apply (merged_get ve_r lu (fun j => match nth_error ms j with Some m => mg_vr m | None => [] end) vs dr n k v x); auto.
      + unfold dr. rewrite map_length. congruence.
      + intros j w d W D. destruct (nth_same _ _ vs ms j w) as (mj & MJ); [congruence|auto|]. rewrite MJ.
        unfold dr in D. rewrite nth_error_map in D. destruct (nth_error ds j) as [y|] eqn:Y; [|discriminate]. injection D as <-.
        destruct (nth_same _ _ ms worlds j mj) as (wj & WJ); [congruence|auto|].
        assert (E : nth_error ps j = Some (mkProc wj mj w)) by (apply procs_nth; auto).
        apply (LOC j _ y E Y).
      + intros j q Q. destruct (nth_error ms j) as [mj|] eqn:MJ; [|destruct Q].
        destruct (rd_stale _ _ _ _ _ _ _ _ _ _ (RD _ _ MJ)) as (_ & _ & SP). auto.
      + rewrite NM. eapply rd_vr; eauto.
  Qed.
End Rm3.

(** Lemmas about option dictionaries. *)
From Verif Require Import Base BaseFacts OptionsModel OptionsSpec.

Lemma nth_replace : forall {A} (l : list A) i j x,
    nth_error (replace_nth l i x) j =
    if Nat.eqb i j then match nth_error l j with Some _ => Some x | None => None end else nth_error l j.
Proof.
  intros A. induction l as [|y l IH]; intros [|i] [|j] x; simpl; try reflexivity.
  - destruct (Nat.eqb i j); reflexivity.
  - apply IH.
Qed.

Lemma replace_same : forall {A} (l : list A) i x, nth_error l i = Some x -> replace_nth l i x = l.
Proof.
  intros A. induction l as [|y l IH]; intros [|i] x H; simpl in *; try discriminate.
  - injection H as <-. reflexivity.
  - f_equal. apply IH. exact H.
Qed.

Lemma sget_sdel : forall {V} (d : list (string * V)) k j, NoDup (dkeys d) ->
    sget (sdel d k) j = if String.eqb j k then None else sget d j.
Proof.
  intros V d k j. unfold sget, sdel, dkeys. induction d as [|[n v] d IH]; intros Hnd; simpl.
  - destruct (String.eqb j k); reflexivity.
  - inversion Hnd as [|a b Hn Hnd']; subst. destruct (String.eqb k n) eqn:E.
    + apply String.eqb_eq in E; subst n. destruct (String.eqb j k) eqn:Ej; [|reflexivity].
      apply String.eqb_eq in Ej; subst j.
      destruct (dget String.eqb d k) eqn:G; [|reflexivity]. exfalso. apply Hn.
      eapply dget_some_in_keys; [apply String.eqb_eq|exact G].
    + simpl. destruct (String.eqb j n) eqn:Ej.
      * apply String.eqb_eq in Ej; subst j. destruct (String.eqb n k) eqn:E2; [|reflexivity].
        apply String.eqb_eq in E2; subst n. rewrite String.eqb_refl in E. discriminate.
      * apply IH. exact Hnd'.
Qed.

Lemma NoDup_sdel : forall {V} (d : list (string * V)) k, NoDup (dkeys d) -> NoDup (dkeys (sdel d k)).
Proof.
  intros V d k. unfold dkeys, sdel. induction d as [|[n v] d IH]; intros Hnd; simpl; [constructor|].
  inversion Hnd as [|a b Hn Hnd']; subst. destruct (String.eqb k n); [exact Hnd'|].
  simpl. constructor; [|apply IH; exact Hnd'].
  intros Hin. apply Hn. clear -Hin. induction d as [|[m w] d IH]; simpl in *; [exact Hin|].
  destruct (String.eqb k m); [right; exact Hin|]. destruct Hin as [Hin|Hin]; [left; exact Hin|right; apply IH; exact Hin].
Qed.

Lemma NoDup_sset : forall {V} (d : list (string * V)) k v, NoDup (dkeys d) -> NoDup (dkeys (sset d k v)).
Proof. intros V d k v H. unfold sset. apply NoDup_dkeys_dset; [apply String.eqb_eq|exact H]. Qed.

(** ** the check *)
Lemma pylt_at_least : forall x l, pylt x l = Ok false -> at_least l x \/ x = VNan \/ l = VNan.
Proof.
  intros x l H. unfold pylt in H.
  destruct x, l; simpl in H; try discriminate; try (right; left; reflexivity); try (right; right; reflexivity);
    left; try (left; do 2 eexists; split; [reflexivity|]; split; [reflexivity|];
          injection H as H; apply negb_false_iff in H; apply Qle_bool_iff in H; exact H).
  right. do 2 eexists. split; [reflexivity|]. split; [reflexivity|].
  destruct (String.compare s s0); congruence.
Qed.

Lemma vtype_eqb_eq : forall a b, vtype_eqb a b = true -> a = b.
Proof. intros [] []; simpl; congruence. Qed.

Lemma check_satisfies : forall lk v o, check lk v o = Ok tt ->
    (lk = false \/ o_lock o = false) /\
    satisfies_or_nan (mkDecl (o_val o) (o_lower o) (o_upper o) (o_values o)) v.
Proof.
  intros lk v o H. unfold check in H. split.
  - destruct lk, (o_lock o); simpl in H; try discriminate; tauto.
  - destruct (lk && o_lock o); [discriminate|]. unfold satisfies_or_nan; simpl.
    destruct (o_values o) as [vs|].
    + destruct (existsb (pyeq v) vs) eqn:E; [|discriminate].
      apply existsb_exists in E. exact E.
    + destruct (vtype_eqb (type_of v) (type_of (o_val o))) eqn:E; simpl in H; [|discriminate].
      apply vtype_eqb_eq in E. split; [exact E|].
      destruct (o_lower o) as [l|].
      * destruct (pylt v l) as [[|]|] eqn:El; cbn [bind] in H; try discriminate.
        split.
        { intros l' Hl. injection Hl as <-. apply pylt_at_least. exact El. }
        destruct (o_upper o) as [u|]; [|intros u Hu; discriminate].
        destruct (pylt u v) as [[|]|] eqn:Eu; cbn [bind] in H; try discriminate.
        intros u' Hu. injection Hu as <-.
        destruct (pylt_at_least _ _ Eu) as [K|[K|K]]; [left; exact K|right; right; exact K|right; left; exact K].
      * cbn [bind] in H. split; [intros l Hl; discriminate|].
        destruct (o_upper o) as [u|]; [|intros u Hu; discriminate].
        destruct (pylt u v) as [[|]|] eqn:Eu; cbn [bind] in H; try discriminate.
        intros u' Hu. injection Hu as <-.
        destruct (pylt_at_least _ _ Eu) as [K|[K|K]]; [left; exact K|right; right; exact K|right; left; exact K].
Qed.

(** a completeness direction: a value that satisfies the declaration is accepted *)
Lemma at_least_pylt : forall x l, at_least l x -> pylt x l = Ok false.
Proof.
  intros x l [(p & q & Hp & Hq & H)|(s & t & -> & -> & H)].
  - unfold pylt. destruct x; simpl in Hq; try discriminate; destruct l; simpl in Hp; try discriminate; simpl in *;
      injection Hp as <-; injection Hq as <-;
      apply Qle_bool_iff in H; rewrite H; reflexivity.
  - simpl. destruct (String.compare t s); congruence.
Qed.

Lemma satisfies_check : forall lk v o,
    (lk = false \/ o_lock o = false) ->
    satisfies (mkDecl (o_val o) (o_lower o) (o_upper o) (o_values o)) v -> check lk v o = Ok tt.
Proof.
  intros lk v o Hl H. unfold check, satisfies in *; simpl in *.
  assert (E : lk && o_lock o = false) by (destruct Hl as [-> | ->]; [reflexivity|apply andb_false_r]).
  rewrite E. destruct (o_values o) as [vs|].
  - assert (Ex : existsb (pyeq v) vs = true) by (apply existsb_exists; exact H). rewrite Ex. reflexivity.
  - destruct H as (Ht & Hlo & Hup).
    assert (Et : vtype_eqb (type_of v) (type_of (o_val o)) = true) by (rewrite Ht; destruct (type_of (o_val o)); reflexivity).
    rewrite Et. simpl.
    destruct (o_lower o) as [l|].
    + rewrite (at_least_pylt v l) by (apply Hlo; reflexivity). cbn [bind].
      destruct (o_upper o) as [u|]; [|reflexivity].
      rewrite (at_least_pylt u v) by (apply Hup; reflexivity). reflexivity.
    + cbn [bind]. destruct (o_upper o) as [u|]; [|reflexivity].
      rewrite (at_least_pylt u v) by (apply Hup; reflexivity). reflexivity.
Qed.

(** ** one operation *)
Definition is_step_name (n : string) : Prop := n = "step_size"%string \/ n = "check_step_size"%string.

(** dictionary [d'] comes from [d] by changing values of some options, each to
    a value that passed the check, or to a standard step size in a derivative
    dictionary *)
Definition revalued (lk : bool) (d d' : dict) : Prop :=
  d_kind d' = d_kind d /\ d_deprecations d' = d_deprecations d /\ d_locked d' = d_locked d /\
  dkeys (d_options d') = dkeys (d_options d) /\
  forall n o', sget (d_options d') n = Some o' ->
    exists o, sget (d_options d) n = Some o /\
      o_lower o' = o_lower o /\ o_upper o' = o_upper o /\ o_values o' = o_values o /\ o_lock o' = o_lock o /\
      (o_val o' = o_val o \/ check lk (o_val o') o = Ok tt \/
       (d_kind d = Deriv /\ is_step_name n /\ (o_val o' = step_fd \/ o_val o' = step_cs))).

Lemma dkeys_sset_old : forall {V} (d : list (string * V)) k v w, sget d k = Some w -> dkeys (sset d k v) = dkeys d.
Proof.
  intros V d k v w. unfold sget, sset, dkeys. induction d as [|[n x] d IH]; simpl; [discriminate|].
  destruct (String.eqb k n) eqn:E; simpl; [reflexivity|]. intros H. f_equal. apply IH. exact H.
Qed.

Lemma base_setitem_revalued : forall lk d name v d' r,
    base_setitem lk d name v = (d', r) -> revalued lk d d' /\ (r <> Ok tt -> d' = d).
Proof.
  assert (Refl : forall lk d, revalued lk d d).
  { intros lk d. unfold revalued. repeat split; try reflexivity. intros n o' Ho. exists o'.
    repeat split; try assumption; try reflexivity. left; reflexivity. }
  intros lk d name v d' r H. unfold base_setitem in H.
  destruct (if smem (d_options d) name then Some name else sget (d_deprecations d) name) as [n|].
  2: { injection H as <- <-. split; [apply Refl|reflexivity]. }
  destruct (sget (d_options d) n) as [o|] eqn:Eo.
  2: { injection H as <- <-. split; [apply Refl|reflexivity]. }
  destruct (check lk v o) as [[]|] eqn:Ec.
  2: { injection H as <- <-. split; [apply Refl|reflexivity]. }
  injection H as <- <-. split; [|congruence].
  unfold revalued; simpl. repeat split; try reflexivity.
  - eapply dkeys_sset_old. exact Eo.
  - intros n' o' Ho'. rewrite sget_sset in Ho'. destruct (String.eqb n' n) eqn:En.
    + apply String.eqb_eq in En; subst n'. injection Ho' as <-. exists o. simpl.
      repeat split; try assumption; try reflexivity. right; left. exact Ec.
    + exists o'. repeat split; try assumption; try reflexivity. left; reflexivity.
Qed.

Lemma revalued_trans_follow : forall lk d d1 d2,
    revalued lk d d1 -> (d_kind d1 = Plain -> d2 = d1) ->
    (forall n o', sget (d_options d2) n = Some o' ->
       exists o, sget (d_options d1) n = Some o /\
        o_lower o' = o_lower o /\ o_upper o' = o_upper o /\ o_values o' = o_values o /\ o_lock o' = o_lock o /\
        (o_val o' = o_val o \/ (d_kind d1 = Deriv /\ is_step_name n /\ (o_val o' = step_fd \/ o_val o' = step_cs)))) ->
    d_kind d2 = d_kind d1 -> d_deprecations d2 = d_deprecations d1 -> d_locked d2 = d_locked d1 ->
    dkeys (d_options d2) = dkeys (d_options d1) ->
    revalued lk d d2.
Proof.
  intros lk d d1 d2 (R1 & R2 & R3 & R4 & R5) _ H K1 K2 K3 K4.
  unfold revalued. repeat split; try congruence.
  intros n o' Ho'. destruct (H n o' Ho') as (o1 & E1 & F1 & F2 & F3 & F4 & F5).
  destruct (R5 n o1 E1) as (o & E & G1 & G2 & G3 & G4 & G5).
  exists o. repeat split; try congruence.
  destruct F5 as [F5|F5].
  - rewrite F5. exact G5.
  - right; right. rewrite <- R1. exact F5.
Qed.

Lemma follow_shape : forall d n v d' r,
    is_step_name n -> d_kind d = Deriv -> follow d n v = (d', r) ->
    d_kind d' = d_kind d /\ d_deprecations d' = d_deprecations d /\ d_locked d' = d_locked d /\
    dkeys (d_options d') = dkeys (d_options d) /\
    (forall m o', sget (d_options d') m = Some o' ->
       exists o, sget (d_options d) m = Some o /\
        o_lower o' = o_lower o /\ o_upper o' = o_upper o /\ o_values o' = o_values o /\ o_lock o' = o_lock o /\
        (o_val o' = o_val o \/ (d_kind d = Deriv /\ is_step_name m /\ (o_val o' = step_fd \/ o_val o' = step_cs)))) /\
    (r <> Ok tt -> sget (d_options d) n = None).
Proof.
  intros d n v d' r Hn Hk H.
  assert (Hp : forall d1 w, (w = step_fd \/ w = step_cs) ->
     d_kind d1 = d_kind d -> d_deprecations d1 = d_deprecations d -> d_locked d1 = d_locked d ->
     dkeys (d_options d1) = dkeys (d_options d) ->
     (forall m o', sget (d_options d1) m = Some o' ->
       exists o, sget (d_options d) m = Some o /\
        o_lower o' = o_lower o /\ o_upper o' = o_upper o /\ o_values o' = o_values o /\ o_lock o' = o_lock o /\
        (o_val o' = o_val o \/ (d_kind d = Deriv /\ is_step_name m /\ (o_val o' = step_fd \/ o_val o' = step_cs)))) ->
     let d2 := poke d1 n w in
     d_kind d2 = d_kind d /\ d_deprecations d2 = d_deprecations d /\ d_locked d2 = d_locked d /\
     dkeys (d_options d2) = dkeys (d_options d) /\
     (forall m o', sget (d_options d2) m = Some o' ->
       exists o, sget (d_options d) m = Some o /\
        o_lower o' = o_lower o /\ o_upper o' = o_upper o /\ o_values o' = o_values o /\ o_lock o' = o_lock o /\
        (o_val o' = o_val o \/ (d_kind d = Deriv /\ is_step_name m /\ (o_val o' = step_fd \/ o_val o' = step_cs))))).
  { intros d1 w Hw K1 K2 K3 K4 K5. unfold poke. destruct (sget (d_options d1) n) as [o1|] eqn:E1; [|tauto].
    simpl. repeat split; try assumption.
    - rewrite (dkeys_sset_old _ _ _ _ E1). exact K4.
    - intros m o' Ho'. rewrite sget_sset in Ho'. destruct (String.eqb m n) eqn:Em.
      + apply String.eqb_eq in Em; subst m. injection Ho' as <-. simpl.
        destruct (K5 n o1 E1) as (o0 & S0 & S1 & S2 & S3 & S4 & _).
        exists o0. repeat split; try assumption. right. repeat split; assumption.
      + apply K5. exact Ho'. }
  assert (Refl : forall m o', sget (d_options d) m = Some o' ->
       exists o, sget (d_options d) m = Some o /\
        o_lower o' = o_lower o /\ o_upper o' = o_upper o /\ o_values o' = o_values o /\ o_lock o' = o_lock o /\
        (o_val o' = o_val o \/ (d_kind d = Deriv /\ is_step_name m /\ (o_val o' = step_fd \/ o_val o' = step_cs)))).
  { intros m o' Ho. exists o'. repeat split; try assumption; try reflexivity. left; reflexivity. }
  unfold follow in H. destruct (sget (d_options d) n) as [o|] eqn:Eo.
  2: { injection H as <- <-. repeat split; try reflexivity; assumption. }
  destruct (o_changed o).
  { injection H as <- <-. repeat split; try reflexivity; try assumption. congruence. }
  injection H as <- <-.
  assert (H1 : let d1 := if pyeq v (VStr "fd") then poke d n step_fd else d in
     d_kind d1 = d_kind d /\ d_deprecations d1 = d_deprecations d /\ d_locked d1 = d_locked d /\
     dkeys (d_options d1) = dkeys (d_options d) /\
     (forall m o', sget (d_options d1) m = Some o' ->
       exists o, sget (d_options d) m = Some o /\
        o_lower o' = o_lower o /\ o_upper o' = o_upper o /\ o_values o' = o_values o /\ o_lock o' = o_lock o /\
        (o_val o' = o_val o \/ (d_kind d = Deriv /\ is_step_name m /\ (o_val o' = step_fd \/ o_val o' = step_cs))))).
  { cbv zeta. destruct (pyeq v (VStr "fd")).
    - apply Hp; try reflexivity; [left; reflexivity|exact Refl].
    - repeat split; try reflexivity. exact Refl. }
  cbv zeta in H1. set (d1 := if pyeq v (VStr "fd") then poke d n step_fd else d) in *.
  destruct H1 as (A1 & A2 & A3 & A4 & A5).
  destruct (pyeq v (VStr "cs")).
  - destruct (Hp d1 step_cs (or_intror eq_refl) A1 A2 A3 A4 A5) as (B1 & B2 & B3 & B4 & B5).
    repeat split; try assumption. congruence.
  - repeat split; try assumption. congruence.
Qed.

Lemma setitem_revalued : forall lk d name v d' r,
    setitem lk d name v = (d', r) ->
    revalued lk d d' /\
    (d_kind d = Plain \/ (smem (d_options d) "step_size" = true /\ smem (d_options d) "check_step_size" = true) ->
     r <> Ok tt -> d' = d).
Proof.
  intros lk d name v d' r H. unfold setitem in H.
  destruct (base_setitem lk d name v) as [d1 r1] eqn:Eb.
  destruct (base_setitem_revalued _ _ _ _ _ _ Eb) as [Hr Hsame].
  destruct r1 as [[]|e].
  2: { injection H as <- <-. split; [exact Hr|]. intros _ _. apply Hsame. discriminate. }
  assert (Hmem : forall n, smem (d_options d) n = true -> sget (d_options d1) n = None -> False).
  { intros n Hm Hg. destruct Hr as (_ & _ & _ & Hk & _).
    unfold smem, dmem in Hm. destruct (dget String.eqb (d_options d) n) eqn:G; [|discriminate].
    assert (Hin : In n (dkeys (d_options d1))).
    { rewrite Hk. eapply dget_some_in_keys; [apply String.eqb_eq|exact G]. }
    unfold sget in Hg. apply dget_none in Hg; [contradiction|apply String.eqb_eq]. }
  pose proof Hr as (R1 & _).
  destruct (d_kind d1) eqn:Ek.
  { injection H as <- <-. split; [exact Hr|]. intros _ K. congruence. }
  assert (Hfol : forall n, is_step_name n -> follow d1 n v = (d', r) ->
            revalued lk d d' /\ (r <> Ok tt -> sget (d_options d1) n = None)).
  { intros n Hn Hf. destruct (follow_shape _ _ _ _ _ Hn Ek Hf) as (F1 & F2 & F3 & F4 & F5 & F6).
    split; [|exact F6]. eapply revalued_trans_follow; [exact Hr|congruence|exact F5|assumption..]. }
  destruct (String.eqb name "type").
  - destruct (Hfol "step_size"%string (or_introl eq_refl) H) as [G1 G2]. split; [exact G1|].
    intros [K|[K _]] Hne; [congruence|]. exfalso. eapply Hmem; [exact K|apply G2; exact Hne].
  - destruct (String.eqb name "check_type").
    + destruct (Hfol "check_step_size"%string (or_intror eq_refl) H) as [G1 G2]. split; [exact G1|].
      intros [K|[_ K]] Hne; [congruence|]. exfalso. eapply Hmem; [exact K|apply G2; exact Hne].
    + injection H as <- <-. split; [exact Hr|]. congruence.
Qed.

(** ** what one operation does to dictionary [i] *)
Inductive effect (w : world) (o : op) (i : nat) (d' : dict) : Prop :=
| EFresh : d_options d' = [] -> nth_error (w_dicts w) i = None -> effect w o i d'
| EVals (d : dict) : nth_error (w_dicts w) i = Some d -> d_kind d' = d_kind d ->
    (forall n, o <> ORemove i n) -> dkeys (d_options d') = dkeys (d_options d) ->
    (forall n o', sget (d_options d') n = Some o' ->
      exists o, sget (d_options d) n = Some o /\
        o_lower o' = o_lower o /\ o_upper o' = o_upper o /\ o_values o' = o_values o /\ o_lock o' = o_lock o /\
        (o_val o' = o_val o \/ check (locked w d) (o_val o') o = Ok tt \/
         (d_kind d = Deriv /\ is_step_name n /\ (o_val o' = step_fd \/ o_val o' = step_cs)))) ->
    effect w o i d'
| EAdded (d : dict) n v lo up vs lk : nth_error (w_dicts w) i = Some d -> d_kind d' = d_kind d ->
    o = OAdd i n v lo up vs lk -> snd (step w o) = Ok tt -> sget (d_options d) n = None ->
    check (locked w d) v (mkOpt v lo up vs lk false) = Ok tt ->
    d_options d' = sset (d_options d) n (mkOpt v lo up vs lk false) -> effect w o i d'
| ERemoved (d : dict) n : nth_error (w_dicts w) i = Some d -> d_kind d' = d_kind d ->
    o = ORemove i n -> d_options d' = sdel (d_options d) n -> effect w o i d'.

Lemma effect_same : forall w o i d, nth_error (w_dicts w) i = Some d -> (forall n, o <> ORemove i n) ->
    effect w o i d.
Proof.
  intros w o i d H Hno. eapply EVals; try eassumption; try reflexivity.
  intros n o' Ho'. exists o'. repeat split; try assumption. left; reflexivity.
Qed.

Lemma on_nth : forall w i f j d', nth_error (w_dicts (fst (on w i f))) j = Some d' ->
    (exists d, j = i /\ nth_error (w_dicts w) i = Some d /\ d' = fst (f d) /\ snd (on w i f) = snd (f d)) \/
    (nth_error (w_dicts w) j = Some d' /\ j <> i).
Proof.
  intros w i f j d' H. unfold on in *. destruct (nth_error (w_dicts w) i) as [d|] eqn:E.
  2: { right. simpl in H. split; [exact H|]. congruence. }
  destruct (f d) as [d2 r] eqn:Ef. simpl in *. rewrite nth_replace in H.
  destruct (Nat.eqb i j) eqn:Eij.
  - apply Nat.eqb_eq in Eij; subst j. rewrite E in H. injection H as <-. left. exists d.
    rewrite Ef. repeat split.
  - right. apply Nat.eqb_neq in Eij. split; [exact H|]. congruence.
Qed.

Lemma step_effect : forall w o i d',
    nth_error (w_dicts (fst (step w o))) i = Some d' -> effect w o i d'.
Proof.
  intros w o i d' H. destruct o as [k|j name v lo up vs lk|j name v|j name|j a b| |j b]; simpl in H.
  - destruct (le_lt_dec (length (w_dicts w)) i) as [Hl|Hl].
    + apply EFresh; [|apply nth_error_None; exact Hl].
      rewrite nth_error_app2 in H by exact Hl.
      destruct (i - length (w_dicts w))%nat as [|m]; simpl in H; [injection H as <-; reflexivity|].
      destruct m; discriminate.
    + rewrite nth_error_app1 in H by exact Hl. apply effect_same; [exact H|congruence].
  - destruct (on_nth _ _ _ _ _ H) as [(d & -> & Ed & -> & Er)|[Hs Hne]]; [|apply effect_same; [exact Hs|congruence]].
    cbv beta in Er. unfold add_option in *.
    destruct (smem (d_options d) name) eqn:Em; [apply effect_same; [exact Ed|congruence]|].
    destruct (check (locked w d) v (mkOpt v lo up vs lk false)) as [[]|e] eqn:Ec; [|apply effect_same; [exact Ed|congruence]].
    eapply EAdded; try eassumption; try reflexivity.
    unfold smem, dmem in Em. unfold sget. destruct (dget String.eqb (d_options d) name); [discriminate|reflexivity].
  - destruct (on_nth _ _ _ _ _ H) as [(d & -> & Ed & -> & Er)|[Hs Hne]]; [|apply effect_same; [exact Hs|congruence]].
    destruct (setitem (locked w d) d name v) as [d2 r] eqn:Es. simpl.
    destruct (setitem_revalued _ _ _ _ _ _ Es) as [(R1 & R2 & R3 & R4 & R5) _].
    eapply EVals; try eassumption. congruence.
  - destruct (on_nth _ _ _ _ _ H) as [(d & -> & Ed & -> & Er)|[Hs Hne]]; [|apply effect_same; [exact Hs|congruence]].
    eapply ERemoved; try eassumption; reflexivity.
  - destruct (on_nth _ _ _ _ _ H) as [(d & -> & Ed & -> & Er)|[Hs Hne]]; [|apply effect_same; [exact Hs|congruence]].
    unfold add_deprecation. destruct (smem (d_options d) b); simpl; [|apply effect_same; [exact Ed|congruence]].
    eapply EVals; try eassumption; try reflexivity; try congruence.
    intros n o' Ho'. exists o'. repeat split; try assumption. left; reflexivity.
  - apply effect_same; [exact H|congruence].
  - destruct (on_nth _ _ _ _ _ H) as [(d & -> & Ed & -> & Er)|[Hs Hne]]; [|apply effect_same; [exact Hs|congruence]].
    eapply EVals; try eassumption; try reflexivity; try congruence.
    intros n o' Ho'. exists o'. repeat split; try assumption. left; reflexivity.
Qed.

Lemma run_snoc : forall ops o w, run w (ops ++ [o]) = fst (step (run w ops) o).
Proof. intros ops o w. unfold run. rewrite fold_left_app. reflexivity. Qed.

(** where an option comes from *)
Definition comes_from (ops : list op) (i : nat) (n : string) (x : opt) : Prop :=
  exists pre post v lo up vs lk d,
    ops = pre ++ OAdd i n v lo up vs lk :: post /\
    snd (step (run start pre) (OAdd i n v lo up vs lk)) = Ok tt /\
    nth_error (w_dicts (run start pre)) i = Some d /\
    (forall q, In q post -> q <> ORemove i n) /\
    o_lower x = lo /\ o_upper x = up /\ o_values x = vs /\ o_lock x = lk /\
    satisfies_or_nan (mkDecl v lo up vs) (o_val x).

Lemma satisfies_retype : forall v v' lo up vs x,
    (vs = None -> type_of v' = type_of v) ->
    satisfies_or_nan (mkDecl v' lo up vs) x -> satisfies_or_nan (mkDecl v lo up vs) x.
Proof.
  intros v v' lo up vs x Ht H. unfold satisfies_or_nan in *; simpl in *.
  destruct vs; [exact H|]. destruct H as (H1 & H2). rewrite H1. split; [apply Ht; reflexivity|exact H2].
Qed.

Lemma kind_stable : forall ops w i d, nth_error (w_dicts w) i = Some d ->
    exists d', nth_error (w_dicts (run w ops)) i = Some d' /\ d_kind d' = d_kind d.
Proof.
  assert (Hon : forall w i f j d, (forall d, d_kind (fst (f d)) = d_kind d) ->
     nth_error (w_dicts w) j = Some d ->
     exists d', nth_error (w_dicts (fst (on w i f))) j = Some d' /\ d_kind d' = d_kind d).
  { intros w i f j d Hf H. unfold on. destruct (nth_error (w_dicts w) i) as [e|] eqn:E.
    - specialize (Hf e). destruct (f e) as [e' r]. simpl in *. rewrite nth_replace.
      destruct (Nat.eqb i j) eqn:Eij; [|exists d; split; [exact H|reflexivity]].
      apply Nat.eqb_eq in Eij; subst j. rewrite H. exists e'. split; [reflexivity|]. congruence.
    - exists d. split; [exact H|reflexivity]. }
  induction ops as [|o ops IH]; intros w i d H; simpl.
  - exists d. split; [exact H|reflexivity].
  - assert (Hs : exists d', nth_error (w_dicts (fst (step w o))) i = Some d' /\ d_kind d' = d_kind d).
    { destruct o as [k|j name v lo up vs lk|j name v|j name|j a b| |j b]; simpl.
      - exists d. split; [|reflexivity]. rewrite nth_error_app1; [exact H|]. apply nth_error_Some. congruence.
      - apply Hon; [|exact H]. intros e. unfold add_option. destruct (smem (d_options e) name); [reflexivity|].
        destruct (check _ _ _); reflexivity.
      - apply Hon; [|exact H]. intros e. destruct (setitem (locked w e) e name v) as [e' r] eqn:Es.
        destruct (setitem_revalued _ _ _ _ _ _ Es) as [(R1 & _) _]. exact R1.
      - apply Hon; [|exact H]. reflexivity.
      - apply Hon; [|exact H]. intros e. unfold add_deprecation. destruct (smem (d_options e) b); reflexivity.
      - exists d. split; [exact H|reflexivity].
      - apply Hon; [|exact H]. reflexivity. }
    destruct Hs as (d1 & E1 & K1). destruct (IH _ i d1 E1) as (d2 & E2 & K2).
    exists d2. split; [exact E2|congruence].
Qed.

Lemma options_satisfy : forall ops, standard ops ->
    forall i d, nth_error (w_dicts (run start ops)) i = Some d ->
    NoDup (dkeys (d_options d)) /\
    forall n x, sget (d_options d) n = Some x -> comes_from ops i n x.
Proof.
  intros ops. induction ops as [|o ops IH] using rev_ind; intros Hstd i d' Hd'.
  - simpl in Hd'. destruct i; discriminate.
  - assert (Hstd' : standard ops).
    { intros pre post j n v lo up vs lk e E. apply (Hstd pre (post ++ [o]) j n v lo up vs lk e).
      rewrite E, <- app_assoc. reflexivity. }
    specialize (IH Hstd').
    rewrite run_snoc in Hd'.
    assert (Hext : forall n x x', comes_from ops i n x -> o <> ORemove i n ->
              o_lower x' = o_lower x -> o_upper x' = o_upper x -> o_values x' = o_values x -> o_lock x' = o_lock x ->
              (forall v lo up vs, o_lower x = lo -> o_upper x = up -> o_values x = vs ->
                 (vs = None -> type_of (o_val x) = type_of v) ->
                 satisfies_or_nan (mkDecl v lo up vs) (o_val x) ->
                 (forall pre post lk e, ops = pre ++ OAdd i n v lo up vs lk :: post ->
                   nth_error (w_dicts (run start pre)) i = Some e -> 
                   satisfies_or_nan (mkDecl v lo up vs) (o_val x'))) ->
              comes_from (ops ++ [o]) i n x').
    { intros n x x' (pre & post & v & lo & up & vs & lk & e & E & S & D & R & F1 & F2 & F3 & F4 & F5) Ho G1 G2 G3 G4 G5.
      exists pre, (post ++ [o]), v, lo, up, vs, lk, e.
      split; [rewrite E, <- app_assoc; reflexivity|]. split; [exact S|]. split; [exact D|].
      split.
      { intros q Hq. apply in_app_or in Hq as [Hq|[<-|[]]]; [apply R; exact Hq|exact Ho]. }
      repeat (split; [congruence|]).
      eapply (G5 v lo up vs); try eassumption.
      intros Hv. unfold satisfies_or_nan in F5. simpl in F5. rewrite Hv in F5. apply F5. }
    destruct (step_effect _ _ _ _ Hd') as [E0 _|d E1 K1 Hno Hk Hv|d n v lo up vs lk E1 K1 -> Hok Hn Hc E2|d n E1 K1 -> E2].
    + rewrite E0. split; [constructor|]. intros n x Hx. discriminate Hx.
    + destruct (IH i d E1) as [N1 C1]. split; [rewrite Hk; exact N1|].
      intros n x' Hx'. destruct (Hv n x' Hx') as (x & Hx & F1 & F2 & F3 & F4 & F5).
      apply (Hext n x x'); try assumption; [apply C1; exact Hx|apply Hno|].
      intros v lo up vs G1 G2 G3 G4 G5 pre post lk e E D.
      destruct F5 as [F5|[F5|(F5 & F6 & F7)]].
      * rewrite F5; exact G5.
      * apply check_satisfies in F5 as [_ F5]. rewrite G1, G2, G3 in F5.
        eapply satisfies_retype; [exact G4|exact F5].
      * destruct (kind_stable (OAdd i n v lo up vs lk :: post) _ i e D) as (e2 & D2 & K2).
        unfold run in D2. rewrite <- fold_left_app, <- E in D2. fold (run start ops) in D2.
        rewrite E1 in D2. injection D2 as <-.
        destruct (Hstd' pre post i n v lo up vs lk e E D ltac:(congruence) F6) as (-> & -> & -> & ->).
        unfold satisfies_or_nan; simpl. split; [destruct F7 as [->| ->]; reflexivity|].
        split; [|intros u Hu; discriminate]. intros l Hl. injection Hl as <-. left. left.
        destruct F7 as [->| ->]; (do 2 eexists; split; [reflexivity|]; split; [reflexivity|]; discriminate).
    + destruct (IH i d E1) as [N1 C1]. rewrite E2. split; [apply NoDup_sset; exact N1|].
      intros m x Hx. rewrite sget_sset in Hx. destruct (String.eqb m n) eqn:Em.
      * apply String.eqb_eq in Em; subst m. injection Hx as <-.
        exists ops, [], v, lo, up, vs, lk, d. repeat split; try assumption; try reflexivity; try (intros q []).
        simpl. apply check_satisfies in Hc as [_ Hc]. exact Hc.
      * apply (Hext m x x); try reflexivity; [apply C1; exact Hx|discriminate|].
        intros v0 lo0 up0 vs0 _ _ _ _ G5 pre post lk0 e _ _. exact G5.
    + destruct (IH i d E1) as [N1 C1]. rewrite E2. split; [apply NoDup_sdel; exact N1|].
      intros m x Hx. rewrite sget_sdel in Hx by exact N1. destruct (String.eqb m n) eqn:Em; [discriminate|].
      apply (Hext m x x); try reflexivity; [apply C1; exact Hx| |].
      * intros Heq. injection Heq as ->. rewrite String.eqb_refl in Em. discriminate.
      * intros v0 lo0 up0 vs0 _ _ _ _ G5 pre post lk0 e _ _. exact G5.
Qed.

(** ** a rejected operation changes nothing *)
Lemma on_reject : forall w i f e, snd (on w i f) = Err e ->
    (forall d, nth_error (w_dicts w) i = Some d -> snd (f d) = Err e -> fst (f d) = d) -> fst (on w i f) = w.
Proof.
  intros w i f e H Hf. unfold on in *. destruct (nth_error (w_dicts w) i) as [d|] eqn:E; [|reflexivity].
  specialize (Hf d eq_refl). destruct (f d) as [d' r]. simpl in *. rewrite (Hf H).
  rewrite replace_same by exact E. destruct w; reflexivity.
Qed.

Lemma rejected_unchanged : forall w o e,
    (forall d, In d (w_dicts w) -> d_kind d = Deriv ->
       smem (d_options d) "step_size" = true /\ smem (d_options d) "check_step_size" = true) ->
    snd (step w o) = Err e -> fst (step w o) = w.
Proof.
  intros w o e Hd H. destruct o as [k|j name v lo up vs lk|j name v|j name|j a b| |j b]; simpl in *; try discriminate.
  - eapply on_reject; [exact H|]. intros d _ Hr. unfold add_option in *.
    destruct (smem (d_options d) name); [reflexivity|]. destruct (check _ _ _); [discriminate|reflexivity].
  - eapply on_reject; [exact H|]. intros d Ed Hr.
    destruct (setitem (locked w d) d name v) as [d' r] eqn:Es.
    destruct (setitem_revalued _ _ _ _ _ _ Es) as [_ Hs]. simpl in *. apply Hs; [|congruence].
    destruct (d_kind d) eqn:Ek; [left; reflexivity|right]. apply Hd; [|exact Ek]. eapply nth_error_In; exact Ed.
  - eapply on_reject; [exact H|]. intros d _ Hr. discriminate.
  - eapply on_reject; [exact H|]. intros d _ Hr. unfold add_deprecation in *.
    destruct (smem (d_options d) b); [discriminate|reflexivity].
  - eapply on_reject; [exact H|]. intros d _ Hr. discriminate.
Qed.

(** an assignment through an option's own name succeeds exactly when it should *)
Lemma set_accepts : forall w i d n o v,
    nth_error (w_dicts w) i = Some d -> d_kind d = Plain -> sget (d_options d) n = Some o ->
    (locked w d = false \/ o_lock o = false) ->
    satisfies (mkDecl (o_val o) (o_lower o) (o_upper o) (o_values o)) v ->
    snd (step w (OSet i n v)) = Ok tt /\
    exists d' o', nth_error (w_dicts (fst (step w (OSet i n v)))) i = Some d' /\
      sget (d_options d') n = Some o' /\ o_val o' = v /\
      (forall m, m <> n -> sget (d_options d') m = sget (d_options d) m) /\
      (forall j, j <> i -> nth_error (w_dicts (fst (step w (OSet i n v)))) j = nth_error (w_dicts w) j).
Proof.
  intros w i d n o v Hd Hk Ho Hl Hs. simpl. unfold on. rewrite Hd. unfold setitem, base_setitem.
  assert (Hm : smem (d_options d) n = true) by (unfold smem, dmem; unfold sget in Ho; rewrite Ho; reflexivity).
  rewrite Hm, Ho, (satisfies_check _ _ _ Hl Hs). simpl. rewrite Hk. simpl. split; [reflexivity|].
  eexists. eexists. split; [rewrite nth_replace, Nat.eqb_refl, Hd; reflexivity|]. simpl.
  rewrite sget_sset, String.eqb_refl. split; [reflexivity|]. simpl. split; [reflexivity|]. split.
  - intros m Hm'. rewrite sget_sset. destruct (String.eqb m n) eqn:E; [|reflexivity].
    apply String.eqb_eq in E. contradiction.
  - intros j Hj. rewrite nth_replace. rewrite (proj2 (Nat.eqb_neq i j)) by congruence. reflexivity.
Qed.

(** ** locked options *)
Lemma sget_sdel_other : forall {V} (d : list (string * V)) k j, j <> k -> sget (sdel d k) j = sget d j.
Proof.
  intros V d k j Hj. unfold sget, sdel. induction d as [|[n v] d IH]; simpl; [reflexivity|].
  destruct (String.eqb k n) eqn:E.
  - apply String.eqb_eq in E; subst n. rewrite (proj2 (String.eqb_neq j k) Hj). reflexivity.
  - simpl. destruct (String.eqb j n); [reflexivity|exact IH].
Qed.

Definition is_locked_at (w : world) (i : nat) (n : string) (v : value) : Prop :=
  exists d o, nth_error (w_dicts w) i = Some d /\ locked w d = true /\
    (d_kind d = Plain \/ ~ is_step_name n) /\
    sget (d_options d) n = Some o /\ o_lock o = true /\ o_val o = v.

Lemma locked_step : forall w o i n v, is_locked_at w i n v -> keeps_lock i n o ->
    is_locked_at (fst (step w o)) i n v.
Proof.
  intros w o i n v (d & x & Hd & Hl & Hk & Hx & Hlk & Hv) Hkeep.
  assert (Hother : forall j f, j <> i -> is_locked_at (fst (on w j f)) i n v).
  { intros j f Hj. unfold on. destruct (nth_error (w_dicts w) j) as [e|] eqn:Ee.
    - destruct (f e) as [e' r]. simpl. exists d, x. simpl. rewrite nth_replace, (proj2 (Nat.eqb_neq j i) Hj).
      repeat split; assumption.
    - exists d, x. repeat split; assumption. }
  assert (Hsame : forall f, d_kind (fst (f d)) = d_kind d ->
     (d_locked (fst (f d)) = d_locked d \/ d_locked (fst (f d)) = Some true) ->
     (exists x', sget (d_options (fst (f d))) n = Some x' /\ o_lock x' = true /\ o_val x' = v) ->
     is_locked_at (fst (on w i f)) i n v).
  { intros f K1 K2 (x' & X1 & X2 & X3). unfold on. rewrite Hd. destruct (f d) as [d' r]. simpl in *.
    exists d', x'. simpl. rewrite nth_replace, Nat.eqb_refl, Hd. rewrite K1.
    repeat split; try assumption. unfold locked in *. simpl. destruct K2 as [-> | ->]; [exact Hl|reflexivity]. }
  destruct o as [k|j name u lo up vs lk|j name u|j name|j a b| |j b]; simpl in *.
  - contradiction.
  - destruct (Nat.eq_dec j i) as [->|Hj]; [|apply Hother; exact Hj]. apply Hsame.
    + unfold add_option. destruct (smem (d_options d) name); [reflexivity|]. destruct (check _ _ _); reflexivity.
    + left. unfold add_option. destruct (smem (d_options d) name); [reflexivity|]. destruct (check _ _ _); reflexivity.
    + unfold add_option. destruct (smem (d_options d) name) eqn:Em; [exists x; repeat split; assumption|].
      destruct (check _ _ _); [|exists x; repeat split; assumption].
      exists x. simpl. rewrite sget_sset. destruct (String.eqb n name) eqn:En; [|repeat split; assumption].
      apply String.eqb_eq in En; subst name. unfold smem, dmem in Em. unfold sget in Hx. rewrite Hx in Em. discriminate.
  - destruct (Nat.eq_dec j i) as [->|Hj]; [|apply Hother; exact Hj].
    destruct (setitem (locked w d) d name u) as [d' r] eqn:Es.
    destruct (setitem_revalued _ _ _ _ _ _ Es) as [(R1 & R2 & R3 & R4 & R5) _].
    apply Hsame; rewrite Es; simpl; [exact R1|left; exact R3|].
    destruct (sget (d_options d') n) as [x'|] eqn:Ex'.
    + destruct (R5 n x' Ex') as (x0 & X0 & F1 & F2 & F3 & F4 & F5). rewrite Hx in X0. injection X0 as <-.
      exists x'. split; [reflexivity|]. split; [congruence|].
      destruct F5 as [F5|[F5|(F5 & F6 & _)]].
      * congruence.
      * apply check_satisfies in F5 as [[F5|F5] _]; congruence.
      * destruct Hk as [Hk|Hk]; [congruence|contradiction].
    + exfalso. unfold sget in Ex'. apply dget_none in Ex'; [|apply String.eqb_eq].
      apply Ex'. rewrite R4. eapply dget_some_in_keys; [apply String.eqb_eq|exact Hx].
  - destruct (Nat.eq_dec j i) as [->|Hj]; [|apply Hother; exact Hj]. apply Hsame; simpl; [reflexivity|left; reflexivity|].
    exists x. rewrite sget_sdel_other; [repeat split; assumption|]. intros ->. apply Hkeep. split; reflexivity.
  - destruct (Nat.eq_dec j i) as [->|Hj]; [|apply Hother; exact Hj].
    apply Hsame; unfold add_deprecation; destruct (smem (d_options d) b); simpl; try reflexivity; try (left; reflexivity);
      exists x; repeat split; assumption.
  - exists d, x. simpl. repeat split; try assumption. unfold locked in *. simpl.
    destruct (d_locked d); [exact Hl|reflexivity].
  - destruct (Nat.eq_dec j i) as [->|Hj]; [|apply Hother; exact Hj].
    rewrite (Hkeep eq_refl). apply Hsame; simpl; [reflexivity|right; reflexivity|]. exists x. repeat split; assumption.
Qed.

Lemma locked_forever : forall ops w i n v, is_locked_at w i n v -> Forall (keeps_lock i n) ops ->
    is_locked_at (run w ops) i n v.
Proof.
  induction ops as [|o ops IH]; intros w i n v H Hf; [exact H|].
  inversion Hf; subst. simpl. apply IH; [|assumption]. apply locked_step; assumption.
Qed.

(** ** deprecated names *)
Lemma alias_getitem : forall d old new, sget (d_options d) old = None ->
    sget (d_deprecations d) old = Some new -> smem (d_options d) new = true ->
    getitem d old = getitem d new.
Proof.
  intros d old new H1 H2 H3. unfold getitem. rewrite H1, H2.
  unfold smem, dmem in H3. unfold sget. destruct (dget String.eqb (d_options d) new); [reflexivity|discriminate].
Qed.

Lemma alias_contains : forall d old new,
    sget (d_deprecations d) old = Some new -> smem (d_options d) new = true ->
    contains d old = true /\ contains d new = true.
Proof.
  intros d old new H2 H3. unfold contains. rewrite H3. split; [|reflexivity].
  unfold smem at 2, dmem. unfold sget in H2. rewrite H2. apply orb_true_r.
Qed.

Lemma alias_setitem : forall lk d old new v, d_kind d = Plain -> sget (d_options d) old = None ->
    sget (d_deprecations d) old = Some new -> smem (d_options d) new = true ->
    setitem lk d old v = setitem lk d new v.
Proof.
  intros lk d old new v Hk H1 H2 H3. unfold setitem.
  assert (Hb : base_setitem lk d old v = base_setitem lk d new v).
  { unfold base_setitem. unfold smem at 1, dmem. unfold sget in H1. rewrite H1. rewrite H2, H3. reflexivity. }
  rewrite Hb. destruct (base_setitem lk d new v) as [d1 r] eqn:E.
  destruct (base_setitem_revalued _ _ _ _ _ _ E) as [(R1 & _) _].
  destruct r; [|reflexivity]. rewrite R1, Hk. reflexivity.
Qed.

Lemma alias_get_fails : forall d old new default, sget (d_options d) old = None ->
    sget (d_deprecations d) old = Some new -> get d old default = Err KeyError.
Proof. intros d old new default H1 H2. unfold get. rewrite H1, H2. reflexivity. Qed.

(** ** the default step size follows the derivative type *)
Definition size_inv (size_name : string) (d : dict) (st : bool * value) : Prop :=
  exists o, sget (d_options d) size_name = Some o /\ o_val o = snd st /\ o_changed o = fst st /\
    o_lower o = Some (VFloat 0) /\ o_upper o = None /\ o_values o = None /\ o_lock o = false /\
    type_of (o_val o) = TFloat.

Definition type_inv (type_name : string) (l : list string) (d : dict) : Prop :=
  exists o, sget (d_options d) type_name = Some o /\ o_values o = enum l.

Definition deriv_inv (d : dict) (st cst : bool * value) : Prop :=
  d_kind d = Deriv /\
  d_deprecations d = [("force_fd"%string, "type"%string); ("step_type"%string, "step_calc"%string)] /\
  size_inv "step_size" d st /\ size_inv "check_step_size" d cst /\
  type_inv "type" ["user"; "fd"; "cs"]%string d /\ type_inv "check_type" ["fd"; "cs"]%string d.

Lemma base_setitem_target : forall lk d n v d',
    base_setitem lk d n v = (d', Ok tt) ->
    exists m o, (m = n /\ smem (d_options d) n = true \/ smem (d_options d) n = false /\ sget (d_deprecations d) n = Some m) /\
      sget (d_options d) m = Some o /\ check lk v o = Ok tt /\
      d' = mkDict (d_kind d) (sset (d_options d) m (mkOpt v (o_lower o) (o_upper o) (o_values o) (o_lock o) true))
                  (d_deprecations d) (d_locked d).
Proof.
  intros lk d n v d' H. unfold base_setitem in H.
  destruct (smem (d_options d) n) eqn:Em.
  - destruct (sget (d_options d) n) as [o|] eqn:Eo; [|discriminate].
    destruct (check lk v o) as [[]|] eqn:Ec; [|discriminate]. injection H as <-.
    exists n, o. repeat split; try assumption. left. split; [reflexivity|reflexivity].
  - destruct (sget (d_deprecations d) n) as [m|] eqn:Ed; [|discriminate].
    destruct (sget (d_options d) m) as [o|] eqn:Eo; [|discriminate].
    destruct (check lk v o) as [[]|] eqn:Ec; [|discriminate]. injection H as <-.
    exists m, o. repeat split; try assumption. right. split; [reflexivity|reflexivity].
Qed.

Lemma size_inv_other : forall s d o m st k dep l, m <> s ->
    size_inv s d st -> size_inv s (mkDict k (sset (d_options d) m o) dep l) st.
Proof.
  intros s d o m st k dep l Hm (x & Hx & Hr). exists x. simpl. rewrite sget_sset.
  rewrite (proj2 (String.eqb_neq s m)) by congruence. split; assumption.
Qed.

Lemma type_inv_set : forall s l d m o o' k dep lo,
    sget (d_options d) m = Some o -> o_values o' = o_values o ->
    type_inv s l d -> type_inv s l (mkDict k (sset (d_options d) m o') dep lo).
Proof.
  intros s l d m o o' k dep lo Hm Ho (x & Hx & Hv). unfold type_inv. simpl. rewrite sget_sset.
  destruct (String.eqb s m) eqn:E.
  - apply String.eqb_eq in E; subst m. exists o'. split; [reflexivity|]. congruence.
  - exists x. split; assumption.
Qed.

Lemma smem_sget : forall {V} (d : list (string * V)) n x, sget d n = Some x -> smem d n = true.
Proof. intros V d n x H. unfold smem, dmem. unfold sget in H. rewrite H. reflexivity. Qed.

Lemma step_check : forall v o,
    o_lower o = Some (VFloat 0) -> o_upper o = None -> o_values o = None -> o_lock o = false ->
    type_of (o_val o) = TFloat ->
    (check false v o = Ok tt /\ valid_step v = true /\ type_of v = TFloat) \/
    ((exists e, check false v o = Err e) /\ valid_step v = false).
Proof.
  intros v o H1 H2 H3 H4 H5. unfold check. rewrite H1, H2, H3, H4, H5. simpl.
  destruct v; simpl; try (right; split; [eexists; reflexivity|reflexivity]).
  - destruct (Qle_bool 0 q) eqn:E; simpl; [left|right].
    + repeat split.
    + split; [eexists; reflexivity|reflexivity].
  - left. repeat split.
Qed.

Lemma enum_check : forall lk v o l, o_values o = enum l -> check lk v o = Ok tt ->
    exists t, v = VStr t /\ In t l.
Proof.
  intros lk v o l Hv H. unfold check in H. rewrite Hv in H. unfold enum in H.
  destruct (lk && o_lock o); [discriminate|].
  destruct (existsb (pyeq v) (map VStr l)) eqn:E; [|discriminate].
  apply existsb_exists in E as (y & Hy & E). apply in_map_iff in Hy as (t & <- & Ht).
  destruct v; simpl in E; try discriminate. apply String.eqb_eq in E. subst. exists t. split; [reflexivity|exact Ht].
Qed.

Lemma enum_check_reject : forall v o l e, o_values o = enum l -> o_lock o = false \/ True ->
    check false v o = Err e -> forall t, v = VStr t -> ~ In t l.
Proof.
  intros v o l e Hv _ H t -> Hin. unfold check in H. simpl in H. rewrite Hv in H. unfold enum in H.
  assert (E : existsb (pyeq (VStr t)) (map VStr l) = true).
  { apply existsb_exists. exists (VStr t). split; [apply in_map; exact Hin|]. simpl. apply String.eqb_refl. }
  rewrite E in H. discriminate.
Qed.

Lemma follow_size : forall d s st v t d',
    size_inv s d st -> v = VStr t -> follow d s v = (d', Ok tt) ->
    size_inv s d' (if fst st then st
                   else if String.eqb t "fd" then (false, step_fd)
                   else if String.eqb t "cs" then (false, step_cs) else st) /\
    d_kind d' = d_kind d /\ d_deprecations d' = d_deprecations d /\
    (forall m, m <> s -> sget (d_options d') m = sget (d_options d) m).
Proof.
  intros d s st v t d' (o & Ho & H1 & H2 & H3 & H4 & H5 & H6 & H7) -> H. unfold follow in H.
  rewrite Ho, H2 in H. destruct st as [u cur]; simpl in *.
  destruct u.
  - injection H as <-. repeat split. exists o. repeat split; assumption.
  - unfold pyeq in H. simpl in H. injection H as <-.
    destruct (String.eqb t "fd") eqn:E1.
    + apply String.eqb_eq in E1; subst t. simpl. unfold poke. rewrite Ho.
      repeat split; [|intros m Hm; simpl; rewrite sget_sset, (proj2 (String.eqb_neq m s) Hm); reflexivity].
      eexists. simpl. rewrite sget_sset, String.eqb_refl. repeat split; assumption.
    + destruct (String.eqb t "cs") eqn:E2.
      * unfold poke. rewrite Ho.
        repeat split; [|intros m Hm; simpl; rewrite sget_sset, (proj2 (String.eqb_neq m s) Hm); reflexivity].
        eexists. simpl. rewrite sget_sset, String.eqb_refl. repeat split; assumption.
      * repeat split. exists o. repeat split; assumption.
Qed.

Lemma size_inv_ext : forall s d d' st, sget (d_options d') s = sget (d_options d) s -> size_inv s d st -> size_inv s d' st.
Proof. intros s d d' st E (o & Ho & H). exists o. rewrite E. split; assumption. Qed.
Lemma type_inv_ext : forall s l d d', sget (d_options d') s = sget (d_options d) s -> type_inv s l d -> type_inv s l d'.
Proof. intros s l d d' E (o & Ho & H). exists o. rewrite E. split; assumption. Qed.

Lemma deriv_step : forall d n v st cst, deriv_inv d st cst ->
    deriv_inv (fst (setitem false d n v))
              (expect_step "step_size" "type" st (n, v))
              (expect_step "check_step_size" "check_type" cst (n, v)).
Proof.
  intros d n v st cst HI. pose proof HI as (Hk & Hdep & Hs & Hc & Ht & Hct).
  unfold setitem. destruct (base_setitem false d n v) as [d1 r] eqn:Eb.
  destruct r as [[]|e].
  - (* accepted *)
    destruct (base_setitem_target _ _ _ _ _ Eb) as (m & o & Hm & Ho & Hchk & Hd1).
    assert (Hm' : m = n \/ (m = "type" /\ n = "force_fd")%string \/ (m = "step_calc" /\ n = "step_type")%string).
    { destruct Hm as [[-> _]|[_ Hm]]; [left; reflexivity|right]. rewrite Hdep in Hm. unfold sget in Hm. simpl in Hm.
      destruct (String.eqb n "force_fd") eqn:E1; [injection Hm as <-; left; split; [reflexivity|apply String.eqb_eq; exact E1]|].
      destruct (String.eqb n "step_type") eqn:E2; [injection Hm as <-; right; split; [reflexivity|apply String.eqb_eq; exact E2]|discriminate]. }
    assert (Hnot : forall s, s <> "type"%string -> s <> "step_calc"%string -> n <> s -> m <> s).
    { intros s S1 S2 S3. destruct Hm' as [->|[[-> _]|[-> _]]]; congruence. }
    assert (HK1 : d_kind d1 = Deriv) by (rewrite Hd1; exact Hk).
    assert (HD1 : d_deprecations d1 = d_deprecations d) by (rewrite Hd1; reflexivity).
    assert (HT1 : type_inv "type" ["user"; "fd"; "cs"]%string d1) by (rewrite Hd1; eapply type_inv_set; [exact Ho|reflexivity|exact Ht]).
    assert (HC1 : type_inv "check_type" ["fd"; "cs"]%string d1) by (rewrite Hd1; eapply type_inv_set; [exact Ho|reflexivity|exact Hct]).
    assert (Hsz : forall s s2, n = s -> s <> "force_fd"%string -> s <> "step_type"%string -> size_inv s d s2 ->
               size_inv s d1 (if valid_step v then (true, v) else s2)).
    { intros s s2 -> N1 N2 (x & Hx & X1 & X2 & X3 & X4 & X5 & X6 & X7).
      assert (m = s) by (destruct Hm' as [->|[[_ ->]|[_ ->]]]; [reflexivity|contradiction|contradiction]). subst m.
      rewrite Ho in Hx. injection Hx as <-.
      destruct (step_check v o X3 X4 X5 X6 X7) as [(_ & Y & Z)|[[e Y] _]]; [|congruence].
      rewrite Y, Hd1. eexists. simpl. rewrite sget_sset, String.eqb_refl. repeat split; assumption. }
    assert (Hsz2 : forall s s2, n <> s -> s <> "type"%string -> s <> "step_calc"%string -> size_inv s d s2 -> size_inv s d1 s2).
    { intros s s2 N1 N2 N3 Hi. rewrite Hd1. apply size_inv_other; [|exact Hi]. apply Hnot; assumption. }
    rewrite HK1.
    unfold expect_step. destruct st as [u cur], cst as [cu ccur].
    destruct (String.eqb n "type") eqn:En.
    + apply String.eqb_eq in En; subst n. simpl.
      assert (m = "type"%string) by (destruct Hm' as [->|[[-> _]|[_ A]]]; [reflexivity|reflexivity|discriminate]). subst m.
      destruct Ht as (ot & Hot & Hvt). rewrite Ho in Hot. injection Hot as <-.
      destruct (enum_check _ _ _ _ Hvt Hchk) as (t & -> & Hin).
      assert (S1 : size_inv "step_size" d1 (u, cur)) by (apply Hsz2; try discriminate; exact Hs).
      destruct (follow d1 "step_size" (VStr t)) as [d2 r2] eqn:Ef.
      assert (r2 = Ok tt).
      { destruct S1 as (x & Hx & _). unfold follow in Ef. rewrite Hx in Ef. destruct (o_changed x); congruence. }
      subst r2. destruct (follow_size _ _ _ _ _ _ S1 eq_refl Ef) as (F1 & F2 & F3 & F4).
      simpl in F1. simpl. repeat split.
      * congruence.
      * congruence.
      * destruct u; simpl; exact F1.
      * eapply size_inv_ext; [apply F4; discriminate|]. apply Hsz2; try discriminate. exact Hc.
      * eapply type_inv_ext; [apply F4; discriminate|exact HT1].
      * eapply type_inv_ext; [apply F4; discriminate|exact HC1].
    + destruct (String.eqb n "check_type") eqn:Ec.
      * apply String.eqb_eq in Ec; subst n. simpl.
        assert (m = "check_type"%string) by (destruct Hm' as [->|[[_ A]|[_ A]]]; [reflexivity|discriminate|discriminate]). subst m.
        destruct Hct as (ot & Hot & Hvt). rewrite Ho in Hot. injection Hot as <-.
        destruct (enum_check _ _ _ _ Hvt Hchk) as (t & -> & Hin).
        assert (S1 : size_inv "check_step_size" d1 (cu, ccur)) by (apply Hsz2; try discriminate; exact Hc).
        destruct (follow d1 "check_step_size" (VStr t)) as [d2 r2] eqn:Ef.
        assert (r2 = Ok tt).
        { destruct S1 as (x & Hx & _). unfold follow in Ef. rewrite Hx in Ef. destruct (o_changed x); congruence. }
        subst r2. destruct (follow_size _ _ _ _ _ _ S1 eq_refl Ef) as (F1 & F2 & F3 & F4).
        simpl in F1. simpl. repeat split.
        -- congruence.
        -- congruence.
        -- eapply size_inv_ext; [apply F4; discriminate|]. apply Hsz2; try discriminate. exact Hs.
        -- destruct cu; simpl; exact F1.
        -- eapply type_inv_ext; [apply F4; discriminate|exact HT1].
        -- eapply type_inv_ext; [apply F4; discriminate|exact HC1].
      * simpl. repeat split; try assumption; try congruence.
        -- destruct (String.eqb n "step_size") eqn:E1.
           ++ apply String.eqb_eq in E1. apply Hsz; try discriminate; assumption.
           ++ apply Hsz2; try discriminate; [apply String.eqb_neq; exact E1|exact Hs].
        -- destruct (String.eqb n "check_step_size") eqn:E1.
           ++ apply String.eqb_eq in E1. apply Hsz; try discriminate; assumption.
           ++ apply Hsz2; try discriminate; [apply String.eqb_neq; exact E1|exact Hc].
  - (* rejected *)
    destruct (base_setitem_revalued _ _ _ _ _ _ Eb) as [_ Hsame]. rewrite (Hsame ltac:(discriminate)). simpl.
    assert (Hrej : forall s o, sget (d_options d) s = Some o -> n = s -> exists e', check false v o = Err e').
    { intros s o Ho ->. unfold base_setitem in Eb. rewrite (smem_sget _ _ _ Ho), Ho in Eb.
      destruct (check false v o) as [[]|e']; [discriminate|]. exists e'. reflexivity. }
    assert (E1 : expect_step "step_size" "type" st (n, v) = st).
    { destruct st as [u cur]. unfold expect_step. destruct (String.eqb n "step_size") eqn:En.
      - apply String.eqb_eq in En. destruct Hs as (x & Hx & X1 & X2 & X3 & X4 & X5 & X6 & X7).
        destruct (Hrej _ _ Hx En) as (e' & He).
        destruct (step_check v x X3 X4 X5 X6 X7) as [(Y & _)|[_ Y]]; [congruence|]. rewrite Y. reflexivity.
      - destruct (String.eqb n "type") eqn:En2; [|reflexivity]. simpl. destruct u; [reflexivity|]. simpl.
        apply String.eqb_eq in En2. destruct Ht as (x & Hx & Hv). destruct (Hrej _ _ Hx En2) as (e' & He).
        destruct v as [| | | | |t]; try reflexivity.
        pose proof (enum_check_reject _ _ _ _ Hv (or_intror I) He t eq_refl) as Hn.
        destruct (String.eqb t "fd") eqn:F; [exfalso; apply Hn; apply String.eqb_eq in F; subst; simpl; tauto|].
        destruct (String.eqb t "cs") eqn:F2; [exfalso; apply Hn; apply String.eqb_eq in F2; subst; simpl; tauto|reflexivity]. }
    assert (E2 : expect_step "check_step_size" "check_type" cst (n, v) = cst).
    { destruct cst as [u cur]. unfold expect_step. destruct (String.eqb n "check_step_size") eqn:En.
      - apply String.eqb_eq in En. destruct Hc as (x & Hx & X1 & X2 & X3 & X4 & X5 & X6 & X7).
        destruct (Hrej _ _ Hx En) as (e' & He).
        destruct (step_check v x X3 X4 X5 X6 X7) as [(Y & _)|[_ Y]]; [congruence|]. rewrite Y. reflexivity.
      - destruct (String.eqb n "check_type") eqn:En2; [|reflexivity]. simpl. destruct u; [reflexivity|]. simpl.
        apply String.eqb_eq in En2. destruct Hct as (x & Hx & Hv). destruct (Hrej _ _ Hx En2) as (e' & He).
        destruct v as [| | | | |t]; try reflexivity.
        pose proof (enum_check_reject _ _ _ _ Hv (or_intror I) He t eq_refl) as Hn.
        destruct (String.eqb t "fd") eqn:F; [exfalso; apply Hn; apply String.eqb_eq in F; subst; simpl; tauto|].
        destruct (String.eqb t "cs") eqn:F2; [exfalso; apply Hn; apply String.eqb_eq in F2; subst; simpl; tauto|reflexivity]. }
    rewrite E1, E2. exact HI.
Qed.

Definition assign_all (d : dict) (l : list (string * value)) : dict :=
  fold_left (fun d nv => fst (setitem false d (fst nv) (snd nv))) l d.

Lemma deriv_history : forall l d st cst, deriv_inv d st cst ->
    deriv_inv (assign_all d l) (fold_left (expect_step "step_size" "type") l st)
              (fold_left (expect_step "check_step_size" "check_type") l cst).
Proof.
  induction l as [|[n v] l IH]; intros d st cst H; [exact H|]. simpl. apply IH. apply deriv_step. exact H.
Qed.

Lemma step_size_follows : forall d l,
    nth_error (w_dicts (run start system_options)) 0 = Some d ->
    getitem (assign_all d l) "step_size" = Ok (snd (fold_left (expect_step "step_size" "type") l (false, step_fd))) /\
    getitem (assign_all d l) "check_step_size"
    = Ok (snd (fold_left (expect_step "check_step_size" "check_type") l (false, step_fd))).
Proof.
  intros d l Hd.
  assert (HI : deriv_inv d (false, step_fd) (false, step_fd)).
  { vm_compute in Hd. injection Hd as <-. unfold deriv_inv. split; [reflexivity|]. split; [reflexivity|].
    repeat split; eexists; repeat split. }
  apply (deriv_history l) in HI. destruct HI as (_ & _ & (o & Ho & E & _) & (o2 & Ho2 & E2 & _) & _).
  unfold getitem. rewrite Ho, Ho2, E, E2. split; reflexivity.
Qed.

(** ** the legacy fd_options view *)
Lemma legacy_force_fd : forall d b o, sget (d_options d) "type" = Some o -> o_values o = enum ["user"; "fd"; "cs"]%string ->
    fd_getitem (fst (fd_setitem false d "force_fd" (VBool b))) "force_fd" = Ok (VBool b).
Proof.
  intros d b o Ho Hv. unfold fd_setitem, fd_getitem. simpl (String.eqb "force_fd" "force_fd"). cbv iota.
  set (t := if pyeq (VBool b) (VBool true) then VStr "fd" else VStr "user").
  assert (Hchk : check false t o = Ok tt).
  { unfold check. simpl. rewrite Hv. destruct b; reflexivity. }
  unfold setitem, base_setitem. rewrite (smem_sget _ _ _ Ho), Ho, Hchk. simpl.
  set (d1 := mkDict _ _ _ _).
  assert (G1 : sget (d_options d1) "type" = Some (mkOpt t (o_lower o) (o_upper o) (o_values o) (o_lock o) true)).
  { unfold d1; simpl. rewrite sget_sset. reflexivity. }
  assert (G2 : forall d2, sget (d_options d2) "type" = sget (d_options d1) "type" ->
      (let! t0 := getitem d2 "type" in Ok (VBool (pyeq t0 (VStr "fd") || (pyeq t0 (VStr "cs") || false)))) = Ok (VBool b)).
  { intros d2 E. unfold getitem. rewrite E, G1. simpl. unfold t. destruct b; reflexivity. }
  destruct (d_kind d); simpl; [apply G2; reflexivity|].
  unfold follow. destruct (sget (d_options d1) "step_size") as [os|] eqn:Es; [|apply G2; reflexivity].
  destruct (o_changed os); [apply G2; reflexivity|]. simpl.
  assert (Hp : forall d2 w, sget (d_options d2) "type" = sget (d_options d1) "type" ->
             sget (d_options (poke d2 "step_size" w)) "type" = sget (d_options d1) "type").
  { intros d2 w E. unfold poke. destruct (sget (d_options d2) "step_size"); [|exact E].
    simpl. rewrite sget_sset. exact E. }
  apply G2. destruct (pyeq t (VStr "cs")); [apply Hp|]; (destruct (pyeq t (VStr "fd")); [apply Hp|]); reflexivity.
Qed.

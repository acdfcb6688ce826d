(** Lemmas for C106. *)
From Verif Require Import Base BaseFacts DirModel DirSpec DirProofs FrefModel FrefSpec.
Local Open Scope string_scope.

Lemma hget_hset : forall h i j f, hget (hset h i f) j = if Nat.eqb j i then Some f else hget h j.
Proof.
  unfold hget, hset. induction h as [|[k g] h IH]; intros i j f; cbn.
  - destruct (Nat.eqb j i); reflexivity.
  - destruct (Nat.eqb i k) eqn:E; cbn.
    + apply Nat.eqb_eq in E. subst k. destruct (Nat.eqb j i); reflexivity.
    + rewrite IH. destruct (Nat.eqb j k) eqn:E1; [|reflexivity]. apply Nat.eqb_eq in E1. subst k.
      destruct (Nat.eqb j i) eqn:E2; [|reflexivity]. apply Nat.eqb_eq in E2. subst. rewrite Nat.eqb_refl in E. discriminate.
Qed.

Lemma sget_In : forall {V} (d : list (string * V)) k v, sget d k = Some v -> In (k, v) d.
Proof.
  unfold sget. induction d as [|[k' v'] d IH]; intros k v H; cbn in H; [discriminate|].
  destruct (String.eqb k k') eqn:E; [apply String.eqb_eq in E; left; congruence|right; auto].
Qed.
Lemma In_sget : forall {V} (d : list (string * V)) k v, NoDup (map fst d) -> In (k, v) d -> sget d k = Some v.
Proof.
  unfold sget. induction d as [|[k' v'] d IH]; intros k v Hn H; [destruct H|]. cbn in *. inversion Hn; subst.
  destruct H as [H|H]; [inversion H; subst; rewrite String.eqb_refl; reflexivity|].
  destruct (String.eqb k k') eqn:E; [|auto]. apply String.eqb_eq in E. subst k'.
  exfalso. apply H2. apply in_map_iff. exists (k, v). auto.
Qed.

(** ** Newlines *)
Lemma unl_clean_len : forall n s, (String.length s <= n)%nat -> no_cr (unl s).
Proof.
  induction n as [|n IH]; intros s Hl.
  - destruct s; cbn in Hl; [|lia]. intros k. destruct k; cbn; discriminate.
  - destruct s as [|a s]; [intros k; destruct k; cbn; discriminate|]. cbn in Hl. cbn [unl].
    destruct (Ascii.eqb a CR) eqn:E.
    + assert (L : forall t, no_cr t -> no_cr (String LF t)).
      { intros t Ht [|k]; cbn; [discriminate|apply Ht]. }
      destruct s as [|b s].
      * apply L. intros k; destruct k; cbn; discriminate.
      * destruct (Ascii.eqb b LF); apply L; apply IH; cbn in *; lia.
    + intros [|k]; cbn [String.get].
      * intro H. inversion H; subst. discriminate E.
      * apply IH. lia.
Qed.
Lemma unl_no_cr : forall s, no_cr (unl s).
Proof. intro s. apply (unl_clean_len (String.length s)). apply le_n. Qed.
Lemma unl_id : forall s, no_cr s -> unl s = s.
Proof.
  induction s as [|a s IH]; intro H; [reflexivity|]. cbn [unl].
  destruct (Ascii.eqb a CR) eqn:E.
  - apply Ascii.eqb_eq in E. exfalso. apply (H 0%nat). cbn. rewrite E. reflexivity.
  - f_equal. apply IH. intro k. apply (H (S k)).
Qed.

(** ** Setup *)
Definition same_ref (f f' : fref) : Prop := f_name f = f_name f' /\ f_binary f = f_binary f'.

Definition ids (c : comp) : list nat := (map snd (c_unk c) ++ map snd (c_par c))%list.

(** invariant of setup: references keep name and mode; those in [done] of
    directory dir are placed *)
Definition step_ok (st st' : heap * list string) : Prop :=
  (forall i f', hget (fst st') i = Some f' -> exists f, hget (fst st) i = Some f /\ same_ref f f') /\
  (forall i f, hget (fst st) i = Some f -> exists f', hget (fst st') i = Some f' /\ same_ref f f') /\
  incl (snd st) (snd st').

Lemma step_ok_refl : forall st, step_ok st st.
Proof.
  intro st. repeat split.
  - intros i f H. exists f. repeat split. exact H.
  - intros i f H. exists f. repeat split. exact H.
  - apply incl_refl.
Qed.
Lemma step_ok_trans : forall a b c, step_ok a b -> step_ok b c -> step_ok a c.
Proof.
  intros a b c (A1 & A2 & A3) (B1 & B2 & B3). repeat split.
  - intros i f H. destruct (B1 i f H) as (g & G & [E1 E2]). destruct (A1 i g G) as (k & K & [F1 F2]).
    exists k. split; [exact K|]. split; congruence.
  - intros i f H. destruct (A2 i f H) as (g & G & [E1 E2]). destruct (B2 i g G) as (k & K & [F1 F2]).
    exists k. split; [exact K|]. split; congruence.
  - eapply incl_tran; eassumption.
Qed.

(** a reference in its place *)
Definition put (dir : string) (st : heap * list string) (i : nat) : Prop :=
  exists f, hget (fst st) i = Some f /\ f_parent f = dir /\ In (dirname (abspath f)) (snd st).

Lemma setup1_ok : forall c i st st', fileref_setup c i st = Ok st' ->
  step_ok st st' /\ put (c_dir c) st' i /\
  (forall dir j, put dir st j -> (j = i -> dir = c_dir c) -> put dir st' j) /\
  (c_create c = false -> snd st' = snd st).
Proof.
  intros c i [h dirs] st' H. unfold fileref_setup in H. destruct (hget h i) as [f|] eqn:E; [|discriminate].
  set (f' := mkF (f_name f) (c_dir c) (f_binary f)) in *. set (d := dirname (abspath f')) in *.
  assert (K : exists dirs', st' = (hset h i f', dirs') /\ incl dirs dirs' /\ In d dirs' /\ (c_create c = false -> dirs' = dirs)).
  { destruct (existsb (String.eqb d) dirs) eqn:Ed.
    - inversion H; subst. exists dirs. split; [reflexivity|]. split; [apply incl_refl|]. split; [|auto].
      apply existsb_exists in Ed. destruct Ed as (x & Hx & Ex). apply String.eqb_eq in Ex. subst. exact Hx.
    - destruct (c_create c) eqn:Ec; [|discriminate]. inversion H; subst. eexists. split; [reflexivity|].
      split; [apply incl_appl; apply incl_refl|]. split; [apply in_or_app; right; left; reflexivity|discriminate]. }
  destruct K as (dirs' & -> & Hi & Hd & Hc). cbn [fst snd].
  split; [|split; [|split; [|exact Hc]]].
  - split; [|split; [|exact Hi]]; cbn [fst].
    + intros j g Hg. rewrite hget_hset in Hg. destruct (Nat.eqb j i) eqn:Ej.
      * apply Nat.eqb_eq in Ej. subst j. inversion Hg; subst. exists f. split; [exact E|]. split; reflexivity.
      * exists g. split; [exact Hg|]. split; reflexivity.
    + intros j g Hg. rewrite hget_hset. destruct (Nat.eqb j i) eqn:Ej.
      * apply Nat.eqb_eq in Ej. subst j. rewrite E in Hg. inversion Hg; subst. exists f'. repeat split.
      * exists g. repeat split. exact Hg.
  - exists f'. cbn [fst snd]. rewrite hget_hset, Nat.eqb_refl. repeat split. exact Hd.
  - intros dir j (g & Hg & Pg & Dg) Hj. cbn [fst snd] in *. destruct (Nat.eqb j i) eqn:Ej.
    + apply Nat.eqb_eq in Ej. subst j. rewrite (Hj eq_refl). exists f'. cbn [fst snd]. rewrite hget_hset, Nat.eqb_refl. repeat split. exact Hd.
    + exists g. cbn [fst snd]. rewrite hget_hset, Ej. repeat split; auto.
Qed.

Lemma setup_vars_ok : forall c l st st', setup_vars c l st = Ok st' ->
  step_ok st st' /\ (forall i, In i l -> put (c_dir c) st' i) /\
  (forall dir j, put dir st j -> (In j l -> dir = c_dir c) -> put dir st' j) /\
  (c_create c = false -> snd st' = snd st).
Proof.
  induction l as [|i l IH]; intros st st' H; cbn in H.
  - inversion H; subst. repeat split; auto using step_ok_refl; try apply step_ok_refl. intros i [].
  - destruct (fileref_setup c i st) as [st1|e] eqn:E; cbn in H; [|discriminate].
    destruct (setup1_ok c i st st1 E) as (A & B & C & D). destruct (IH st1 st' H) as (A' & B' & C' & D').
    split; [eapply step_ok_trans; eassumption|]. split; [|split].
    + intros j [->|Hj]; [apply C'; auto|auto].
    + intros dir j Hp Hj. apply C'; [apply C; [exact Hp|]|].
      * intros ->. apply Hj. left. reflexivity.
      * intro Hin. apply Hj. right. exact Hin.
    + intro Hc. rewrite D', D by exact Hc. reflexivity.
Qed.

Lemma setup_comps_ok : forall cs st st', setup_comps cs st = Ok st' ->
  step_ok st st' /\
  (forall dir j, put dir st j -> (forall c, In c cs -> In j (ids c) -> dir = c_dir c) -> put dir st' j) /\
  (forall c j, In c cs -> In j (ids c) -> (forall c', In c' cs -> In j (ids c') -> c_dir c' = c_dir c) ->
     put (c_dir c) st' j) /\
  ((forall c, In c cs -> c_create c = false) -> snd st' = snd st).
Proof.
  induction cs as [|c cs IH]; intros st st' H; cbn in H.
  - inversion H; subst. split; [apply step_ok_refl|]. repeat split; auto. intros c j [].
  - destruct (setup_vars c (map snd (c_unk c) ++ map snd (c_par c)) st) as [st1|e] eqn:E; cbn in H; [|discriminate].
    destruct (setup_vars_ok _ _ _ _ E) as (A & B & C & D). destruct (IH st1 st' H) as (A' & B' & C' & D').
    split; [eapply step_ok_trans; eassumption|]. split; [|split].
    + intros dir j Hp Hj. apply B'; [apply C; [exact Hp|]|].
      * intro Hin. apply (Hj c); [left; reflexivity|exact Hin].
      * intros c' Hc' Hin. apply Hj; [right; exact Hc'|exact Hin].
    + intros c' j [->|Hc'] Hin Hs.
      * apply B'; [apply B; exact Hin|]. intros c2 Hc2 Hin2. symmetry. apply Hs; [right; exact Hc2|exact Hin2].
      * apply C'; [exact Hc'|exact Hin|]. intros c2 Hc2 Hin2. apply Hs; [right; exact Hc2|exact Hin2].
    + intro Hc. rewrite D', D; auto; [apply Hc; left; reflexivity|intros; apply Hc; right; assumption].
Qed.

(** failures of setup *)
Lemma setup_vars_err : forall c l st e, setup_vars c l st = Err e ->
  (forall i, In i l -> hget (fst st) i <> None) ->
  e = RuntimeError /\ c_create c = false /\
  exists i f, In i l /\ hget (fst st) i = Some f /\
    ~ In (dirname (abspath (mkF (f_name f) (c_dir c) (f_binary f)))) (snd st).
Proof.
  induction l as [|i l IH]; intros st e H Hh; cbn in H; [discriminate|].
  destruct (fileref_setup c i st) as [st1|e1] eqn:E; cbn in H.
  - destruct (setup1_ok c i st st1 E) as ((A1 & A2 & A3) & B & C & D).
    destruct (IH st1 e H) as (-> & Hc & j & f & Hj & Hf & Hn).
    { intros j Hj. destruct (hget (fst st) j) as [g|] eqn:Eg; [|exfalso; exact (Hh j (or_intror Hj) Eg)].
      destruct (A2 j g Eg) as (g' & G & _). congruence. }
    split; [reflexivity|]. split; [exact Hc|]. destruct (A1 j f Hf) as (g & G & [E1 E2]).
    exists j, g. split; [right; exact Hj|]. split; [exact G|]. rewrite (D Hc) in Hn. rewrite E1, E2. exact Hn.
  - inversion H; subst e1. destruct st as [h dirs]. unfold fileref_setup in E. cbn [fst snd] in *.
    destruct (hget h i) as [f|] eqn:Ef; [|exfalso; exact (Hh i (or_introl eq_refl) Ef)].
    destruct (existsb _ dirs) eqn:Ed; [discriminate|]. destruct (c_create c); [discriminate|].
    inversion E; subst. repeat split. exists i, f. repeat split; [left; reflexivity|exact Ef|].
    intro Hin. assert (T : existsb (String.eqb (dirname (abspath (mkF (f_name f) (c_dir c) (f_binary f))))) dirs = true).
    { apply existsb_exists. eexists. split; [exact Hin|apply String.eqb_refl]. }
    rewrite T in Ed. discriminate.
Qed.

Lemma setup_comps_err : forall cs st e, setup_comps cs st = Err e ->
  (forall c i, In c cs -> In i (ids c) -> hget (fst st) i <> None) ->
  e = RuntimeError /\
  exists c i f, In c cs /\ In i (ids c) /\ c_create c = false /\ hget (fst st) i = Some f /\
    ~ In (dirname (abspath (mkF (f_name f) (c_dir c) (f_binary f)))) (snd st).
Proof.
  induction cs as [|c cs IH]; intros st e H Hh; cbn in H; [discriminate|].
  destruct (setup_vars c (map snd (c_unk c) ++ map snd (c_par c)) st) as [st1|e1] eqn:E; cbn in H.
  - destruct (setup_vars_ok _ _ _ _ E) as ((A1 & A2 & A3) & B & C & D).
    destruct (IH st1 e H) as (-> & c' & i & f & Hc' & Hi & Hcr & Hf & Hn).
    { intros c' i Hc' Hi. destruct (hget (fst st) i) as [g|] eqn:Eg; [|exfalso; exact (Hh c' i (or_intror Hc') Hi Eg)].
      destruct (A2 i g Eg) as (g' & G & _). congruence. }
    split; [reflexivity|]. destruct (A1 i f Hf) as (g & G & [E1 E2]).
    exists c', i, g. repeat split; auto; [right; exact Hc'|]. rewrite E1, E2. intro Hin. apply Hn. apply A3. exact Hin.
  - inversion H; subst e1. destruct (setup_vars_err _ _ _ _ E) as (-> & Hc & i & f & Hi & Hf & Hn).
    { intros i Hi. apply (Hh c i (or_introl eq_refl)). exact Hi. }
    split; [reflexivity|]. exists c, i, f. repeat split; auto. left. reflexivity.
Qed.

(** ** Checks *)
Lemma is_binary_mode : forall f, is_binary f = match f_binary f with Some true => true | _ => false end.
Proof. intros [n p [[|]|]]; reflexivity. Qed.

Lemma check_conns_spec : forall h params unknowns conns,
  heap_ok h params -> heap_ok h unknowns ->
  (check_conns h params unknowns conns = Ok tt <-> Forall (sound_conn h params unknowns) conns).
Proof.
  intros h params unknowns conns Hp Hu. induction conns as [|[t s] conns IH]; cbn.
  - split; [constructor|reflexivity].
  - assert (K : (exists tv sv, sget params t = Some tv /\ sget unknowns s = Some sv /\ check_types h sv tv = Ok tt) <->
                sound_conn h params unknowns (t, s)).
    { unfold sound_conn, has_mode. cbn [fst snd]. split.
      - intros (tv & sv & E1 & E2 & E3). destruct sv as [j|], tv as [i|]; cbn in E3; try discriminate.
        + left. destruct (hget h i) as [f|] eqn:Ef; [|discriminate]. cbn in E3. destruct (hget h j) as [g|] eqn:Eg; [|discriminate].
          destruct (Bool.eqb (is_binary f) (is_binary g)) eqn:Eb; [|discriminate]. apply Bool.eqb_prop in Eb.
          exists (is_binary f). split.
          * exists i, f. repeat split; auto. apply is_binary_mode.
          * exists j, g. repeat split; auto. rewrite Eb. apply is_binary_mode.
        + destruct (hget h i); discriminate.
        + right. auto.
      - intros [(b & (i & f & E1 & E2 & E3) & (j & g & F1 & F2 & F3))|[E1 E2]].
        + exists (VFile i), (VFile j). repeat split; auto. cbn. rewrite E2. cbn. rewrite F2.
          rewrite <- !is_binary_mode in *. rewrite <- E3, <- F3, Bool.eqb_reflx. reflexivity.
        + exists VOther, VOther. auto. }
    split.
    + intro H. destruct (sget params t) as [tv|] eqn:E1; [|discriminate]. destruct (sget unknowns s) as [sv|] eqn:E2; [|discriminate].
      destruct (check_types h sv tv) as [[]|e] eqn:E3; cbn in H; [|discriminate]. constructor; [|apply IH; exact H].
      apply K. eauto.
    + intro H. inversion H; subst. apply K in H2. destruct H2 as (tv & sv & -> & -> & ->). cbn. apply IH. assumption.
Qed.

Section Collect.
  Variable h : heap.
  Variables params unknowns : list (string * value).
  Variable conns : list (string * string).

  Definition fileL (L : list (string * value)) (n p : string) : Prop :=
    exists i f, In (n, VFile i) L /\ hget h i = Some f /\ p = abspath f.
  Definition connected (n : string) : bool := match sget conns n with Some _ => true | None => false end.

  Definition ent (d : list (string * entry)) (p : string) : entry :=
    match sget d p with Some e => e | None => ([], []) end.

  Definition inv (d : list (string * entry)) (L : list (string * value)) : Prop :=
    NoDup (map fst d) /\
    forall p, NoDup (snd (ent d p)) /\
      (forall n b, In (n, b) (fst (ent d p)) <-> fileL L n p /\ b = connected n) /\
      (forall s q, In (s, q) (snd (ent d p)) <->
         exists n, fileL L n p /\ sget conns n = Some s /\ is_file h unknowns s q).

  Lemma set_add_spec : forall l x, NoDup l -> NoDup (set_add l x) /\ forall y, In y (set_add l x) <-> In y l \/ y = x.
  Proof.
    intros l x Hn. unfold set_add.
    destruct (existsb (fun y => (String.eqb (fst x) (fst y) && String.eqb (snd x) (snd y))%bool) l) eqn:E.
    - split; [exact Hn|]. intro y. split; [auto|]. intros [H| ->]; [exact H|].
      apply existsb_exists in E. destruct E as ([a b] & Hin & E). apply andb_prop in E. destruct E as [E1 E2].
      apply String.eqb_eq in E1, E2. destruct x. cbn in *. subst. exact Hin.
    - assert (Nx : ~ In x l).
      { intro Hin. assert (T : existsb (fun y => (String.eqb (fst x) (fst y) && String.eqb (snd x) (snd y))%bool) l = true).
        { apply existsb_exists. exists x. split; [exact Hin|]. rewrite !String.eqb_refl. reflexivity. }
        rewrite T in E. discriminate. }
      split; [apply NoDup_snoc; assumption|]. intro y. rewrite in_app_iff. cbn. intuition congruence.
  Qed.

  Lemma ent_sset : forall d p e q, ent (sset d p e) q = if String.eqb q p then e else ent d q.
  Proof.
    intros d p e q. unfold ent. rewrite sget_sset. destruct (String.eqb q p) eqn:E.
    - try rewrite E. try (apply String.eqb_eq in E; subst; rewrite ?String.eqb_refl). reflexivity.
    - destruct (String.eqb p q) eqn:E2; [apply String.eqb_eq in E2; subst; rewrite String.eqb_refl in E; discriminate|].
      reflexivity.
  Qed.

  Lemma fileL_snoc : forall L n v m p, fileL (L ++ [(n, v)]) m p <->
    fileL L m p \/ (m = n /\ exists i f, v = VFile i /\ hget h i = Some f /\ p = abspath f).
  Proof.
    intros L n v m p. unfold fileL. split.
    - intros (i & f & Hin & Hf & Hp). apply in_app_or in Hin. destruct Hin as [Hin|[Hin|[]]].
      + left. eauto.
      + inversion Hin; subst. right. split; [reflexivity|]. eauto.
    - intros [(i & f & Hin & Hf & Hp)|(-> & i & f & -> & Hf & Hp)].
      + exists i, f. split; [apply in_or_app; auto|auto].
      + exists i, f. split; [apply in_or_app; right; left; reflexivity|auto].
  Qed.

  Lemma collect_spec : forall R L d, inv d L ->
    (forall n i, In (n, VFile i) R -> hget h i <> None) ->
    (forall n i s, In (n, VFile i) R -> sget conns n = Some s -> exists q, is_file h unknowns s q) ->
    exists d', collect h unknowns conns R d = Ok d' /\ inv d' (L ++ R).
  Proof.
    induction R as [|[n v] R IH]; intros L d Hi Hh Hs.
    - exists d. rewrite app_nil_r. auto.
    - replace (L ++ (n, v) :: R)%list with ((L ++ [(n, v)]) ++ R)%list by (rewrite <- app_assoc; reflexivity).
      destruct v as [i|]; cbn [collect].
      + destruct (hget h i) as [f|] eqn:Ef; [|exfalso; apply (Hh n i (or_introl eq_refl) Ef)].
        fold (ent d (abspath f)). destruct (ent d (abspath f)) as [ins outs] eqn:Ee.
        assert (Next : forall outs' b, b = connected n ->
          (NoDup outs' /\ forall s q, In (s, q) outs' <-> In (s, q) outs \/ (sget conns n = Some s /\ is_file h unknowns s q)) ->
          inv (sset d (abspath f) ((ins ++ [(n, b)])%list, outs')) (L ++ [(n, VFile i)])).
        { intros outs' b Hb (Hno & Ho). destruct Hi as [Hk Hi]. split.
          - apply (NoDup_dkeys_dset String.eqb String.eqb_eq). exact Hk.
          - intro p. rewrite ent_sset. destruct (Hi p) as (I1 & I2 & I3). destruct (String.eqb p (abspath f)) eqn:Ep.
            + apply String.eqb_eq in Ep. subst p. rewrite Ee in *. cbn [fst snd] in *. split; [exact Hno|]. split.
              * intros m c. rewrite in_app_iff, I2, fileL_snoc. cbn. split.
                -- intros [[A B]|[A|[]]]; [auto|]. inversion A; subst. split; [right; split; [reflexivity|eauto]|reflexivity].
                -- intros [[A|(-> & _)] ->]; [auto|]. right. left. congruence.
              * intros s q. rewrite Ho, I3. split.
                -- intros [(m & A & B)|[A B]]; [exists m; rewrite fileL_snoc; tauto|].
                   exists n. rewrite fileL_snoc. split; [right; split; [reflexivity|eauto]|auto].
                -- intros (m & A & B & C). rewrite fileL_snoc in A. destruct A as [A|(-> & _)]; [left; eauto|right; auto].
            + split; [exact I1|]. split.
              * intros m c. rewrite I2, fileL_snoc. split; [tauto|]. intros [[A|(_ & i0 & f0 & A & B & C)] D]; [auto|].
                inversion A; subst. rewrite Ef in B. inversion B; subst. rewrite String.eqb_refl in Ep. discriminate.
              * intros s q. rewrite I3. split.
                -- intros (m & A & B). exists m. rewrite fileL_snoc. tauto.
                -- intros (m & A & B). rewrite fileL_snoc in A. destruct A as [A|(_ & i0 & f0 & A & B' & C)]; [eauto|].
                   inversion A; subst. rewrite Ef in B'. inversion B'; subst. rewrite String.eqb_refl in Ep. discriminate. }
        assert (NDo : NoDup outs). { destruct Hi as [_ Hi]. destruct (Hi (abspath f)) as (I1 & _). rewrite Ee in I1. exact I1. }
        destruct (sget conns n) as [s|] eqn:Es.
        * destruct (Hs n i s (or_introl eq_refl) Es) as (q & j & g & E1 & E2 & E3). rewrite E1, E2.
          apply IH; [|intros; eapply Hh; right; eassumption|intros; eapply Hs; [right; eassumption|assumption]].
          apply Next; [unfold connected; rewrite Es; reflexivity|].
          destruct (set_add_spec outs (s, abspath g) NDo) as [A B]. split; [exact A|].
          intros s' q'. rewrite B. split.
          -- intros [C|C]; [auto|]. inversion C; subst. right. split; [reflexivity|]. exists j, g. auto.
          -- intros [C|[C (j' & g' & F1 & F2 & F3)]]; [auto|]. right. inversion C; subst. rewrite E1 in F1. inversion F1; subst.
             rewrite E2 in F2. inversion F2; subst. reflexivity.
        * apply IH; [|intros; eapply Hh; right; eassumption|intros; eapply Hs; [right; eassumption|assumption]].
          apply Next; [unfold connected; rewrite Es; reflexivity|]. split; [exact NDo|].
          intros s q. split; [auto|]. intros [C|[C _]]; [exact C|]. discriminate.
      + apply IH; [|intros; eapply Hh; right; eassumption|intros; eapply Hs; [right; eassumption|assumption]].
        destruct Hi as [Hk Hi]. split; [exact Hk|]. intro p. destruct (Hi p) as (I1 & I2 & I3). split; [exact I1|]. split.
        * intros m b. rewrite I2, fileL_snoc. split; [tauto|]. intros [[A|(_ & i & f & A & _)] B]; [auto|discriminate].
        * intros s q. rewrite I3. split.
          -- intros (m & A & B). exists m. rewrite fileL_snoc. tauto.
          -- intros (m & A & B). rewrite fileL_snoc in A. destruct A as [A|(_ & i & f & A & _)]; [eauto|discriminate].
  Qed.

  Lemma fileL_is_file : NoDup (map fst params) -> forall n p, fileL params n p <-> is_file h params n p.
  Proof.
    intros Hn n p. split; intros (i & f & A & B & C); exists i, f.
    - split; [apply In_sget; assumption|auto].
    - split; [apply sget_In; assumption|auto].
  Qed.

  Lemma is_file_det : forall vars n p q, is_file h vars n p -> is_file h vars n q -> p = q.
  Proof. intros vars n p q (i & f & A & B & C) (j & g & D & E & F). congruence. Qed.

  Lemma errors_spec : forall d, inv d params -> NoDup (map fst params) ->
    (forall n, In (EUnconnected n) (flat_map entry_errors d) <->
       exists p m s q, is_file h params n p /\ sget conns n = None /\
                       is_file h params m p /\ sget conns m = Some s /\ is_file h unknowns s q) /\
    (forall p, In (EMulti p) (flat_map entry_errors d) <->
       exists m m' s s' q q', s <> s' /\ is_file h params m p /\ is_file h params m' p /\
         sget conns m = Some s /\ sget conns m' = Some s' /\ is_file h unknowns s q /\ is_file h unknowns s' q').
  Proof.
    intros d [Hk Hi] Hn. pose proof (fileL_is_file Hn) as FL. split.
    - intro n. rewrite in_flat_map. split.
      + intros ([p [ins outs]] & Hin & He). unfold entry_errors in He. cbv beta iota in He. apply in_app_or in He. destruct He as [He|He].
        { destruct (1 <? length outs)%nat; [destruct He as [He|[]]; discriminate|destruct He]. }
        apply in_flat_map in He. destruct He as ([m b] & Hm & He). cbn in He.
        destruct (negb b && negb (Nat.eqb (length outs) 0))%bool eqn:E; [|destruct He].
        destruct He as [He|[]]. inversion He; subst m. apply andb_prop in E. destruct E as [E1 E2].
        destruct b; [discriminate|]. destruct (Hi p) as (_ & I2 & I3).
        assert (Ee : ent d p = (ins, outs)). { unfold ent. rewrite (In_sget d p (ins, outs) Hk Hin). reflexivity. }
        rewrite Ee in *. cbn [fst snd] in *. apply I2 in Hm. destruct Hm as [Hf Hc].
        destruct outs as [|[s q] outs]; [discriminate|]. destruct (proj1 (I3 s q) (or_introl eq_refl)) as (m & A & B & C).
        exists p, m, s, q. rewrite <- !FL. repeat split; auto. unfold connected in Hc. destruct (sget conns n); [discriminate|reflexivity].
      + intros (p & m & s & q & A & B & C & D & E). rewrite <- FL in A, C. destruct (Hi p) as (_ & I2 & I3).
        assert (Hs : In (s, q) (snd (ent d p))). { apply I3. eauto. }
        assert (Hm : In (n, false) (fst (ent d p))). { apply I2. split; [exact A|]. unfold connected. rewrite B. reflexivity. }
        unfold ent in *. destruct (sget d p) as [[ins outs]|] eqn:Ed; [|destruct Hs]. cbn [fst snd] in *.
        exists (p, (ins, outs)). split; [apply sget_In; exact Ed|]. cbn. apply in_or_app. right.
        apply in_flat_map. exists (n, false). split; [exact Hm|]. cbn. destruct outs; [destruct Hs|]. left. reflexivity.
    - intro p. rewrite in_flat_map. split.
      + intros ([p' [ins outs]] & Hin & He). unfold entry_errors in He. cbv beta iota in He. apply in_app_or in He. destruct He as [He|He].
        2: { apply in_flat_map in He. destruct He as ([m b] & Hm & He). cbn in He.
             destruct (negb b && negb (Nat.eqb (length outs) 0))%bool; [destruct He as [He|[]]; discriminate|destruct He]. }
        destruct (1 <? length outs)%nat eqn:E; [|destruct He]. destruct He as [He|[]]. inversion He; subst p'.
        apply Nat.ltb_lt in E. destruct (Hi p) as (I1 & I2 & I3).
        assert (Ee : ent d p = (ins, outs)). { unfold ent. rewrite (In_sget d p (ins, outs) Hk Hin). reflexivity. }
        rewrite Ee in *. cbn [fst snd] in *. destruct outs as [|[s q] [|[s' q'] outs]]; cbn in E; try lia.
        destruct (proj1 (I3 s q) (or_introl eq_refl)) as (m & A & B & C).
        destruct (proj1 (I3 s' q') (or_intror (or_introl eq_refl))) as (m' & A' & B' & C').
        exists m, m', s, s', q, q'. rewrite <- !FL. repeat split; auto. intros ->.
        assert (q = q') by (eapply is_file_det; eassumption). subst. inversion I1; subst. apply H1. left. reflexivity.
      + intros (m & m' & s & s' & q & q' & Hne & A & A' & B & B' & C & C'). rewrite <- FL in A, A'.
        destruct (Hi p) as (I1 & I2 & I3).
        assert (Hs : In (s, q) (snd (ent d p))). { apply I3. eauto. }
        assert (Hs' : In (s', q') (snd (ent d p))). { apply I3. eauto. }
        unfold ent in *. destruct (sget d p) as [[ins outs]|] eqn:Ed; [|destruct Hs]. cbn [fst snd] in *.
        exists (p, (ins, outs)). split; [apply sget_In; exact Ed|]. cbn. apply in_or_app. left.
        destruct outs as [|x [|y outs]].
        * destruct Hs.
        * destruct Hs as [Hs|[]], Hs' as [Hs'|[]]. congruence.
        * cbn. left. reflexivity.
  Qed.
End Collect.

Lemma inv_nil : forall h unknowns conns, inv h unknowns conns [] [].
Proof.
  intros h unknowns conns. split; [constructor|]. intro p. unfold ent. cbn. split; [constructor|]. split.
  - intros n b. split; [intros []|]. intros [(i & f & [] & _) _].
  - intros s q. split; [intros []|]. intros (n & (i & f & [] & _) & _).
Qed.

(** ** The run *)
Section Run.
  Variable canon : string -> string.
  Variable beh : string -> list (option string) -> list string.
  Variable h : heap.
  Variables params unknowns : list (string * value).
  Variable conns : list (string * string).
  Hypothesis Hconns : NoDup (map fst conns).
  Hypothesis Hsound : Forall (sound_conn h params unknowns) conns.
  Hypothesis Hsep : separate canon h params unknowns conns.

  Notation content := (content canon h).

  (** the file system stands for the values v of the unknowns and the initial
      contents of the unconnected params *)
  Definition rel (init v : string -> option string) (st : list (string * string)) : Prop :=
    (forall u p, is_file h unknowns u p -> sget st (canon p) = v u) /\
    (forall n p, is_file h params n p -> sget conns n = None -> sget st (canon p) = init n).

  Definition sin := spec_in h params unknowns conns.

  Lemma transfer_spec : forall init v l, incl l conns ->
    forall done st, rel init v st -> incl done conns ->
    (forall t s p, In (t, s) done -> is_file h params t p -> sget st (canon p) = sin init v t) ->
    match transfer canon h params unknowns l st with
    | Ok st' => rel init v st' /\
        (forall t s p, In (t, s) (done ++ l) -> is_file h params t p -> sget st' (canon p) = sin init v t) /\
        (forall t s, In (t, s) l -> sget params t <> Some VOther -> same_path h params unknowns t s = false -> v s <> None)
    | Err e => e = OSError /\ exists t s, In (t, s) l /\ sget params t <> Some VOther /\
                 same_path h params unknowns t s = false /\ v s = None
    end.
  Proof.
    intros init v. induction l as [|[t s] l IH]; intros Hl done st Hr Hd Hdone; cbn [transfer].
    - split; [exact Hr|]. rewrite app_nil_r. split; [exact Hdone|]. intros t s [].
    - assert (Hin : In (t, s) conns) by (apply Hl; left; reflexivity).
      assert (Hl' : incl l conns) by (intros x Hx; apply Hl; right; exact Hx).
      rewrite Forall_forall in Hsound. pose proof (Hsound _ Hin) as HS. unfold sound_conn in HS. cbn [fst snd] in HS.
      assert (Hd' : incl (done ++ [(t, s)]) conns).
      { intros x Hx. apply in_app_or in Hx. destruct Hx as [Hx|[<-|[]]]; auto. }
      assert (Eapp : forall A (x : A) a b, (a ++ x :: b)%list = ((a ++ [x]) ++ b)%list)
        by (intros; rewrite <- app_assoc; reflexivity).
      destruct HS as [(b & (i & f & E1 & E2 & E3) & (j & g & F1 & F2 & F3))|[E1 E2]].
      + rewrite E1, F1, E2. unfold assign_to. unfold validate. rewrite F2.
        rewrite <- is_binary_mode in E3, F3. rewrite <- E3, <- F3, Bool.eqb_reflx. cbn [bind].
        assert (Fp : is_file h params t (abspath f)) by (exists i, f; auto).
        assert (Fu : is_file h unknowns s (abspath g)) by (exists j, g; auto).
        assert (Es : sget conns t = Some s) by (apply In_sget; assumption).
        assert (Esame : same_path h params unknowns t s = String.eqb (abspath f) (abspath g)).
        { unfold same_path, path_of. rewrite E1, F1, E2, F2. reflexivity. }
        destruct Hr as [Hru Hrp].
        destruct (String.eqb (abspath f) (abspath g)) eqn:Ep.
        * cbn [bind]. specialize (IH Hl' (done ++ [(t, s)])%list st (conj Hru Hrp) Hd').
          assert (Q : forall t0 s0 p, In (t0, s0) (done ++ [(t, s)]) -> is_file h params t0 p -> sget st (canon p) = sin init v t0).
          { intros t0 s0 p H0 Hp. apply in_app_or in H0. destruct H0 as [H0|[H0|[]]]; [eapply Hdone; eassumption|].
            inversion H0; subst t0 s0. assert (p = abspath f) by (eapply is_file_det; eassumption). subst p.
            unfold sin, spec_in. rewrite Es, Esame. cbn. apply String.eqb_eq in Ep. rewrite Ep. apply Hru. exact Fu. }
          specialize (IH Q). rewrite (Eapp _ (t, s) done l).
          destruct (transfer canon h params unknowns l st) as [st'|e].
          -- destruct IH as (A & B & C). split; [exact A|]. split; [exact B|].
             intros t0 s0 [H0|H0]; [inversion H0; subst; rewrite Esame; discriminate|eauto].
          -- destruct IH as (A & t0 & s0 & B & C). split; [exact A|]. exists t0, s0. split; [right; exact B|exact C].
        * apply String.eqb_neq in Ep.
          assert (Ncan : canon (abspath f) <> canon (abspath g)).
          { intro Hc. destruct (sep_mix _ _ _ _ _ Hsep t s _ _ Fp Fu Hc) as [_ Hpp]. contradiction. }
          rewrite (Hru s _ Fu). destruct (v s) as [data|] eqn:Ev.
          -- rewrite sget_sset. destruct (String.eqb (canon (abspath g)) (canon (abspath f))) eqn:Eq;
               [apply String.eqb_eq in Eq; congruence|].
             try (destruct (String.eqb (canon (abspath f)) (canon (abspath g))) eqn:Eq2; [apply String.eqb_eq in Eq2; congruence|]).
             rewrite (Hru s _ Fu), Ev. cbn [bind].
             set (data' := if b then data else unl data).
             set (st1 := sset (sset st (canon (abspath f)) "") (canon (abspath f)) data').
             assert (G : forall k, sget st1 k = if String.eqb k (canon (abspath f)) then Some data' else sget st k).
             { intro k. unfold st1. rewrite !sget_sset. destruct (String.eqb k (canon (abspath f))) eqn:Ek.
               - try (apply String.eqb_eq in Ek; subst; rewrite ?String.eqb_refl). reflexivity.
               - try (destruct (String.eqb (canon (abspath f)) k) eqn:Ek2; [apply String.eqb_eq in Ek2; subst; rewrite String.eqb_refl in Ek; discriminate|]). reflexivity. }
             assert (R1 : rel init v st1).
             { split.
               - intros u p Hu. rewrite G. destruct (String.eqb (canon p) (canon (abspath f))) eqn:Ek; [|auto].
                 apply String.eqb_eq in Ek. exfalso.
                 destruct (sep_mix _ _ _ _ _ Hsep t u _ _ Fp Hu (eq_sym Ek)) as [H1 H2]. rewrite Es in H1. inversion H1; subst u.
                 apply Ncan. rewrite H2. f_equal. eapply is_file_det; [exact Hu|exact Fu].
               - intros n p Hp Hc. rewrite G. destruct (String.eqb (canon p) (canon (abspath f))) eqn:Ek; [|auto].
                 apply String.eqb_eq in Ek. exfalso.
                 pose proof (sep_par _ _ _ _ _ Hsep n t _ _ Hp Fp Ek) as H1. congruence. }
             assert (Q : forall t0 s0 p, In (t0, s0) (done ++ [(t, s)]) -> is_file h params t0 p -> sget st1 (canon p) = sin init v t0).
             { intros t0 s0 p H0 Hp. rewrite G.
               destruct (String.eqb (canon p) (canon (abspath f))) eqn:Ek.
               - apply String.eqb_eq in Ek. pose proof (sep_par _ _ _ _ _ Hsep t0 t _ _ Hp Fp Ek) as H1.
                 rewrite Es in H1. unfold sin, spec_in. rewrite H1.
                 assert (Hs0 : In (t0, s) conns) by (apply sget_In; exact H1).
                 pose proof (Hsound _ Hs0) as HS0. unfold sound_conn in HS0. cbn [fst snd] in HS0.
                 destruct HS0 as [(b0 & (i0 & f0 & X1 & X2 & X3) & (j0 & g0 & Y1 & Y2 & Y3))|[X1 X2]]; [|congruence].
                 rewrite F1 in Y1. inversion Y1; subst j0. rewrite F2 in Y2. inversion Y2; subst g0.
                 rewrite <- is_binary_mode in X3, Y3.
                 assert (Ebin : binary_of h params t0 = b).
                 { unfold binary_of. rewrite X1, X2. congruence. }
                 assert (Esp : same_path h params unknowns t0 s = false).
                 { unfold same_path, path_of. rewrite X1, X2, F1, F2. apply String.eqb_neq. intro He.
                   assert (Hp0 : p = abspath f0) by (eapply is_file_det; [exact Hp|exists i0, f0; auto]).
                   apply Ncan. rewrite <- Ek, Hp0, He. reflexivity. }
                 rewrite Esp, Ebin, Ev. cbn. unfold data'. destruct b; reflexivity.
               - apply in_app_or in H0. destruct H0 as [H0|[H0|[]]]; [eapply Hdone; eassumption|].
                 inversion H0; subst t0 s0. assert (p = abspath f) by (eapply is_file_det; eassumption). subst p.
                 rewrite String.eqb_refl in Ek. discriminate. }
             specialize (IH Hl' (done ++ [(t, s)])%list st1 R1 Hd' Q). rewrite (Eapp _ (t, s) done l).
             destruct (transfer canon h params unknowns l st1) as [st'|e].
             ++ destruct IH as (A & B & C). split; [exact A|]. split; [exact B|].
                intros t0 s0 [H0|H0]; [inversion H0; subst; congruence|eauto].
             ++ destruct IH as (A & t0 & s0 & B & C). split; [exact A|]. exists t0, s0. split; [right; exact B|exact C].
          -- cbn [bind]. split; [reflexivity|]. exists t, s. split; [left; reflexivity|]. split; [congruence|]. split; [|exact Ev].
             exact Esame.
      + rewrite E1, E2. specialize (IH Hl' (done ++ [(t, s)])%list st Hr Hd'). rewrite (Eapp _ (t, s) done l).
        assert (Q : forall t0 s0 p, In (t0, s0) (done ++ [(t, s)]) -> is_file h params t0 p -> sget st (canon p) = sin init v t0).
        { intros t0 s0 p H0 Hp. apply in_app_or in H0. destruct H0 as [H0|[H0|[]]]; [eapply Hdone; eassumption|].
          inversion H0; subst t0 s0. destruct Hp as (i & f & A & _). congruence. }
        specialize (IH Q). destruct (transfer canon h params unknowns l st) as [st'|e].
        * destruct IH as (A & B & C). split; [exact A|]. split; [exact B|].
          intros t0 s0 [H0|H0]; [inversion H0; subst; congruence|eauto].
        * destruct IH as (A & t0 & s0 & B & C). split; [exact A|]. exists t0, s0. split; [right; exact B|exact C].
  Qed.

  (** writing the unknowns *)
  Lemma write_spec : forall init l st v,
    NoDup (map fst l) ->
    (forall n i, In (n, i) l -> sget unknowns n = Some (VFile i) /\ hget h i <> None) ->
    forall outs, rel init v st ->
    rel init (fun u => match sget (combine (map fst l) outs) u with Some x => Some x | None => v u end)
      (write_all canon h (combine (map snd l) outs) st).
  Proof.
    intros init. induction l as [|[n i] l IH]; intros st v Hn Hd outs Hr; [exact Hr|].
    destruct outs as [|x outs]; [exact Hr|]. cbn [map fst snd combine write_all].
    inversion Hn; subst. destruct (Hd n i (or_introl eq_refl)) as [En Eh].
    destruct (hget h i) as [f|] eqn:Ef; [|congruence].
    assert (Fu : is_file h unknowns n (abspath f)) by (exists i, f; auto).
    assert (R1 : rel init (fun u => if String.eqb u n then Some x else v u) (sset st (canon (abspath f)) x)).
    { destruct Hr as [Hru Hrp].
      assert (G : forall k, sget (sset st (canon (abspath f)) x) k = if String.eqb k (canon (abspath f)) then Some x else sget st k).
      { intro k. rewrite sget_sset. destruct (String.eqb k (canon (abspath f))) eqn:Ek.
        - try (apply String.eqb_eq in Ek; subst; rewrite ?String.eqb_refl). reflexivity.
        - try (destruct (String.eqb (canon (abspath f)) k) eqn:Ek2; [apply String.eqb_eq in Ek2; subst; rewrite String.eqb_refl in Ek; discriminate|]). reflexivity. }
      split.
      - intros u p Hu. rewrite G. destruct (String.eqb (canon p) (canon (abspath f))) eqn:Ek.
        + apply String.eqb_eq in Ek. rewrite (sep_unk _ _ _ _ _ Hsep u n _ _ Hu Fu Ek), String.eqb_refl. reflexivity.
        + destruct (String.eqb u n) eqn:Eu; [|auto]. apply String.eqb_eq in Eu. subst u.
          rewrite (is_file_det h unknowns n p (abspath f) Hu Fu), String.eqb_refl in Ek. discriminate.
      - intros m p Hp Hc. rewrite G. destruct (String.eqb (canon p) (canon (abspath f))) eqn:Ek; [|auto].
        apply String.eqb_eq in Ek. destruct (sep_mix _ _ _ _ _ Hsep m n _ _ Hp Fu Ek) as [H _]. congruence. }
    specialize (IH (sset st (canon (abspath f)) x) _ H2 (fun n0 i0 H0 => Hd n0 i0 (or_intror H0)) outs R1).
    destruct IH as [A B]. split; [|exact B]. intros u p Hu. rewrite (A u p Hu). unfold sget at 2. cbn [dget].
    fold (@sget string). destruct (String.eqb u n) eqn:Eu; [|reflexivity].
    apply String.eqb_eq in Eu. subst u. destruct (sget (combine (map fst l) outs) n) as [y|] eqn:Ey; [|reflexivity].
    exfalso. apply H1. apply sget_In in Ey. apply in_combine_l in Ey. exact Ey.
  Qed.

  Lemma spec_step_eq : forall v w c outs, (forall u, v u = w u) -> forall u, spec_step v c outs u = spec_step w c outs u.
  Proof. intros v w c outs H u. unfold spec_step. destruct (sget _ u); auto. Qed.

  Lemma run_spec : forall init cs st v, Forall (declared params unknowns) cs -> heap_ok h unknowns -> heap_ok h params ->
    rel init v st ->
    match run canon beh h params unknowns conns cs st, spec_run beh h params unknowns conns init cs v with
    | Ok (st', log), Some (v', log') => rel init v' st' /\ log = log'
    | Err e, None => e = OSError
    | _, _ => False
    end.
  Proof.
    intros init. induction cs as [|c cs IH]; intros st v Hc Hu Hp Hr; cbn [run spec_run]; [auto|].
    inversion Hc; subst. destruct H1 as (Dn & Du & Dp).
    unfold run_comp.
    set (l := filter (fun x => existsb (String.eqb (fst x)) (map fst (c_par c))) conns).
    assert (Hl : incl l conns). { intros x Hx. apply filter_In in Hx. tauto. }
    pose proof (transfer_spec init v l Hl [] st Hr (incl_nil_l _)) as HT.
    specialize (HT (fun t s p (H : In (t, s) []) => match H with end)).
    assert (Inl : forall t s, In (t, s) l <-> In (t, s) conns /\ existsb (String.eqb t) (map fst (c_par c)) = true).
    { intros t s. unfold l. rewrite filter_In. cbn. tauto. }
    assert (NotO : forall t, existsb (String.eqb t) (map fst (c_par c)) = true -> sget params t <> Some VOther).
    { intros t Ht. apply existsb_exists in Ht. destruct Ht as (x & Hx & Ex). apply String.eqb_eq in Ex. subst x.
      apply in_map_iff in Hx. destruct Hx as ([n i] & <- & Hx). cbn. rewrite (Dp _ _ Hx). discriminate. }
    destruct (transfer canon h params unknowns l st) as [st1|e].
    - destruct HT as (R1 & B & C). cbn [bind app] in *.
      assert (Eb : blocked h params unknowns conns v c = false).
      { unfold blocked. destruct (existsb _ conns) eqn:E; [|reflexivity]. exfalso.
        apply existsb_exists in E. destruct E as ([t s] & Hin & E). cbn [fst snd] in E.
        apply andb_prop in E. destruct E as [E Ev]. apply andb_prop in E. destruct E as [Em Esp].
        apply (C t s); [apply Inl; auto|apply NotO; exact Em|destruct (same_path h params unknowns t s); [discriminate|reflexivity]|].
        destruct (v s); [discriminate|reflexivity]. }
      rewrite Eb.
      assert (Eins : map (read canon h st1) (map snd (c_par c)) = map (spec_in h params unknowns conns init v) (map fst (c_par c))).
      { rewrite !map_map. apply map_ext_in. intros [n i] Hin. cbn.
        pose proof (Dp _ _ Hin) as En. unfold read.
        destruct (hget h i) as [f|] eqn:Ef; [|exfalso; eapply Hp; [apply sget_In; exact En|exact Ef]].
        assert (Fp : is_file h params n (abspath f)) by (exists i, f; auto).
        destruct (sget conns n) as [s|] eqn:Es.
        - apply (B n s); [|exact Fp]. apply Inl. split; [apply sget_In; exact Es|].
          apply existsb_exists. exists n. split; [apply in_map_iff; exists (n, i); auto|apply String.eqb_refl].
        - unfold spec_in. rewrite Es. apply R1; assumption. }
      rewrite Eins. set (ins := map (spec_in h params unknowns conns init v) (map fst (c_par c))).
      assert (R2 : rel init (spec_step v c (beh (c_name c) ins)) (write_all canon h (combine (map snd (c_unk c)) (beh (c_name c) ins)) st1)).
      { apply (write_spec init (c_unk c) st1 v Dn); [|exact R1]. intros n i Hin. split; [auto|].
        intro Hf. eapply Hu; [apply sget_In; apply Du; exact Hin|exact Hf]. }
      specialize (IH _ _ H2 Hu Hp R2).
      destruct (run canon beh h params unknowns conns cs _) as [[st2 log]|e];
        destruct (spec_run beh h params unknowns conns init cs (spec_step v c (beh (c_name c) ins))) as [[v' log']|]; cbn [bind]; auto.
      destruct IH as [A ->]. auto.
    - destruct HT as (-> & t & s & Hin & Ho & Hsp & Ev). cbn [bind].
      assert (Eb : blocked h params unknowns conns v c = true).
      { unfold blocked. apply existsb_exists. exists (t, s). apply Inl in Hin. destruct Hin as [H1 H3]. split; [exact H1|].
        cbn [fst snd]. rewrite H3, Hsp, Ev. reflexivity. }
      rewrite Eb. reflexivity.
  Qed.
End Run.

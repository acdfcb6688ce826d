(** Lemmas for C104. *)
From Verif Require Import Base BaseFacts UnitsModel UnitsSpec UnitsProofs SmModel SmSpec.
From Coq Require Import Permutation.
Local Open Scope string_scope.

Lemma sset_same : forall {V} (d : list (string * V)) k v, sget d k = Some v -> sset d k v = d.
Proof.
  induction d as [|[k' v'] d IH]; intros k v H; cbn in *; [discriminate|].
  destruct (String.eqb k k') eqn:E.
  - congruence.
  - f_equal. apply IH. exact H.
Qed.

Lemma sset_keys : forall {V} (d : list (string * V)) k v w, sget d k = Some w -> dkeys (sset d k v) = dkeys d.
Proof.
  induction d as [|[k' v'] d IH]; intros k v w H; cbn in *; [discriminate|].
  destruct (String.eqb k k') eqn:E; cbn; [reflexivity|].
  f_equal. eapply IH. exact H.
Qed.

Lemma sget_sset_ne : forall {V} (d : list (string * V)) k k' v, k <> k' -> sget (sset d k' v) k = sget d k.
Proof.
  intros V d k k' v H. rewrite sget_sset.
  destruct (String.eqb k k') eqn:E; [apply String.eqb_eq in E; congruence|].
  destruct (String.eqb k' k) eqn:E'; [apply String.eqb_eq in E'; congruence|]. reflexivity.
Qed.

Lemma sget_sset_eq : forall {V} (d : list (string * V)) k v, sget (sset d k v) k = Some v.
Proof. intros. rewrite sget_sset, String.eqb_refl. reflexivity. Qed.

(** ** A loop that updates one entry after the other *)
Section Upd.
  Context {V C : Type} (key : C -> string) (f : C -> V -> res (V * bool)).

  Fixpoint upd_all (ps : list (string * V)) (cs : list C) : res (list (string * V) * list C) :=
    match cs with
    | [] => Ok (ps, [])
    | c :: rest =>
        match sget ps (key c) with
        | None => Err KeyError
        | Some t => let! (t', bad) := f c t in
                    let! (ps', errs) := upd_all (sset ps (key c) t') rest in
                    Ok (ps', if bad then c :: errs else errs)
        end
    end.

  Lemma upd_fwd : forall cs ps ps' errs,
    NoDup (map key cs) -> upd_all ps cs = Ok (ps', errs) ->
    dkeys ps' = dkeys ps /\
    (forall n, ~ In n (map key cs) -> sget ps' n = sget ps n) /\
    (forall c, In c cs -> exists t t' b, sget ps (key c) = Some t /\ f c t = Ok (t', b) /\
       sget ps' (key c) = Some t' /\ (In c errs <-> b = true)) /\
    NoDup errs /\ (forall c, In c errs -> In c cs).
  Proof.
    induction cs as [|c cs IH]; intros ps ps' errs Hn H; cbn in H.
    - injection H as <- <-. repeat split; try (intros ? []); auto. constructor.
    - destruct (sget ps (key c)) as [t|] eqn:Et; [|discriminate].
      destruct (f c t) as [[t' b]|] eqn:Ef; cbn [bind] in H; [|discriminate].
      destruct (upd_all (sset ps (key c) t') cs) as [[ps1 e1]|] eqn:Eu; cbn [bind] in H; [|discriminate].
      injection H as <- <-. cbn in Hn. inversion Hn as [|? ? Hnin Hnd]; subst.
      destruct (IH _ _ _ Hnd Eu) as (Hk & Ho & Hc & Hnde & Hsub).
      assert (Hcn : ~ In c e1).
      { intro Hin. apply Hnin. apply in_map. apply Hsub. exact Hin. }
      split; [rewrite Hk; eapply sset_keys; exact Et|].
      split; [|split; [|split]].
      + intros n Hni. cbn in Hni. rewrite Ho by tauto. apply sget_sset_ne. intro; subst; tauto.
      + intros d [<-|Hin].
        * exists t, t', b. split; [exact Et|]. split; [exact Ef|].
          split; [rewrite Ho by exact Hnin; apply sget_sset_eq|].
          destruct b; cbn; split; intro Hx; auto; try tauto; discriminate.
        * destruct (Hc d Hin) as (s & s' & b' & H1 & H2 & H3 & H4).
          exists s, s', b'. assert (Hne : key d <> key c).
          { intro E. apply Hnin. rewrite <- E. apply in_map. exact Hin. }
          rewrite sget_sset_ne in H1 by exact Hne. split; [exact H1|]. split; [exact H2|]. split; [exact H3|].
          rewrite <- H4. destruct b; [|tauto]. cbn. split; [|tauto]. intros [->|Hx]; [congruence|exact Hx].
      + destruct b; [constructor; assumption|assumption].
      + intros d Hin. destruct b; [destruct Hin as [->|Hin]; [left; reflexivity|]|]; right; apply Hsub; exact Hin.
  Qed.

  Lemma upd_ok : forall cs ps,
    NoDup (map key cs) ->
    (forall c, In c cs -> exists t r, sget ps (key c) = Some t /\ f c t = Ok r) ->
    exists r, upd_all ps cs = Ok r.
  Proof.
    induction cs as [|c cs IH]; intros ps Hn H; cbn.
    - eexists; reflexivity.
    - destruct (H c (or_introl eq_refl)) as (t & [t' b] & Et & Ef). rewrite Et, Ef. cbn [bind].
      inversion Hn as [|? ? Hnin Hnd]; subst.
      destruct (IH (sset ps (key c) t') Hnd) as [[ps1 e1] E1].
      + intros d Hin. destruct (H d (or_intror Hin)) as (s & r & Es & Er). exists s, r. split; [|exact Er].
        rewrite sget_sset_ne; [exact Es|]. intro E. apply Hnin. rewrite <- E. apply in_map. exact Hin.
      + rewrite E1. cbn [bind]. eexists; reflexivity.
  Qed.

  (** the entries are fixed points: nothing changes *)
  Lemma upd_fix : forall cs ps (bs : C -> bool),
    (forall c, In c cs -> exists t, sget ps (key c) = Some t /\ f c t = Ok (t, bs c)) ->
    upd_all ps cs = Ok (ps, filter bs cs).
  Proof.
    induction cs as [|c cs IH]; intros ps bs H; cbn; [reflexivity|].
    destruct (H c (or_introl eq_refl)) as (t & Et & Ef). rewrite Et, Ef. cbn [bind].
    rewrite sset_same by exact Et. rewrite (IH ps bs) by (intros d Hd; apply H; right; exact Hd).
    cbn [bind]. destruct (bs c); reflexivity.
  Qed.

  Lemma upd_errs : forall cs ps ps' errs (bs : C -> bool),
    NoDup (map key cs) -> upd_all ps cs = Ok (ps', errs) ->
    (forall c t t' b, In c cs -> sget ps (key c) = Some t -> f c t = Ok (t', b) -> b = bs c) ->
    errs = filter bs cs.
  Proof.
    induction cs as [|c cs IH]; intros ps ps' errs bs Hn H Hb; cbn in H.
    - injection H as <- <-. reflexivity.
    - destruct (sget ps (key c)) as [t|] eqn:Et; [|discriminate].
      destruct (f c t) as [[t' b]|] eqn:Ef; cbn [bind] in H; [|discriminate].
      destruct (upd_all (sset ps (key c) t') cs) as [[ps1 e1]|] eqn:Eu; cbn [bind] in H; [|discriminate].
      injection H as <- <-. inversion Hn as [|? ? Hnin Hnd]; subst. cbn.
      rewrite <- (Hb c t t' b (or_introl eq_refl) Et Ef).
      rewrite <- (IH _ _ _ bs Hnd Eu).
      + reflexivity.
      + intros d s s' b' Hin Es Er. eapply Hb; [right; exact Hin| |exact Er].
        rewrite sget_sset_ne in Es; [exact Es|]. intro E. apply Hnin. rewrite <- E. apply in_map. exact Hin.
  Qed.
End Upd.

(** ** The two loops *)
Section Sm.
  Variable find_unit : string -> res punit.
  Variable us : list (string * umeta).

  Definition ckey (c : string * (string * option (list nat))) : string := fst c.

  (** one connection in the first loop *)
  Definition link_f (c : string * (string * option (list nat))) (t : pmeta) : res (pmeta * bool) :=
    if pm_pbo t then Ok (t, false)
    else let! t' := link_meta us t (fst (snd c)) (snd (snd c)) in Ok (t', false).

  Definition unit_f (c : string * (string * option (list nat))) (t : pmeta) : res (pmeta * bool) :=
    match sget us (fst (snd c)) with
    | Some u => unit_meta find_unit t u
    | None => Err KeyError
    end.

  Lemma link_all_upd : forall cs ps,
    link_all ps us cs = (let! (ps', _) := upd_all ckey link_f ps cs in Ok ps').
  Proof.
    induction cs as [|[tgt [src idxs]] cs IH]; intro ps; cbn; [reflexivity|].
    destruct (sget ps tgt) as [t|] eqn:Et; [|reflexivity].
    unfold link_f at 1. cbn. destruct (pm_pbo t).
    - cbn [bind]. rewrite sset_same by exact Et. rewrite IH.
      destruct (upd_all ckey link_f ps cs) as [[p e]|]; reflexivity.
    - destruct (link_meta us t src idxs) as [t'|]; cbn [bind]; [|reflexivity].
      rewrite IH. destruct (upd_all ckey link_f (sset ps tgt t') cs) as [[p e]|]; reflexivity.
  Qed.

  Definition cpair (c : string * (string * option (list nat))) : string * string := (fst c, fst (snd c)).

  Lemma units_all_upd : forall cs ps,
    units_all find_unit ps us cs =
    (let! (ps', errs) := upd_all ckey unit_f ps cs in Ok (ps', map cpair errs)).
  Proof.
    induction cs as [|[tgt [src idxs]] cs IH]; intro ps; cbn; [reflexivity|].
    destruct (sget ps tgt) as [t|] eqn:Et; [|reflexivity].
    unfold unit_f at 1. cbn. destruct (sget us src) as [u|]; [|reflexivity].
    destruct (unit_meta find_unit t u) as [[t' b]|]; cbn [bind]; [|reflexivity].
    rewrite IH. destruct (upd_all ckey unit_f (sset ps tgt t') cs) as [[p e]|]; cbn [bind]; [|reflexivity].
    destruct b; reflexivity.
  Qed.

  (** *** one connection in the second loop *)
  Lemma unit_meta_fields : forall t u t' b, unit_meta find_unit t u = Ok (t', b) ->
    pm_units t' = pm_units t /\ pm_pbo t' = pm_pbo t /\ pm_shape t' = pm_shape t /\ pm_size t' = pm_size t /\
    pm_val t' = pm_val t /\ pm_src t' = pm_src t /\
    (unit_meta find_unit t' u = Ok (t', b)) /\
    (b = true <-> incompatible find_unit t u).
  Proof.
    intros t u t' b H. unfold unit_meta in H. unfold incompatible.
    destruct (pm_units t) as [tu|] eqn:Etu.
    2:{ injection H as <- <-. repeat split; auto; [|discriminate|intros (?&?&?&?&?&_); discriminate].
        unfold unit_meta. rewrite Etu. reflexivity. }
    destruct (um_units u) as [su|] eqn:Esu.
    2:{ injection H as <- <-. repeat split; auto; [|discriminate|intros (?&?&?&?&_&?&_); discriminate].
        unfold unit_meta. rewrite Etu, Esu. reflexivity. }
    unfold find_both in H. destruct (find_unit su) as [w|] eqn:Ew; cbn [bind] in H; [|discriminate].
    destruct (find_unit tu) as [v|] eqn:Ev; cbn [bind] in H; [|discriminate].
    assert (Hinc : (zlist_eqb (powers w) (powers v) = false) <->
      (exists tu0 su0 v0 w0, Some tu = Some tu0 /\ Some su = Some su0 /\ find_unit tu0 = Ok v0 /\
        find_unit su0 = Ok w0 /\ ~ same_dim w0 v0)).
    { rewrite zlist_eqb_false. split.
      - intro Hne. exists tu, su, v, w. auto.
      - intros (? & ? & ? & ? & E1 & E2 & E3 & E4 & E5). injection E1 as <-. injection E2 as <-.
        rewrite Ev in E3. rewrite Ew in E4. injection E3 as <-. injection E4 as <-. exact E5. }
    rewrite <- Hinc. clear Hinc.
    destruct (conversion_tuple_to w v) as [[sc o]|e] eqn:Ec.
    - assert (Hz : zlist_eqb (powers w) (powers v) = true).
      { unfold conversion_tuple_to in Ec. destruct (zlist_eqb (powers w) (powers v)); [reflexivity|discriminate]. }
      rewrite Hz.
      destruct (negb (Qeq_bool sc 1) || negb (Qeq_bool o 0))%bool eqn:Eb; injection H as <- <-; cbn;
        (repeat split; auto; try discriminate);
        unfold unit_meta; cbn; rewrite ?Etu, Esu; unfold find_both; rewrite Ew, Ev; cbn [bind]; rewrite Ec, Eb; reflexivity.
    - assert (He : e = TypeError /\ t' = t /\ b = true).
      { destruct e; try discriminate H; injection H as <- <-; auto. }
      destruct He as (-> & -> & ->).
      assert (Hz : zlist_eqb (powers w) (powers v) = false).
      { unfold conversion_tuple_to in Ec. destruct (zlist_eqb (powers w) (powers v)); [|reflexivity].
        cbn in Ec. destruct (Qeq_bool (factor v) 0); [discriminate|].
        destruct (Qeq_bool (factor w) 0); discriminate. }
      rewrite Hz. repeat split; auto.
      unfold unit_meta; rewrite Etu, Esu; unfold find_both; rewrite Ew, Ev; cbn [bind]; rewrite Ec; reflexivity.
  Qed.

  Lemma unit_meta_known : forall t u, known find_unit (pm_units t) -> known find_unit (um_units u) ->
    exists r, unit_meta find_unit t u = Ok r.
  Proof.
    intros t u Ht Hu. unfold unit_meta. destruct (pm_units t) as [tu|]; [|eexists; reflexivity].
    destruct (um_units u) as [su|]; [|eexists; reflexivity].
    destruct Ht as (v & Ev & Hv). destruct Hu as (w & Ew & Hw). unfold find_both. rewrite Ew, Ev. cbn [bind].
    unfold conversion_tuple_to. destruct (zlist_eqb (powers w) (powers v)); cbn; [|eexists; reflexivity].
    unfold scaled in *. apply Qeq_bool_false in Hv. apply Qeq_bool_false in Hw. rewrite Hv, Hw.
    match goal with |- exists r, (if ?b then _ else _) = _ => destruct b end; eexists; reflexivity.
  Qed.

  Lemma unit_meta_reads : forall t u t' b, pm_conv t = None -> unit_meta find_unit t u = Ok (t', b) ->
    b = false -> reads_source find_unit t u (read_param t').
  Proof.
    intros t u t' b Hf H Hb. subst b. unfold unit_meta in H. unfold reads_source.
    destruct (pm_units t) as [tu|] eqn:Etu.
    2:{ injection H as <-. unfold read_param. rewrite Hf. reflexivity. }
    destruct (um_units u) as [su|] eqn:Esu.
    2:{ injection H as <-. unfold read_param. rewrite Hf. reflexivity. }
    intros v w x Ev Ew Hv Hw Hd. unfold find_both in H. rewrite Ew, Ev in H. cbn [bind] in H.
    destruct (conversion_tuple_to w v) as [[sc o]|e] eqn:Ec.
    2:{ destruct e; discriminate H. }
    pose proof (param_conversion_preserves w v x (sc, o)) as P.
    destruct (negb (Qeq_bool sc 1) || negb (Qeq_bool o 0))%bool eqn:Eb; injection H as <-; unfold read_param; cbn.
    - apply P; assumption.
    - rewrite Hf. apply Bool.orb_false_iff in Eb. destruct Eb as [E1 E2].
      apply Bool.negb_false_iff in E1. apply Bool.negb_false_iff in E2.
      apply Qeq_bool_iff in E1. apply Qeq_bool_iff in E2.
      assert (Hp : (to_base v (get_param_units (sc, o) x) == to_base w x)%Q) by (apply P; assumption).
      rewrite <- Hp. unfold get_param_units, to_base. cbn. rewrite E1, E2. ring.
  Qed.

  (** *** one connection in the first loop *)
  Lemma link_f_fields : forall c t t' b, link_f c t = Ok (t', b) ->
    b = false /\ pm_units t' = pm_units t /\ pm_pbo t' = pm_pbo t /\ pm_conv t' = pm_conv t /\
    link_f c t' = Ok (t', false).
  Proof.
    intros [tgt [src idxs]] t t' b H. unfold link_f in *. cbn [fst snd] in *.
    destruct (pm_pbo t) eqn:Ep; [injection H as <- <-; rewrite Ep; auto|].
    destruct (link_meta us t src idxs) as [t1|] eqn:El; cbn [bind] in H; [|discriminate]. injection H as <- <-.
    unfold link_meta in El.
    destruct (pm_shape t) eqn:Esh; cbn [bind] in El.
    - destruct (sget us src) as [u|] eqn:Eu; cbn [bind] in El; [|discriminate].
      destruct idxs as [l|]; cbn [bind] in El.
      + destruct (index_val u l) as [v|] eqn:Ei; cbn [bind] in El; [|discriminate].
        injection El as <-. cbn. rewrite Ep. cbn. repeat split; auto.
      + injection El as <-. cbn. rewrite Ep. unfold link_meta. cbn.
        destruct (um_shape u) eqn:Ush; cbn [bind]; rewrite ?Eu; cbn [bind]; rewrite ?Ush; repeat split; auto.
    - destruct idxs as [l|]; injection El as <-; cbn; rewrite ?Ep; unfold link_meta; cbn; rewrite Esh; cbn; auto.
    - destruct idxs as [l|]; injection El as <-; cbn; rewrite ?Ep; unfold link_meta; cbn; rewrite Esh; cbn; auto.
  Qed.

  (** the second loop leaves what the first one reads and writes *)
  Lemma link_f_ext : forall c t t' t2, link_f c t = Ok (t', false) ->
    pm_units t2 = pm_units t' -> pm_pbo t2 = pm_pbo t' -> pm_shape t2 = pm_shape t' -> pm_size t2 = pm_size t' ->
    pm_val t2 = pm_val t' -> pm_src t2 = pm_src t' ->
    link_f c t2 = Ok (t2, false).
  Proof.
    intros c t t' t2 H E1 E2 E3 E4 E5 E6.
    destruct (link_f_fields _ _ _ _ H) as (_ & _ & _ & _ & Hfix).
    destruct c as [tgt [src idxs]]. unfold link_f in *. cbn [fst snd] in *. rewrite E2.
    destruct (pm_pbo t') eqn:Ep; [reflexivity|].
    destruct (link_meta us t' src idxs) as [t1|] eqn:El; cbn [bind] in Hfix; [|discriminate].
    injection Hfix as ->.
    destruct t2 as [a2 b2 c2 d2 e2 f2 g2], t' as [a b c d e f g]; cbn in *. subst.
    unfold link_meta in *; cbn in *.
    destruct c; cbn [bind] in *.
    - destruct (sget us src) as [u|]; cbn [bind] in *; [|discriminate].
      destruct idxs as [l|]; cbn [bind] in *.
      + destruct (index_val u l); cbn [bind] in *; [|discriminate]. injection El as E1 E3 E4. discriminate.
      + injection El as E1 E3 E4. rewrite E1, E3, E4. reflexivity.
    - destruct idxs as [l|]; [|reflexivity]. injection El as ->. reflexivity.
    - destruct idxs as [l|]; [|reflexivity]. injection El as ->. reflexivity.
  Qed.

  Lemma take_rows_ok : forall w vals n idxs, Forall (fun i => (i < n)%nat) idxs ->
    exists l, take_rows w vals n idxs = Ok l.
  Proof.
    induction idxs as [|i idxs IH]; intro H; cbn [take_rows]; [eexists; reflexivity|].
    inversion H; subst. destruct (IH H3) as [l E]. destruct (i <? n)%nat eqn:Ei; [|apply Nat.ltb_ge in Ei; lia].
    rewrite E. cbn [bind]. eexists; reflexivity.
  Qed.

  Lemma take_rows_flat : forall vals n idxs l, length vals = n ->
    take_rows 1 vals n idxs = Ok l -> l = map (fun i => nth i vals 0%Q) idxs.
  Proof.
    induction idxs as [|i idxs IH]; intros l Hn H; cbn [take_rows] in H; [injection H as <-; reflexivity|].
    destruct (i <? n)%nat eqn:Ei; [|discriminate]. apply Nat.ltb_lt in Ei.
    destruct (take_rows 1 vals n idxs) as [m|] eqn:E; cbn [bind] in H; [|discriminate].
    assert (Hl : l = (firstn 1 (skipn (i * 1) vals) ++ m)%list) by congruence. rewrite Hl.
    cbn [map]. rewrite <- (IH m Hn eq_refl). rewrite Nat.mul_1_r.
    assert (Hs : forall k (vs : list Q), (k < length vs)%nat -> firstn 1 (skipn k vs) = [nth k vs 0%Q]).
    { induction k as [|k IHk]; intros [|v vs] Hk; cbn in Hk; try lia; [reflexivity|].
      apply (IHk vs). lia. }
    rewrite Hs by lia. reflexivity.
  Qed.

  (** what the first loop does to a param *)
  Lemma link_f_spec : forall c t t' u, link_f c t = Ok (t', false) -> sget us (fst (snd c)) = Some u ->
    pm_shape t' = right_shape t u (snd (snd c)) /\
    (pm_pbo t = false -> pm_src t' = match snd (snd c) with Some l => Some l | None => pm_src t end) /\
    (pm_pbo t = true -> t' = t) /\
    (pm_shape t <> ShEmpty -> pm_size t' = pm_size t /\ pm_val t' = pm_val t) /\
    (pm_pbo t = false -> pm_shape t = ShEmpty ->
      match snd (snd c) with
      | None => pm_size t' = um_size u /\ pm_val t' = um_val u
      | Some l => pm_size t' = length l /\
          forall n, um_shape u = ShTuple n [] -> length (um_val u) = n ->
            pm_val t' = map (fun i => nth i (um_val u) 0%Q) l
      end).
  Proof.
    intros [tgt [src idxs]] t t' u H Hu. unfold link_f in H. cbn [fst snd] in *. unfold right_shape.
    destruct (pm_pbo t) eqn:Ep.
    { injection H as <-. repeat split; auto; discriminate. }
    destruct (link_meta us t src idxs) as [t1|] eqn:El; cbn [bind] in H; [|discriminate]. injection H as <-.
    unfold link_meta in El. rewrite Hu in El.
    destruct (pm_shape t) eqn:Esh; cbn [bind] in El.
    - destruct idxs as [l|]; cbn [bind] in El.
      + destruct (index_val u l) as [v|] eqn:Ei; cbn [bind] in El; [|discriminate].
        injection El as <-. cbn. split; [reflexivity|]. split; [reflexivity|]. split; [discriminate|].
        split; [congruence|]. intros _ _. split; [reflexivity|]. intros n Hs Hl.
        unfold index_val in Ei. rewrite Hs in Ei. cbn [prod] in Ei. eapply take_rows_flat; [|exact Ei]. exact Hl.
      + injection El as <-. cbn. repeat split; auto; try discriminate; congruence.
    - destruct idxs as [l|]; injection El as <-; cbn; repeat split; auto; try discriminate; congruence.
    - destruct idxs as [l|]; injection El as <-; cbn; repeat split; auto; try discriminate; congruence.
  Qed.

  Lemma link_f_sound : forall c t u, sget us (fst (snd c)) = Some u ->
    (pm_pbo t = false -> pm_shape t = ShEmpty ->
     match snd (snd c) with
     | None => True
     | Some l => exists n rest, um_shape u = ShTuple n rest /\ Forall (fun i => (i < n)%nat) l
     end) ->
    exists t', link_f c t = Ok (t', false).
  Proof.
    intros [tgt [src idxs]] t u Hu H. cbn [fst snd] in *. unfold link_f. cbn [fst snd].
    destruct (pm_pbo t); [eexists; reflexivity|]. unfold link_meta. rewrite Hu.
    destruct (pm_shape t); cbn [bind]; try (eexists; reflexivity).
    destruct idxs as [l|]; cbn [bind]; [|eexists; reflexivity].
    destruct (H eq_refl eq_refl) as (n & rest & Hs & Hf). unfold index_val. rewrite Hs.
    destruct (take_rows_ok (prod rest) (um_val u) n l Hf) as [v ->]. cbn [bind]. eexists; reflexivity.
  Qed.

  (** *** both loops *)
  Lemma setup_inv : forall cs ps ps' errs, NoDup (map fst cs) ->
    setup_meta find_unit us cs ps = Ok (ps', errs) ->
    exists ps1 e1, upd_all ckey link_f ps cs = Ok (ps1, e1) /\
      exists e2, upd_all ckey unit_f ps1 cs = Ok (ps', e2) /\ errs = map cpair e2.
  Proof.
    intros cs ps ps' errs Hn H. unfold setup_meta in H. rewrite link_all_upd in H.
    destruct (upd_all ckey link_f ps cs) as [[ps1 e1]|] eqn:E1; cbn [bind] in H; [|discriminate].
    exists ps1, e1. split; [reflexivity|]. rewrite units_all_upd in H.
    destruct (upd_all ckey unit_f ps1 cs) as [[ps2 e2]|] eqn:E2; cbn [bind] in H; [|discriminate].
    injection H as <- <-. exists e2. auto.
  Qed.

  (** each param on its own *)
  Lemma setup_point : forall cs ps ps' errs, NoDup (map fst cs) ->
    setup_meta find_unit us cs ps = Ok (ps', errs) ->
    dkeys ps' = dkeys ps /\ (forall n, ~ In n (map fst cs) -> sget ps' n = sget ps n) /\
    (forall c, In c cs -> exists t t1 t' u b, sget ps (fst c) = Some t /\ sget us (fst (snd c)) = Some u /\
      link_f c t = Ok (t1, false) /\ unit_meta find_unit t1 u = Ok (t', b) /\ sget ps' (fst c) = Some t') .
  Proof.
    intros cs ps ps' errs Hn H. destruct (setup_inv _ _ _ _ Hn H) as (ps1 & e1 & E1 & e2 & E2 & ->).
    destruct (upd_fwd _ _ _ _ _ _ Hn E1) as (K1 & O1 & P1 & _).
    destruct (upd_fwd _ _ _ _ _ _ Hn E2) as (K2 & O2 & P2 & _).
    split; [congruence|]. split; [intros n Hni; rewrite O2, O1 by exact Hni; reflexivity|].
    intros c Hin. destruct (P1 c Hin) as (t & t1 & b & A1 & A2 & A3 & _).
    destruct (P2 c Hin) as (t2 & t' & b' & B1 & B2 & B3 & _).
    unfold ckey in *. rewrite A3 in B1. injection B1 as <-.
    destruct (link_f_fields _ _ _ _ A2) as (-> & _).
    unfold unit_f in B2. destruct (sget us (fst (snd c))) as [u|] eqn:Eu; [|discriminate].
    exists t, t1, t', u, b'. auto.
  Qed.

  (** which connections are reported *)
  Definition reported (c : string * (string * option (list nat))) (t : pmeta) : bool :=
    match unit_f c t with Ok (_, b) => b | Err _ => false end.

  Lemma reported_iff : forall c t1 t' u b, sget us (fst (snd c)) = Some u ->
    unit_meta find_unit t1 u = Ok (t', b) -> b = reported c t1.
  Proof. intros c t1 t' u b Hu H. unfold reported, unit_f. rewrite Hu, H. reflexivity. Qed.

  (** whether a connection is reported depends on the declared units only *)
  Lemma unit_meta_flag : forall t1 t2 u r1 r2 b1 b2, pm_units t1 = pm_units t2 ->
    unit_meta find_unit t1 u = Ok (r1, b1) -> unit_meta find_unit t2 u = Ok (r2, b2) -> b1 = b2.
  Proof.
    intros t1 t2 u r1 r2 b1 b2 E H1 H2.
    destruct (unit_meta_fields _ _ _ _ H1) as (_&_&_&_&_&_&_&I1).
    destruct (unit_meta_fields _ _ _ _ H2) as (_&_&_&_&_&_&_&I2).
    unfold incompatible in *. rewrite E in I1. rewrite <- I2 in I1.
    destruct b1, b2; try reflexivity; destruct I1 as [X Y]; [symmetry; auto|auto].
  Qed.

  Definition flag (ps : list (string * pmeta)) (c : string * (string * option (list nat))) : bool :=
    match sget ps (fst c) with Some t => reported c t | None => false end.

  Lemma setup_errs : forall cs ps ps' errs, NoDup (map fst cs) ->
    setup_meta find_unit us cs ps = Ok (ps', errs) -> errs = map cpair (filter (flag ps') cs).
  Proof.
    intros cs ps ps' errs Hn H.
    destruct (setup_point _ _ _ _ Hn H) as (_ & _ & P).
    destruct (setup_inv _ _ _ _ Hn H) as (ps1 & e1 & E1 & e2 & E2 & ->).
    f_equal. eapply upd_errs; [exact Hn|exact E2|].
    destruct (upd_fwd _ _ _ _ _ _ Hn E1) as (K1 & O1 & P1 & _).
    intros c t t' b Hin Ht Hf.
    destruct (P c Hin) as (s & s1 & s' & u & b' & A1 & A2 & A3 & A4 & A5).
    destruct (P1 c Hin) as (x & x1 & b1 & B1 & B2 & B3 & _). unfold ckey in *.
    rewrite A1 in B1. injection B1 as <-. rewrite A3 in B2. injection B2 as <- <-.
    rewrite Ht in B3. injection B3 as <-.
    unfold unit_f in Hf. rewrite A2 in Hf. rewrite A4 in Hf. injection Hf as <- <-.
    unfold flag. rewrite A5. unfold reported, unit_f. rewrite A2.
    destruct (unit_meta_fields _ _ _ _ A4) as (_&_&_&_&_&_&->&_). reflexivity.
  Qed.

  Lemma setup_fix : forall cs ps ps' errs, NoDup (map fst cs) ->
    setup_meta find_unit us cs ps = Ok (ps', errs) -> setup_meta find_unit us cs ps' = Ok (ps', errs).
  Proof.
    intros cs ps ps' errs Hn H. rewrite (setup_errs _ _ _ _ Hn H).
    destruct (setup_point _ _ _ _ Hn H) as (_ & _ & P).
    unfold setup_meta. rewrite link_all_upd.
    rewrite (upd_fix ckey link_f cs ps' (fun _ => false)).
    - cbn [bind]. rewrite units_all_upd. rewrite (upd_fix ckey unit_f cs ps' (flag ps')); [reflexivity|].
      intros c Hin. destruct (P c Hin) as (t & t1 & t' & u & b & A1 & A2 & A3 & A4 & A5).
      exists t'. split; [exact A5|]. unfold unit_f, flag, reported. rewrite A5. unfold unit_f. rewrite A2.
      destruct (unit_meta_fields _ _ _ _ A4) as (_&_&_&_&_&_&->&_). reflexivity.
    - intros c Hin. destruct (P c Hin) as (t & t1 & t' & u & b & A1 & A2 & A3 & A4 & A5).
      exists t'. split; [exact A5|].
      destruct (unit_meta_fields _ _ _ _ A4) as (?&?&?&?&?&?&_&_).
      eapply link_f_ext; [exact A3|assumption..].
  Qed.

  Lemma setup_ok : forall cs ps, NoDup (map fst cs) ->
    (forall c, In c cs -> exists t t1 u r, sget ps (fst c) = Some t /\ sget us (fst (snd c)) = Some u /\
      link_f c t = Ok (t1, false) /\ unit_meta find_unit t1 u = Ok r) ->
    exists r, setup_meta find_unit us cs ps = Ok r.
  Proof.
    intros cs ps Hn H. unfold setup_meta. rewrite link_all_upd.
    destruct (upd_ok ckey link_f cs ps Hn) as [[ps1 e1] E1].
    { intros c Hin. destruct (H c Hin) as (t & t1 & u & r & A & B & C & D). eauto. }
    rewrite E1. cbn [bind]. rewrite units_all_upd.
    destruct (upd_fwd _ _ _ _ _ _ Hn E1) as (K1 & O1 & P1 & _).
    destruct (upd_ok ckey unit_f cs ps1 Hn) as [[ps2 e2] E2].
    { intros c Hin. destruct (H c Hin) as (t & t1 & u & r & A & B & C & D).
      destruct (P1 c Hin) as (x & x1 & b1 & B1 & B2 & B3 & _). unfold ckey in *.
      rewrite A in B1. injection B1 as <-. rewrite C in B2. injection B2 as <- <-.
      exists t1, r. split; [exact B3|]. unfold unit_f. rewrite B. exact D. }
    rewrite E2. cbn [bind]. eexists; reflexivity.
  Qed.

  Lemma Permutation_filter : forall {A} (f : A -> bool) l l', Permutation l l' ->
    Permutation (filter f l) (filter f l').
  Proof.
    intros A f l l' H. induction H; cbn.
    - constructor.
    - destruct (f x); [constructor|]; assumption.
    - destruct (f x), (f y); try reflexivity. constructor.
    - etransitivity; eassumption.
  Qed.

  Lemma setup_perm : forall cs cs' ps ps' errs, NoDup (map fst cs) -> Permutation cs cs' ->
    setup_meta find_unit us cs ps = Ok (ps', errs) ->
    exists ps2 errs2, setup_meta find_unit us cs' ps = Ok (ps2, errs2) /\
      (forall n, sget ps2 n = sget ps' n) /\ Permutation errs errs2.
  Proof.
    intros cs cs' ps ps' errs Hn Hp H.
    assert (Hn' : NoDup (map fst cs')) by (eapply Permutation_NoDup; [apply Permutation_map; exact Hp|exact Hn]).
    destruct (setup_point _ _ _ _ Hn H) as (_ & O & P).
    destruct (setup_ok cs' ps Hn') as [[ps2 e2] E2].
    { intros c Hin. apply (Permutation_in c (Permutation_sym Hp)) in Hin.
      destruct (P c Hin) as (t & t1 & t' & u & b & A1 & A2 & A3 & A4 & A5).
      exists t, t1, u, (t', b). auto. }
    exists ps2, e2. split; [exact E2|].
    destruct (setup_point _ _ _ _ Hn' E2) as (_ & O2 & P2).
    assert (Heq : forall n, sget ps2 n = sget ps' n).
    { intro n. destruct (in_dec String.string_dec n (map fst cs)) as [Hin|Hni].
      - apply in_map_iff in Hin. destruct Hin as (c & <- & Hin).
        destruct (P c Hin) as (t & t1 & t' & u & b & A1 & A2 & A3 & A4 & A5).
        apply (Permutation_in c Hp) in Hin.
        destruct (P2 c Hin) as (t2 & t12 & t'2 & u2 & b2 & B1 & B2 & B3 & B4 & B5).
        rewrite A1 in B1. injection B1 as <-. rewrite A2 in B2. injection B2 as <-.
        rewrite A3 in B3. injection B3 as <-. rewrite A4 in B4. injection B4 as <- <-. congruence.
      - rewrite O by exact Hni. apply O2. intro Hin. apply Hni.
        eapply Permutation_in; [apply Permutation_map; apply Permutation_sym; exact Hp|exact Hin]. }
    split; [exact Heq|].
    rewrite (setup_errs _ _ _ _ Hn H), (setup_errs _ _ _ _ Hn' E2).
    rewrite (filter_ext (flag ps2) (flag ps')).
    - apply Permutation_map. apply Permutation_filter. exact Hp.
    - intro c. unfold flag. rewrite Heq. reflexivity.
  Qed.
End Sm.

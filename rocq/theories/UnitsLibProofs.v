(** Lemmas about unit lookup (C08), library loading (C07) and reduction to
    base units (C06). *)
From Verif Require Import Base BaseFacts UnitsModel UnitsSpec UnitsProofs.
From Coq Require Import Permutation.
Open Scope Q_scope.

Definition Ext (t t' : table) : Prop := forall n u, sget t n = Some u -> sget t' n = Some u.

Lemma Ext_refl : forall t, Ext t t.
Proof. intros t n u H; exact H. Qed.
Lemma Ext_trans : forall a b c, Ext a b -> Ext b c -> Ext a c.
Proof. intros a b c H1 H2 n u H; apply H2, H1, H. Qed.
Lemma Ext_sset : forall t n u, sget t n = None -> Ext t (sset t n u).
Proof.
  intros t n u Hn m v Hm. rewrite sget_sset. destruct (String.eqb m n) eqn:E; [|exact Hm].
  apply String.eqb_eq in E; subst. congruence.
Qed.

Lemma ueval_mono : forall t t' e v, Ext t t' -> ueval t e = Ok v -> ueval t' e = Ok v.
Proof.
  intros t t' e v Hx. revert v.
  induction e as [n|x|a IHa b IHb|a IHa b IHb|a IHa n]; simpl; intros v H.
  - destruct (sget t n) as [u|] eqn:E; [|discriminate]. rewrite (Hx _ _ E). exact H.
  - exact H.
  - destruct (ueval t a) as [va|]; simpl in H; [|discriminate].
    destruct (ueval t b) as [vb|]; simpl in H; [|discriminate].
    rewrite (IHa _ eq_refl), (IHb _ eq_refl). exact H.
  - destruct (ueval t a) as [va|]; simpl in H; [|discriminate].
    destruct (ueval t b) as [vb|]; simpl in H; [|discriminate].
    rewrite (IHa _ eq_refl), (IHb _ eq_refl). exact H.
  - destruct (ueval t a) as [va|]; simpl in H; [|discriminate].
    rewrite (IHa _ eq_refl). exact H.
Qed.

Lemma ueval_err_mono : forall t t' e er,
    Ext t t' -> ueval t e = Err er -> er <> NameError -> ueval t' e = Err er.
Proof.
  intros t t' e er Hx. revert er.
  induction e as [n|x|a IHa b IHb|a IHa b IHb|a IHa n]; simpl; intros er H Hne.
  - destruct (sget t n) as [u|] eqn:E; [discriminate|]. congruence.
  - discriminate.
  - destruct (ueval t a) as [va|ea] eqn:Ea; simpl in H.
    + rewrite (ueval_mono _ _ _ _ Hx Ea). simpl.
      destruct (ueval t b) as [vb|eb] eqn:Eb; simpl in H.
      * rewrite (ueval_mono _ _ _ _ Hx Eb). exact H.
      * injection H as <-. rewrite (IHb _ eq_refl Hne). reflexivity.
    + injection H as <-. rewrite (IHa _ eq_refl Hne). reflexivity.
  - destruct (ueval t a) as [va|ea] eqn:Ea; simpl in H.
    + rewrite (ueval_mono _ _ _ _ Hx Ea). simpl.
      destruct (ueval t b) as [vb|eb] eqn:Eb; simpl in H.
      * rewrite (ueval_mono _ _ _ _ Hx Eb). exact H.
      * injection H as <-. rewrite (IHb _ eq_refl Hne). reflexivity.
    + injection H as <-. rewrite (IHa _ eq_refl Hne). reflexivity.
  - destruct (ueval t a) as [va|ea] eqn:Ea; simpl in H.
    + rewrite (ueval_mono _ _ _ _ Hx Ea). exact H.
    + injection H as <-. rewrite (IHa _ eq_refl Hne). reflexivity.
Qed.

(** evaluation depends only on the names that occur *)
Lemma ueval_names : forall t t' e,
    (forall n, In n (unames e) -> sget t n = sget t' n) -> ueval t e = ueval t' e.
Proof.
  intros t t'. induction e as [n|x|a IHa b IHb|a IHa b IHb|a IHa n]; simpl; intros H.
  - rewrite (H n) by (left; reflexivity). reflexivity.
  - reflexivity.
  - rewrite IHa, IHb by (intros n Hn; apply H, in_or_app; auto). reflexivity.
  - rewrite IHa, IHb by (intros n Hn; apply H, in_or_app; auto). reflexivity.
  - rewrite IHa by assumption. reflexivity.
Qed.

Lemma ueval_ok_names : forall t e v n,
    ueval t e = Ok v -> In n (unames e) -> exists u, sget t n = Some u.
Proof.
  intros t. induction e as [m|x|a IHa b IHb|a IHa b IHb|a IHa k]; simpl; intros v n H Hn.
  - destruct Hn as [<-|[]]. destruct (sget t m) as [u|]; [exists u; reflexivity|discriminate].
  - contradiction.
  - destruct (ueval t a) as [va|]; simpl in H; [|discriminate].
    destruct (ueval t b) as [vb|]; simpl in H; [|discriminate].
    apply in_app_iff in Hn as [Hn|Hn]; [eapply IHa|eapply IHb]; eauto.
  - destruct (ueval t a) as [va|]; simpl in H; [|discriminate].
    destruct (ueval t b) as [vb|]; simpl in H; [|discriminate].
    apply in_app_iff in Hn as [Hn|Hn]; [eapply IHa|eapply IHb]; eauto.
  - destruct (ueval t a) as [va|]; simpl in H; [|discriminate]. eapply IHa; eauto.
Qed.

Lemma uexpr_eqb_iff : forall a b, uexpr_eqb a b = true <-> a = b.
Proof.
  induction a as [n|x|a1 IH1 a2 IH2|a1 IH1 a2 IH2|a1 IH1 n]; intros b; destruct b; simpl;
    split; intros H; try discriminate.
  - apply String.eqb_eq in H; subst; reflexivity.
  - injection H as ->. apply String.eqb_eq; reflexivity.
  - apply andb_true_iff in H as [H1 H2]. apply Z.eqb_eq in H1. apply Pos.eqb_eq in H2.
    destruct x, x0; simpl in *; subst; reflexivity.
  - injection H as ->. rewrite Z.eqb_refl, Pos.eqb_refl. reflexivity.
  - apply andb_true_iff in H as [H1 H2]. apply IH1 in H1. apply IH2 in H2. subst; reflexivity.
  - injection H as -> ->. apply andb_true_iff; split; [apply IH1|apply IH2]; reflexivity.
  - apply andb_true_iff in H as [H1 H2]. apply IH1 in H1. apply IH2 in H2. subst; reflexivity.
  - injection H as -> ->. apply andb_true_iff; split; [apply IH1|apply IH2]; reflexivity.
  - apply andb_true_iff in H as [H1 H2]. apply IH1 in H1. apply Z.eqb_eq in H2. subst; reflexivity.
  - injection H as -> ->. apply andb_true_iff; split; [apply IH1; reflexivity|apply Z.eqb_refl].
Qed.

(** the cache holds what evaluation in the current table would give *)
Definition coherent (s : ustate) : Prop :=
  forall e v, dget uexpr_eqb (ucache s) e = Some v -> ueval (utable s) e = Ok v.

Lemma coherent_ext : forall s t', coherent s -> Ext (utable s) t' -> coherent (mkUState t' (ucache s)).
Proof. intros s t' Hc Hx e v H. simpl in *. eapply ueval_mono; [exact Hx|]. apply Hc, H. Qed.

Lemma coherent_set : forall s e v,
    coherent s -> ueval (utable s) e = Ok v ->
    coherent (mkUState (utable s) (dset uexpr_eqb (ucache s) e v)).
Proof.
  intros s e v Hc He e' v' H. simpl in *.
  rewrite dget_dset in H by apply uexpr_eqb_iff.
  destruct (uexpr_eqb e' e) eqn:E.
  - apply uexpr_eqb_iff in E. congruence.
  - apply Hc, H.
Qed.

(** value given to an unknown name by the prefix rules, reading units from [t] *)
Definition prefix_value (px : prefixes) (t : table) (item : string) : res punit :=
  match sget px (stake 1 item), sget t (sdrop 1 item) with
  | Some f, Some u => unit_mul_num u f
  | _, _ =>
      match sget px (stake 2 item), sget t (sdrop 2 item) with
      | Some f, Some u => unit_mul_num u f
      | _, _ => Err ValueError
      end
  end.

Lemma expand_item_known : forall px t n u, sget t n = Some u -> expand_item px t n = Ok t.
Proof. intros px t n u H. unfold expand_item. rewrite H. reflexivity. Qed.

Lemma expand_item_new : forall px t n,
    sget t n = None ->
    expand_item px t n = match prefix_value px t n with
                         | Ok w => Ok (sset t n w) | Err e => Err e end.
Proof.
  intros px t n H. unfold expand_item, prefix_value, add_unit. rewrite !H.
  destruct (sget px (stake 1 n)) as [f|]; [destruct (sget t (sdrop 1 n)) as [u|]|].
  - destruct (unit_mul_num u f); reflexivity.
  - destruct (sget px (stake 2 n)) as [f2|]; [destruct (sget t (sdrop 2 n)) as [u2|]|]; reflexivity.
  - destruct (sget px (stake 2 n)) as [f2|]; [destruct (sget t (sdrop 2 n)) as [u2|]|]; reflexivity.
Qed.

Lemma expand_item_ext : forall px t n t', expand_item px t n = Ok t' -> Ext t t'.
Proof.
  intros px t n t' H. destruct (sget t n) as [u|] eqn:E.
  - rewrite (expand_item_known _ _ _ _ E) in H. injection H as <-. apply Ext_refl.
  - rewrite expand_item_new in H by assumption.
    destruct (prefix_value px t n); [|discriminate]. injection H as <-. apply Ext_sset; assumption.
Qed.

Lemma expand_items_ext : forall px items t, Ext t (fst (expand_items px t items)).
Proof.
  intros px. induction items as [|i r IH]; intros t; simpl; [apply Ext_refl|].
  destruct (expand_item px t i) as [t'|e] eqn:E; [|apply Ext_refl].
  eapply Ext_trans; [eapply expand_item_ext; exact E|apply IH].
Qed.

Lemma find_unit_ext_coherent : forall px s e,
    coherent s -> Ext (utable s) (utable (fst (find_unit px s e))) /\ coherent (fst (find_unit px s e)).
Proof.
  intros px s e Hc. unfold find_unit.
  destruct (dget uexpr_eqb (ucache s) e) as [v|] eqn:Ec; simpl; [split; [apply Ext_refl|assumption]|].
  destruct (ueval (utable s) e) as [v|er] eqn:Ev; simpl.
  - split; [apply Ext_refl|]. apply coherent_set; assumption.
  - pose proof (expand_items_ext px (unames e) (utable s)) as Hx.
    destruct (expand_items px (utable s) (unames e)) as [t' r]; simpl in Hx.
    destruct r as [[]|er']; simpl.
    + destruct (ueval t' e) as [v|er'] eqn:Ev'; simpl; (split; [assumption|]).
      * apply (coherent_set (mkUState t' (ucache s))); [apply coherent_ext; assumption|exact Ev'].
      * apply coherent_ext; assumption.
    + split; [assumption|]. apply coherent_ext; assumption.
Qed.

Lemma find_units_ext_coherent : forall px es s,
    coherent s -> Ext (utable s) (utable (find_units px s es)) /\ coherent (find_units px s es).
Proof.
  intros px. induction es as [|e r IH]; intros s Hc; simpl; [split; [apply Ext_refl|assumption]|].
  destruct (find_unit_ext_coherent px s e Hc) as [Hx Hc'].
  destruct (IH _ Hc') as [Hx' Hc'']. split; [eapply Ext_trans; eassumption|assumption].
Qed.

(** a successful lookup leaves a state in which the expression evaluates to it *)
Lemma find_unit_ok : forall px s e u,
    coherent s -> snd (find_unit px s e) = Ok u ->
    ueval (utable (fst (find_unit px s e))) e = Ok (VUnit u).
Proof.
  intros px s e u Hc. unfold find_unit.
  destruct (dget uexpr_eqb (ucache s) e) as [v|] eqn:Ec; simpl.
  - intros H. rewrite (Hc _ _ Ec). destruct v; simpl in H; [discriminate|congruence].
  - destruct (ueval (utable s) e) as [v|er] eqn:Ev; simpl.
    + intros H. rewrite Ev. destruct v; simpl in H; [discriminate|congruence].
    + destruct (expand_items px (utable s) (unames e)) as [t' r]; simpl.
      destruct r as [[]|er']; simpl; [|discriminate].
      destruct (ueval t' e) as [v|er'] eqn:Ev'; simpl; [|discriminate].
      intros H. rewrite Ev'. destruct v; simpl in H; [discriminate|congruence].
Qed.

(** an expression that evaluates in the table is looked up as that value *)
Lemma find_unit_known : forall px s e v,
    coherent s -> ueval (utable s) e = Ok v -> snd (find_unit px s e) = as_unit v.
Proof.
  intros px s e v Hc Hv. unfold find_unit.
  destruct (dget uexpr_eqb (ucache s) e) as [v'|] eqn:Ec; simpl.
  - rewrite (Hc _ _ Ec) in Hv. congruence.
  - rewrite Hv. reflexivity.
Qed.

(** C08, stability: once found, always the same; known units never change *)
Lemma find_unit_stable : forall px s e u es,
    coherent s -> snd (find_unit px s e) = Ok u ->
    snd (find_unit px (find_units px (fst (find_unit px s e)) es) e) = Ok u.
Proof.
  intros px s e u es Hc H.
  pose proof (find_unit_ok _ _ _ _ Hc H) as Hv.
  destruct (find_unit_ext_coherent px s e Hc) as [_ Hc'].
  destruct (find_units_ext_coherent px es _ Hc') as [Hx Hc''].
  rewrite (find_unit_known _ _ _ (VUnit u) Hc''); [reflexivity|].
  eapply ueval_mono; eassumption.
Qed.

Lemma find_unit_stable_hist : forall px t hist e u es,
    snd (find_unit px (find_units px (mkUState t []) hist) e) = Ok u ->
    snd (find_unit px
           (find_units px (fst (find_unit px (find_units px (mkUState t []) hist) e)) es) e)
    = Ok u.
Proof.
  intros px t hist e u es H. apply find_unit_stable; [|exact H].
  apply find_units_ext_coherent. intros e' v'; discriminate.
Qed.

Lemma find_unit_known_forever : forall px t e v es,
    ueval t e = Ok v ->
    snd (find_unit px (find_units px (mkUState t []) es) e) = as_unit v.
Proof.
  intros px t e v es H.
  assert (Hc : coherent (mkUState t [])) by (intros e' v'; discriminate).
  destruct (find_units_ext_coherent px es _ Hc) as [Hx Hc'].
  apply find_unit_known; [assumption|]. eapply ueval_mono; eassumption.
Qed.

(** C08, history independence for unambiguous names *)
Section History.
  Variable px : prefixes.
  Variable t0 : table.
  Variable M : list string.           (* every name mentioned in the history *)

  Definition good (n : string) : Prop :=
    forall k, (k = 1 \/ k = 2)%nat -> In (sdrop k n) M -> sget t0 (sdrop k n) <> None.

  Definition name_value (n : string) : res punit :=
    match sget t0 n with Some u => Ok u | None => prefix_value px t0 n end.

  Record Inv (t : table) : Prop := {
    inv_ext : Ext t0 t;
    inv_new : forall n u, sget t n = Some u -> sget t0 n = None -> In n M;
    inv_val : forall n u, sget t n = Some u -> good n -> name_value n = Ok u
  }.

  Lemma good_tail : forall t n k, Inv t -> good n -> (k = 1 \/ k = 2)%nat ->
      sget t (sdrop k n) = sget t0 (sdrop k n).
  Proof.
    intros t n k HI Hg Hk. destruct (sget t0 (sdrop k n)) as [u|] eqn:E0.
    - apply (inv_ext t HI). exact E0.
    - destruct (sget t (sdrop k n)) as [u|] eqn:E; [|reflexivity].
      exfalso. apply (Hg k Hk); [|exact E0]. eapply inv_new; eassumption.
  Qed.

  Lemma good_prefix_value : forall t n, Inv t -> good n -> prefix_value px t n = prefix_value px t0 n.
  Proof.
    intros t n HI Hg. unfold prefix_value.
    rewrite (good_tail t n 1 HI Hg), (good_tail t n 2 HI Hg) by auto. reflexivity.
  Qed.

  Lemma inv_expand_item : forall t n t', Inv t -> In n M -> expand_item px t n = Ok t' -> Inv t'.
  Proof.
    intros t n t' HI Hn H. pose proof (expand_item_ext _ _ _ _ H) as Hx.
    destruct (sget t n) as [u|] eqn:E.
    - rewrite (expand_item_known _ _ _ _ E) in H. injection H as <-. exact HI.
    - rewrite expand_item_new in H by assumption.
      destruct (prefix_value px t n) as [w|] eqn:Ew; [|discriminate]. injection H as <-.
      constructor.
      + eapply Ext_trans; [exact (inv_ext t HI)|exact Hx].
      + intros m u Hm Hm0. rewrite sget_sset in Hm. destruct (String.eqb m n) eqn:Emn.
        * apply String.eqb_eq in Emn; subst. exact Hn.
        * eapply inv_new; eassumption.
      + intros m u Hm Hg. rewrite sget_sset in Hm. destruct (String.eqb m n) eqn:Emn.
        * apply String.eqb_eq in Emn; subst. injection Hm as <-.
          unfold name_value. destruct (sget t0 n) as [u0|] eqn:E0.
          -- apply (inv_ext t HI) in E0. congruence.
          -- rewrite <- good_prefix_value with (t := t); assumption.
        * eapply inv_val; eassumption.
  Qed.

  Lemma inv_expand_items : forall items t,
      Inv t -> incl items M -> Inv (fst (expand_items px t items)).
  Proof.
    induction items as [|i r IH]; intros t HI Hi; simpl; [exact HI|].
    destruct (expand_item px t i) as [t'|e] eqn:E; [|exact HI].
    apply IH.
    - eapply inv_expand_item; [exact HI| |exact E]. apply Hi; left; reflexivity.
    - intros x Hx; apply Hi; right; exact Hx.
  Qed.

  Lemma inv_find_unit : forall s e,
      Inv (utable s) -> incl (unames e) M -> Inv (utable (fst (find_unit px s e))).
  Proof.
    intros s e HI Hi. unfold find_unit.
    destruct (dget uexpr_eqb (ucache s) e); simpl; [exact HI|].
    destruct (ueval (utable s) e); simpl; [exact HI|].
    pose proof (inv_expand_items (unames e) (utable s) HI Hi) as H.
    destruct (expand_items px (utable s) (unames e)) as [t' r]; simpl in H.
    destruct r as [[]|]; simpl; [|exact H]. destruct (ueval t' e); exact H.
  Qed.

  Lemma inv_find_units : forall es s,
      Inv (utable s) -> (forall e, In e es -> incl (unames e) M) ->
      Inv (utable (find_units px s es)).
  Proof.
    induction es as [|e r IH]; intros s HI Hi; simpl; [exact HI|].
    apply IH; [apply inv_find_unit; [exact HI|apply Hi; left; reflexivity]|].
    intros e' He'. apply Hi; right; exact He'.
  Qed.

  (** outcome of the expansion loop, from the initial table alone *)
  Fixpoint first_error (items : list string) : res unit :=
    match items with
    | [] => Ok tt
    | i :: r => match name_value i with Ok _ => first_error r | Err e => Err e end
    end.

  Lemma expand_items_result : forall items t,
      Inv t -> incl items M -> (forall n, In n items -> good n) ->
      snd (expand_items px t items) = first_error items /\
      (first_error items = Ok tt ->
       forall n, In n items -> exists u, sget (fst (expand_items px t items)) n = Some u).
  Proof.
    induction items as [|i r IH]; intros t HI Hi Hg; simpl.
    - split; [reflexivity|]. intros _ n [].
    - assert (Hgi : good i) by (apply Hg; left; reflexivity).
      destruct (sget t i) as [u|] eqn:E.
      + rewrite (expand_item_known _ _ _ _ E), (inv_val t HI i u E Hgi).
        destruct (IH t HI) as [H1 H2].
        { intros x Hx; apply Hi; right; exact Hx. }
        { intros x Hx; apply Hg; right; exact Hx. }
        split; [exact H1|]. intros Hok n [<-|Hn]; [|apply H2; assumption].
        exists u. apply (expand_items_ext px r t). exact E.
      + rewrite expand_item_new by assumption.
        assert (E0 : sget t0 i = None).
        { destruct (sget t0 i) eqn:E0; [|reflexivity]. apply (inv_ext t HI) in E0. congruence. }
        unfold name_value. rewrite E0, (good_prefix_value t i HI Hgi).
        destruct (prefix_value px t0 i) as [w|e] eqn:Ew; simpl.
        * assert (HI' : Inv (sset t i w)).
          { eapply inv_expand_item; [exact HI|apply Hi; left; reflexivity|].
            rewrite expand_item_new by assumption.
            rewrite (good_prefix_value t i HI Hgi), Ew. reflexivity. }
          destruct (IH _ HI') as [H1 H2].
          { intros x Hx; apply Hi; right; exact Hx. }
          { intros x Hx; apply Hg; right; exact Hx. }
          split; [exact H1|]. intros Hok n [<-|Hn]; [|apply H2; assumption].
          exists w. apply (expand_items_ext px r _). rewrite sget_sset, String.eqb_refl. reflexivity.
        * split; [reflexivity|discriminate].
  Qed.

  (** the outcome of a lookup, from the initial table alone *)
  Lemma find_unit_result : forall s e,
      coherent s -> Inv (utable s) -> incl (unames e) M -> (forall n, In n (unames e) -> good n) ->
      (exists er, first_error (unames e) = Err er /\ snd (find_unit px s e) = Err er)
      \/ (first_error (unames e) = Ok tt /\
          exists t, Inv t /\ (forall n, In n (unames e) -> exists u, sget t n = Some u) /\
                    snd (find_unit px s e) = bind (ueval t e) as_unit).
  Proof.
    intros s e Hc HI Hi Hg.
    assert (Hok : forall v, ueval (utable s) e = Ok v -> first_error (unames e) = Ok tt).
    { intros v Hv.
      assert (Hall : forall n, In n (unames e) -> exists u, name_value n = Ok u).
      { intros n Hn. destruct (ueval_ok_names _ _ _ _ Hv Hn) as [u Hu].
        exists u. apply (inv_val _ HI); [exact Hu|apply Hg; exact Hn]. }
      clear -Hall. induction (unames e) as [|i r IH]; simpl; [reflexivity|].
      destruct (Hall i) as [u Hu]; [left; reflexivity|]. rewrite Hu. apply IH.
      intros n Hn; apply Hall; right; exact Hn. }
    destruct (ueval (utable s) e) as [v|er0] eqn:Ev.
    - right. split; [eapply Hok; reflexivity|]. exists (utable s). split; [exact HI|]. split.
      + intros n Hn. eapply ueval_ok_names; eassumption.
      + rewrite Ev. simpl. apply find_unit_known; assumption.
    - pose proof (inv_expand_items (unames e) (utable s) HI Hi) as HI'.
      destruct (expand_items_result (unames e) (utable s) HI Hi Hg) as [H1 H2].
      unfold find_unit. destruct (dget uexpr_eqb (ucache s) e) as [v|] eqn:Ec.
      { apply Hc in Ec. congruence. }
      rewrite Ev. destruct (expand_items px (utable s) (unames e)) as [t' r] eqn:Ee; simpl in *.
      subst r. destruct (first_error (unames e)) as [[]|er] eqn:Ef.
      + right. split; [reflexivity|]. exists t'. split; [exact HI'|]. split; [apply H2; reflexivity|].
        destruct (ueval t' e); reflexivity.
      + left. exists er. split; reflexivity.
  Qed.

  Lemma find_unit_same : forall s s' e,
      coherent s -> Inv (utable s) -> coherent s' -> Inv (utable s') ->
      incl (unames e) M -> (forall n, In n (unames e) -> good n) ->
      snd (find_unit px s e) = snd (find_unit px s' e).
  Proof.
    intros s s' e Hc HI Hc' HI' Hi Hg.
    destruct (find_unit_result s e Hc HI Hi Hg) as [(er & E1 & E2)|(E1 & t & Ht & Hn & E2)];
      destruct (find_unit_result s' e Hc' HI' Hi Hg) as [(er' & E1' & E2')|(E1' & t' & Ht' & Hn' & E2')];
      rewrite E1 in E1'; try discriminate.
    - congruence.
    - rewrite E2, E2'. f_equal. apply ueval_names. intros n Hin.
      destruct (Hn n Hin) as [u Hu]. destruct (Hn' n Hin) as [u' Hu'].
      pose proof (inv_val _ Ht n u Hu (Hg n Hin)) as Ha.
      pose proof (inv_val _ Ht' n u' Hu' (Hg n Hin)) as Hb. congruence.
  Qed.
End History.

Lemma find_unit_history_independent : forall px t0 es e,
    (forall n k, In n (unames e) -> (k = 1 \/ k = 2)%nat ->
       In (sdrop k n) (flat_map unames (es ++ [e])) -> sget t0 (sdrop k n) <> None) ->
    snd (find_unit px (find_units px (mkUState t0 []) es) e)
    = snd (find_unit px (mkUState t0 []) e).
Proof.
  intros px t0 es e H.
  pose (M := flat_map unames (es ++ [e])).
  assert (Hc : coherent (mkUState t0 [])) by (intros e' v'; discriminate).
  assert (HI : Inv px t0 M (utable (mkUState t0 []))).
  { constructor; simpl.
    - apply Ext_refl.
    - intros n u Hn Hn0; congruence.
    - intros n u Hn _. unfold name_value. rewrite Hn. reflexivity. }
  assert (Hincl : forall e', In e' (es ++ [e]) -> incl (unames e') M).
  { intros e' He' n Hn. unfold M. apply in_flat_map. exists e'. split; assumption. }
  apply (find_unit_same px t0 M).
  - apply find_units_ext_coherent; assumption.
  - apply inv_find_units; [exact HI|]. intros e' He'. apply Hincl, in_or_app. left; exact He'.
  - exact Hc.
  - exact HI.
  - apply Hincl, in_or_app. right; left; reflexivity.
  - intros n Hn k Hk Hin. eapply H; eassumption.
Qed.

(** ** C07: library loading *)

Lemma def_value_mono : forall t t' d u, Ext t t' -> def_value t d = Ok u -> def_value t' d = Ok u.
Proof.
  intros t t' d u Hx H. destruct d as [n e|n b f o]; simpl in *.
  - destruct (ueval t e) as [v|] eqn:E; [|discriminate].
    rewrite (ueval_mono _ _ _ _ Hx E). exact H.
  - destruct (ueval t b) as [v|] eqn:E; [|discriminate].
    rewrite (ueval_mono _ _ _ _ Hx E). exact H.
Qed.

Lemma def_value_err_mono : forall t t' d er,
    Ext t t' -> def_value t d = Err er -> er <> NameError -> def_value t' d = Err er.
Proof.
  intros t t' d er Hx H Hne. destruct d as [n e|n b f o]; simpl in *.
  - destruct (ueval t e) as [v|er'] eqn:E.
    + rewrite (ueval_mono _ _ _ _ Hx E). exact H.
    + injection H as ->. rewrite (ueval_err_mono _ _ _ _ Hx E Hne). reflexivity.
  - destruct (ueval t b) as [v|er'] eqn:E.
    + rewrite (ueval_mono _ _ _ _ Hx E). exact H.
    + injection H as ->. rewrite (ueval_err_mono _ _ _ _ Hx E Hne). reflexivity.
Qed.

Lemma add_def_ok : forall px t0 s d u,
    coherent s -> Ext t0 (utable s) -> loadable t0 d ->
    sget (utable s) (def_name d) = None -> def_value (utable s) d = Ok u ->
    exists s', add_def px s d = (s', Ok tt) /\ utable s' = sset (utable s) (def_name d) u /\ coherent s'.
Proof.
  intros px t0 s d u Hc Hx Hl Hf Hv. destruct d as [n e|n b f o]; simpl in *.
  - unfold add_unit_expr. destruct (ueval (utable s) e) as [[x|w]|] eqn:E; try discriminate.
    injection Hv as ->. simpl. unfold add_unit. rewrite Hf. eexists; split; [reflexivity|].
    simpl. split; [reflexivity|]. apply coherent_ext; [assumption|]. apply Ext_sset; assumption.
  - unfold add_offset_unit. destruct (ueval (utable s) b) as [[x|w]|] eqn:E; try discriminate.
    injection Hv as <-.
    pose proof (find_unit_known px s b _ Hc E) as Hs.
    destruct (find_unit_ext_coherent px s b Hc) as [Hx' Hc'].
    assert (Ht : utable (fst (find_unit px s b)) = utable s).
    { unfold find_unit. destruct (dget uexpr_eqb (ucache s) b); [reflexivity|]. rewrite E. reflexivity. }
    destruct (find_unit px s b) as [s' r]; simpl in *. subst r. simpl.
    unfold add_unit. rewrite Ht, Hf. eexists; split; [reflexivity|].
    simpl. split; [reflexivity|]. apply coherent_ext; [assumption|]. rewrite Ht. apply Ext_sset; assumption.
Qed.

Lemma add_def_err : forall px t0 s d er,
    coherent s -> Ext t0 (utable s) -> loadable t0 d ->
    def_value (utable s) d = Err er ->
    add_def px s d = (s, Err er).
Proof.
  intros px t0 s d er Hc Hx [Hn Hl] Hv. destruct d as [n e|n b f o]; simpl in *.
  - unfold add_unit_expr. destruct (ueval (utable s) e) as [[x|w]|er'] eqn:E; try discriminate.
    + injection Hv as <-. reflexivity.
    + injection Hv as ->. reflexivity.
  - destruct Hl as (m & u & -> & Hm). apply Hx in Hm. simpl in Hv. rewrite Hm in Hv. discriminate.
Qed.

Lemma same_table_Ext : forall t t', same_table t t' -> Ext t t'.
Proof. intros t t' H n u Hn. rewrite <- H. exact Hn. Qed.

Lemma ueval_same_table : forall t t' e, same_table t t' -> ueval t e = ueval t' e.
Proof. intros t t' e H. apply ueval_names. intros n _. apply H. Qed.

Lemma def_value_same_table : forall t t' d, same_table t t' -> def_value t d = def_value t' d.
Proof.
  intros t t' d H. destruct d; simpl; rewrite (ueval_same_table _ _ _ H); reflexivity.
Qed.

Lemma same_table_sset : forall t t' n u, same_table t t' -> same_table (sset t n u) (sset t' n u).
Proof. intros t t' n u H m. rewrite !sget_sset. rewrite (H m). reflexivity. Qed.

Lemma definable_same_l : forall ds t1 t2 t', same_table t1 t2 -> definable t2 ds t' -> definable t1 ds t'.
Proof.
  induction ds as [|d ds IH]; intros t1 t2 t' H Hd; inversion Hd; subst.
  - constructor. intros n. rewrite (H n). auto.
  - econstructor; [rewrite (def_value_same_table _ _ _ H); eassumption|].
    eapply IH; [|eassumption]. apply same_table_sset; assumption.
Qed.

Lemma definable_app : forall a b t t1 t2,
    definable t a t1 -> definable t1 b t2 -> definable t (a ++ b) t2.
Proof.
  induction a as [|d a IH]; intros b t t1 t2 H1 H2; inversion H1; subst; simpl.
  - eapply definable_same_l; eassumption.
  - econstructor; [eassumption|]. eapply IH; eassumption.
Qed.

Definition names_of (ds : list udef) : list string := map def_name ds.

Lemma definable_facts : forall ds t t',
    NoDup (names_of ds) -> (forall d, In d ds -> sget t (def_name d) = None) ->
    definable t ds t' ->
    Ext t t' /\
    (forall d, In d ds -> exists u, def_value t' d = Ok u /\ sget t' (def_name d) = Some u) /\
    (forall n, ~ In n (names_of ds) -> sget t' n = sget t n).
Proof.
  induction ds as [|d ds IH]; intros t t' Hnd Hf Hd; inversion Hd; subst.
  - split; [apply same_table_Ext; assumption|]. split; [intros d []|]. intros n _. symmetry. auto.
  - inversion Hnd as [|x l Hni Hnd']; subst.
    match goal with H : definable (sset _ _ ?u0) _ _ |- _ => rename H into Hd'; rename u0 into w end.
    destruct (IH (sset t (def_name d) w) t' Hnd') as (Hx & Hv & Ho).
    { intros d' Hd''. rewrite sget_sset. destruct (String.eqb (def_name d') (def_name d)) eqn:E.
      - apply String.eqb_eq in E. exfalso. apply Hni. rewrite <- E. apply in_map; assumption.
      - apply Hf; right; assumption. }
    { exact Hd'. }
    assert (Hxt : Ext t (sset t (def_name d) w)) by (apply Ext_sset, Hf; left; reflexivity).
    split; [eapply Ext_trans; eassumption|]. split.
    + intros d' [<-|Hin]; [|apply Hv; assumption]. exists w. split.
      * eapply def_value_mono; [|eassumption]. eapply Ext_trans; eassumption.
      * apply Hx. rewrite sget_sset, String.eqb_refl. reflexivity.
    + intros n Hn. rewrite Ho by (intros H; apply Hn; right; assumption).
      rewrite sget_sset. destruct (String.eqb n (def_name d)) eqn:E; [|reflexivity].
      apply String.eqb_eq in E. exfalso. apply Hn. left. congruence.
Qed.

(** a pass that succeeds adds a definable prefix *)
Lemma lib_pass_definable : forall px t0 ds s s' retry,
    coherent s -> Ext t0 (utable s) ->
    (forall d, In d ds -> loadable t0 d) ->
    NoDup (names_of ds) -> (forall d, In d ds -> sget (utable s) (def_name d) = None) ->
    lib_pass px s ds = Ok (s', retry) ->
    coherent s' /\ Ext t0 (utable s') /\
    exists added, Permutation ds (added ++ retry) /\ definable (utable s) added (utable s').
Proof.
  intros px t0. induction ds as [|d ds IH]; intros s s' retry Hc Hx Hl Hnd Hf H; simpl in H.
  - injection H as <- <-. split; [assumption|split; [assumption|]]. exists []. split; [constructor|].
    constructor. intros n; reflexivity.
  - inversion Hnd as [|x l Hni Hnd']; subst.
    assert (Hld : loadable t0 d) by (apply Hl; left; reflexivity).
    destruct (def_value (utable s) d) as [u|er] eqn:Ev.
    + destruct (add_def_ok px t0 s d u Hc Hx Hld) as (s1 & E1 & T1 & C1); [apply Hf; left; reflexivity|assumption|].
      rewrite E1 in H.
      assert (Hx1 : Ext (utable s) (utable s1)) by (rewrite T1; apply Ext_sset, Hf; left; reflexivity).
      destruct (IH s1 s' retry C1) as (C' & X' & added & P & D); try assumption.
      * eapply Ext_trans; eassumption.
      * intros d' Hd'; apply Hl; right; assumption.
      * intros d' Hd'. rewrite T1, sget_sset.
        destruct (String.eqb (def_name d') (def_name d)) eqn:E.
        -- apply String.eqb_eq in E. exfalso. apply Hni. rewrite <- E. apply in_map; assumption.
        -- apply Hf; right; assumption.
      * split; [assumption|split; [assumption|]]. exists (d :: added). split.
        -- simpl. constructor. exact P.
        -- econstructor; [exact Ev|]. rewrite <- T1. exact D.
    + rewrite (add_def_err px t0 s d er Hc Hx Hld Ev) in H.
      destruct er; try discriminate.
      destruct (lib_pass px s ds) as [[s2 r2]|] eqn:E2; simpl in H; [|discriminate].
      injection H as <- <-.
      destruct (IH s s2 r2 Hc Hx) as (C' & X' & added & P & D); try assumption.
      * intros d' Hd'; apply Hl; right; assumption.
      * intros d' Hd'; apply Hf; right; assumption.
      * split; [assumption|split; [assumption|]]. exists added. split; [|exact D].
        apply Permutation_cons_app. exact P.
Qed.

Lemma names_of_perm : forall a b, Permutation a b -> Permutation (names_of a) (names_of b).
Proof. intros a b H. apply Permutation_map. exact H. Qed.

Lemma NoDup_perm_names : forall a b, Permutation a b -> NoDup (names_of a) -> NoDup (names_of b).
Proof. intros a b H. apply Permutation_NoDup, names_of_perm, H. Qed.

Lemma NoDup_app_parts : forall {A} (a b : list A),
    NoDup (a ++ b) -> NoDup a /\ NoDup b /\ (forall x, In x a -> ~ In x b).
Proof.
  intros A a b. induction a as [|x a IH]; simpl; intros H.
  - split; [constructor|split; [assumption|intros y []]].
  - inversion H as [|y l Hni Hnd]; subst. destruct (IH Hnd) as (H1 & H2 & H3).
    split; [constructor; [intros Hx; apply Hni, in_or_app; left; exact Hx|assumption]|].
    split; [assumption|]. intros y [<-|Hy]; [|apply H3; assumption].
    intros Hx; apply Hni, in_or_app; right; exact Hx.
Qed.

Lemma retry_still_fresh : forall t t' ds added retry,
    Permutation ds (added ++ retry) -> NoDup (names_of ds) ->
    (forall d, In d ds -> sget t (def_name d) = None) -> definable t added t' ->
    NoDup (names_of retry) /\ (forall d, In d retry -> sget t' (def_name d) = None).
Proof.
  intros t t' ds added retry P Hnd Hf D.
  apply (NoDup_perm_names _ _ P) in Hnd. unfold names_of in Hnd. rewrite map_app in Hnd.
  apply NoDup_app_parts in Hnd as (N1 & N2 & Hdis).
  split; [exact N2|]. intros d Hd.
  destruct (definable_facts added t t' N1) as (_ & _ & Ho).
  - intros d' Hd'. apply Hf. eapply Permutation_in; [symmetry; exact P|]. apply in_or_app; left; exact Hd'.
  - exact D.
  - rewrite Ho.
    + apply Hf. eapply Permutation_in; [symmetry; exact P|]. apply in_or_app; right; exact Hd.
    + intros Hin. apply (Hdis _ Hin). apply in_map. exact Hd.
Qed.

Lemma lib_retry_definable : forall px t0 order fuel last count s retry s',
    set_order order ->
    coherent s -> Ext t0 (utable s) -> (forall d, In d retry -> loadable t0 d) ->
    NoDup (names_of retry) -> (forall d, In d retry -> sget (utable s) (def_name d) = None) ->
    lib_retry px order fuel last count s retry = Ok s' ->
    exists added, Permutation retry added /\ definable (utable s) added (utable s').
Proof.
  intros px t0 order. induction fuel as [|fuel IH]; intros last count s retry s' Ho Hc Hx Hl Hnd Hf H; simpl in H.
  - destruct (negb (last =? count)%Z && negb (length retry =? 0)%nat); [discriminate|].
    destruct retry; [|discriminate]. injection H as <-. exists []. split; [constructor|].
    constructor. intros n; reflexivity.
  - destruct (negb (last =? count)%Z && negb (length retry =? 0)%nat) eqn:Eg.
    + pose proof (Ho fuel retry) as Po.
      destruct (lib_pass px s (order fuel retry)) as [[s1 r1]|] eqn:E1; simpl in H; [|discriminate].
      assert (Hf1 : forall d, In d (order fuel retry) -> sget (utable s) (def_name d) = None).
      { intros d Hd. apply Hf. eapply Permutation_in; [symmetry; exact Po|exact Hd]. }
      assert (Hl1 : forall d, In d (order fuel retry) -> loadable t0 d).
      { intros d Hd. apply Hl. eapply Permutation_in; [symmetry; exact Po|exact Hd]. }
      assert (Hnd1 : NoDup (names_of (order fuel retry))) by (eapply NoDup_perm_names; eassumption).
      destruct (lib_pass_definable px t0 _ s s1 r1 Hc Hx Hl1 Hnd1 Hf1 E1) as (C1 & X1 & added & P & D).
      destruct (retry_still_fresh _ _ _ _ _ P Hnd1 Hf1 D) as [N1 F1].
      destruct (IH count (Z.of_nat (length r1)) s1 r1 s' Ho C1 X1) as (added2 & P2 & D2); try assumption.
      { intros d Hd. apply Hl1. eapply Permutation_in; [symmetry; exact P|]. apply in_or_app; right; exact Hd. }
      exists (added ++ added2). split.
      * rewrite Po, P. apply Permutation_app_head. exact P2.
      * eapply definable_app; eassumption.
    + destruct retry; [|discriminate]. injection H as <-. exists []. split; [constructor|].
      constructor. intros n; reflexivity.
Qed.

Lemma update_library_definable : forall px order t0 ds s',
    set_order order -> NoDup (names_of ds) -> (forall d, In d ds -> loadable t0 d) ->
    update_library px order (mkUState t0 []) ds = Ok s' ->
    exists L, Permutation ds L /\ definable t0 L (utable s').
Proof.
  intros px order t0 ds s' Ho Hnd Hl H. unfold update_library in H.
  destruct (lib_pass px (mkUState t0 []) ds) as [[s1 r1]|] eqn:E1; cbn [bind] in H; [|discriminate].
  assert (Hc : coherent (mkUState t0 [])) by (intros e' v'; discriminate).
  assert (Hf : forall d, In d ds -> sget t0 (def_name d) = None) by (intros d Hd; apply (Hl d Hd)).
  destruct (lib_pass_definable px t0 ds (mkUState t0 []) s1 r1 Hc (Ext_refl _) Hl Hnd Hf E1)
    as (C1 & X1 & added & P & D).
  destruct (retry_still_fresh _ _ _ _ _ P Hnd Hf D) as [N1 F1].
  destruct (lib_retry_definable px t0 order (S (S (length ds))) (-1) 0 s1 r1 s' Ho C1 X1) as (added2 & P2 & D2); try assumption.
  { intros d Hd. apply Hl. eapply Permutation_in; [symmetry; exact P|]. apply in_or_app; right; exact Hd. }
  exists (added ++ added2). split.
  - rewrite P. apply Permutation_app_head. exact P2.
  - eapply definable_app; eassumption.
Qed.

(** Towards a known solution [T] of the definitions *)
Section Converge.
  Variable px : prefixes.
  Variable t0 T : table.
  Variable ds : list udef.
  Hypothesis Hsol : forall d, In d ds -> exists u, def_value T d = Ok u /\ sget T (def_name d) = Some u.
  Hypothesis Hload : forall d, In d ds -> loadable t0 d.

  Lemma def_value_below : forall t d,
      In d ds -> Ext t T ->
      (exists u, def_value t d = Ok u /\ sget T (def_name d) = Some u) \/ def_value t d = Err NameError.
  Proof.
    intros t d Hd Hx. destruct (Hsol d Hd) as (u & Hu & Hn).
    destruct (def_value t d) as [w|er] eqn:E.
    - left. exists w. split; [reflexivity|]. pose proof (def_value_mono _ _ _ _ Hx E). congruence.
    - right. f_equal.
      assert (Hdec : er = NameError \/ er <> NameError) by (destruct er; auto; right; discriminate).
      destruct Hdec as [->|Hne]; [reflexivity|].
      pose proof (def_value_err_mono _ _ _ _ Hx E Hne). congruence.
  Qed.

  Lemma lib_pass_below : forall l s,
      incl l ds -> NoDup (names_of l) -> coherent s -> Ext t0 (utable s) -> Ext (utable s) T ->
      (forall d, In d l -> sget (utable s) (def_name d) = None) ->
      exists s' retry, lib_pass px s l = Ok (s', retry) /\ Ext (utable s') T /\
        (length retry <= length l)%nat /\
        ((exists d u, In d l /\ def_value (utable s) d = Ok u) -> (length retry < length l)%nat).
  Proof.
    induction l as [|d l IH]; intros s Hi Hnd Hc Hx0 Hx Hf; simpl.
    - exists s, []. split; [reflexivity|]. split; [assumption|]. split; [constructor|].
      intros (d & u & [] & _).
    - inversion Hnd as [|x y Hni Hnd']; subst.
      assert (Hd : In d ds) by (apply Hi; left; reflexivity).
      assert (Hil : incl l ds) by (intros z Hz; apply Hi; right; exact Hz).
      destruct (def_value_below (utable s) d Hd Hx) as [(u & Hu & HT)|He].
      + destruct (add_def_ok px t0 s d u Hc Hx0 (Hload d Hd)) as (s1 & E1 & T1 & C1);
          [apply Hf; left; reflexivity|assumption|].
        rewrite E1.
        assert (X1 : Ext (utable s) (utable s1)) by (rewrite T1; apply Ext_sset, Hf; left; reflexivity).
        destruct (IH s1 Hil Hnd' C1) as (s' & r & E' & X' & L' & _).
        * eapply Ext_trans; eassumption.
        * rewrite T1. intros n w Hn. rewrite sget_sset in Hn.
          destruct (String.eqb n (def_name d)) eqn:E; [|apply Hx; exact Hn].
          apply String.eqb_eq in E. congruence.
        * intros d' Hd'. rewrite T1, sget_sset.
          destruct (String.eqb (def_name d') (def_name d)) eqn:E.
          -- apply String.eqb_eq in E. exfalso. apply Hni. rewrite <- E. apply in_map; assumption.
          -- apply Hf; right; assumption.
        * exists s', r. split; [exact E'|]. split; [exact X'|]. split; [lia|]. intros _. lia.
      + rewrite (add_def_err px t0 s d NameError Hc Hx0 (Hload d Hd) He).
        destruct (IH s Hil Hnd' Hc Hx0 Hx) as (s' & r & E' & X' & L' & S').
        * intros d' Hd'; apply Hf; right; assumption.
        * rewrite E'. simpl. exists s', (d :: r). split; [reflexivity|]. split; [exact X'|].
          split; [simpl; lia|]. intros (d' & u & [<-|Hin] & Hv); [congruence|].
          assert (length r < length l)%nat by (apply S'; exists d', u; split; assumption). simpl; lia.
  Qed.
End Converge.

(** while something is left, something can be evaluated *)
Lemma definable_progress : forall L t0 T t retry,
    definable t0 L T -> NoDup (names_of L) -> (forall d, In d L -> sget t0 (def_name d) = None) ->
    Ext t0 t -> Ext t T ->
    (forall d, In d retry -> In d L) -> retry <> [] ->
    (forall d, In d L -> In d retry \/ sget t (def_name d) <> None) ->
    exists d u, In d retry /\ def_value t d = Ok u.
Proof.
  induction L as [|d L IH]; intros t0 T t retry D Hnd Hf Hx0 HxT Hin Hne Hcov.
  - destruct retry as [|d r]; [congruence|]. exfalso. apply (Hin d). left; reflexivity.
  - inversion D as [|t0' d' ds' T' u Hu D']; subst. inversion Hnd as [|x l Hni Hnd']; subst.
    destruct (Hcov d) as [Hr|Ht]; [left; reflexivity| |].
    + exists d, u. split; [exact Hr|]. eapply def_value_mono; eassumption.
    + assert (Hf' : forall d', In d' L -> sget (sset t0 (def_name d) u) (def_name d') = None).
      { intros d' Hd'. rewrite sget_sset. destruct (String.eqb (def_name d') (def_name d)) eqn:E.
        - apply String.eqb_eq in E. exfalso. apply Hni. rewrite <- E. apply in_map; assumption.
        - apply Hf; right; assumption. }
      assert (HTd : sget T (def_name d) = Some u).
      { destruct (definable_facts L _ T Hnd' Hf' D') as (Hx & _ & _).
        apply Hx. rewrite sget_sset, String.eqb_refl. reflexivity. }
      assert (Htd : sget t (def_name d) = Some u).
      { destruct (sget t (def_name d)) as [w|] eqn:Ew; [|congruence]. apply HxT in Ew. congruence. }
      assert (Hx0' : Ext (sset t0 (def_name d) u) t).
      { intros n w Hn. rewrite sget_sset in Hn. destruct (String.eqb n (def_name d)) eqn:E.
        - apply String.eqb_eq in E. subst. congruence.
        - apply Hx0; exact Hn. }
      destruct (in_dec string_dec (def_name d) (names_of retry)) as [Hdr|Hdr].
      { (* a left-over with the same name would be d itself *)
        apply in_map_iff in Hdr as (d2 & E2 & Hd2).
        destruct (Hin d2 Hd2) as [->|Hd2L].
        - exists d2, u. split; [exact Hd2|]. eapply def_value_mono; [exact Hx0|exact Hu].
        - exfalso. apply Hni. rewrite <- E2. apply in_map. exact Hd2L. }
      destruct (IH (sset t0 (def_name d) u) T t retry D' Hnd' Hf' Hx0' HxT) as (d1 & u1 & H1 & H2).
      * intros d1 Hd1. destruct (Hin d1 Hd1) as [->|H1]; [|exact H1].
        exfalso. apply Hdr. apply in_map. exact Hd1.
      * exact Hne.
      * intros d1 Hd1. apply Hcov. right; exact Hd1.
      * exists d1, u1. split; assumption.
Qed.

Lemma lib_retry_converges : forall px order t0 ds L T,
    set_order order -> NoDup (names_of ds) -> (forall d, In d ds -> loadable t0 d) ->
    Permutation ds L -> definable t0 L T ->
    forall fuel last count s retry,
    (length retry <= fuel)%nat ->
    (retry <> [] -> last <> count /\ (last < 0 \/ last = 0 /\ count = Z.of_nat (length retry) \/
                                      count = Z.of_nat (length retry))%Z /\ (last < 0 -> count = 0)%Z) ->
    coherent s -> Ext t0 (utable s) -> Ext (utable s) T -> incl retry ds -> NoDup (names_of retry) ->
    (forall d, In d retry -> sget (utable s) (def_name d) = None) ->
    (forall d, In d ds -> In d retry \/ sget (utable s) (def_name d) <> None) ->
    exists s', lib_retry px order fuel last count s retry = Ok s'.
Proof.
  intros px order t0 ds L T Ho Hnd Hl HP HD.
  assert (HndL : NoDup (names_of L)) by (eapply NoDup_perm_names; eassumption).
  assert (HfL : forall d, In d L -> sget t0 (def_name d) = None).
  { intros d Hd. apply (Hl d). eapply Permutation_in; [symmetry; exact HP|exact Hd]. }
  destruct (definable_facts L t0 T HndL HfL HD) as (_ & HvL & _).
  assert (Hsol : forall d, In d ds -> exists u, def_value T d = Ok u /\ sget T (def_name d) = Some u).
  { intros d Hd. apply HvL. eapply Permutation_in; [exact HP|exact Hd]. }
  induction fuel as [|fuel IH]; intros last count s retry Hfu Hlc Hc Hx0 HxT Hi Hndr Hf Hcov.
  - destruct retry; [|simpl in Hfu; lia]. exists s. simpl. rewrite andb_false_r. reflexivity.
  - simpl. destruct (negb (last =? count)%Z && negb (length retry =? 0)%nat) eqn:Eg.
    + apply andb_true_iff in Eg as [Eg1 Eg2].
      apply negb_true_iff, Z.eqb_neq in Eg1. apply negb_true_iff, Nat.eqb_neq in Eg2.
      pose proof (Ho fuel retry) as Po.
      assert (Hi1 : incl (order fuel retry) ds).
      { intros d Hd. apply Hi. eapply Permutation_in; [symmetry; exact Po|exact Hd]. }
      assert (Hf1 : forall d, In d (order fuel retry) -> sget (utable s) (def_name d) = None).
      { intros d Hd. apply Hf. eapply Permutation_in; [symmetry; exact Po|exact Hd]. }
      assert (Hnd1 : NoDup (names_of (order fuel retry))) by (eapply NoDup_perm_names; eassumption).
      destruct (lib_pass_below px t0 T ds Hsol Hl (order fuel retry) s Hi1 Hnd1 Hc Hx0 HxT Hf1)
        as (s1 & r1 & E1 & X1 & Len1 & Prog1).
      rewrite E1. simpl.
      assert (Hl1 : forall d, In d (order fuel retry) -> loadable t0 d) by (intros d Hd; apply Hl, Hi1, Hd).
      destruct (lib_pass_definable px t0 _ s s1 r1 Hc Hx0 Hl1 Hnd1 Hf1 E1) as (C1 & X01 & added & P & D).
      destruct (retry_still_fresh _ _ _ _ _ P Hnd1 Hf1 D) as [N1 F1].
      assert (Hne : retry <> []) by (intros ->; simpl in Eg2; lia).
      assert (Hprog : (length r1 < length (order fuel retry))%nat).
      { apply Prog1.
        destruct (definable_progress L t0 T (utable s) retry HD HndL HfL Hx0 HxT) as (d & u & Hd & Hu).
        - intros d Hd. eapply Permutation_in; [exact HP|apply Hi; exact Hd].
        - exact Hne.
        - intros d Hd. apply Hcov. eapply Permutation_in; [symmetry; exact HP|exact Hd].
        - exists d, u. split; [|exact Hu]. eapply Permutation_in; [exact Po|exact Hd]. }
      assert (Hlen : length (order fuel retry) = length retry) by (symmetry; apply Permutation_length; exact Po).
      assert (Hrin : forall d, In d r1 -> In d (order fuel retry)).
      { intros d Hd. eapply Permutation_in; [symmetry; exact P|]. apply in_or_app; right; exact Hd. }
      apply IH; try assumption.
      * lia.
      * intros Hr1. assert (Hl1' : (0 < length r1)%nat) by (destruct r1; [congruence|simpl; lia]).
        specialize (Hlc Hne). destruct Hlc as (Ha & Hb & Hcc).
        split; [|split; [right; right; reflexivity|lia]].
        destruct (Z.ltb_spec last 0) as [Hneg|Hpos]; [rewrite (Hcc Hneg); lia|lia].
      * intros d Hd. apply Hi1, Hrin, Hd.
      * intros d Hd. destruct (Hcov d Hd) as [Hr|Ht].
        -- assert (Hd1 : In d (order fuel retry)) by (eapply Permutation_in; [exact Po|exact Hr]).
           assert (Hda : In d (added ++ r1)) by (eapply Permutation_in; [exact P|exact Hd1]).
           apply in_app_iff in Hda as [Hda|Hda]; [|left; exact Hda].
           right. assert (Nadd : NoDup (names_of added)).
           { apply (NoDup_perm_names _ _ P) in Hnd1. unfold names_of in Hnd1. rewrite map_app in Hnd1.
             apply NoDup_app_parts in Hnd1 as (N & _). exact N. }
           destruct (definable_facts added (utable s) (utable s1) Nadd) as (_ & Hv & _).
           { intros d' Hd'. apply Hf1. eapply Permutation_in; [symmetry; exact P|]. apply in_or_app; left; exact Hd'. }
           { exact D. }
           destruct (Hv d Hda) as (u & _ & Hu). congruence.
        -- right. assert (Nadd : NoDup (names_of added)).
           { apply (NoDup_perm_names _ _ P) in Hnd1. unfold names_of in Hnd1. rewrite map_app in Hnd1.
             apply NoDup_app_parts in Hnd1 as (N & _). exact N. }
           destruct (definable_facts added (utable s) (utable s1) Nadd) as (Hxx & _ & _).
           { intros d' Hd'. apply Hf1. eapply Permutation_in; [symmetry; exact P|]. apply in_or_app; left; exact Hd'. }
           { exact D. }
           destruct (sget (utable s) (def_name d)) as [w|] eqn:Ew; [|congruence].
           apply Hxx in Ew. congruence.
    + destruct retry as [|d r]; [exists s; reflexivity|].
      exfalso. destruct (Hlc ltac:(discriminate)) as (Ha & _ & _).
      apply andb_false_iff in Eg as [Eg|Eg].
      * apply negb_false_iff, Z.eqb_eq in Eg. contradiction.
      * simpl in Eg. discriminate.
Qed.

Lemma definable_update_library : forall px order t0 ds L T,
    set_order order -> NoDup (names_of ds) -> (forall d, In d ds -> loadable t0 d) ->
    Permutation ds L -> definable t0 L T ->
    exists s', update_library px order (mkUState t0 []) ds = Ok s' /\ same_table (utable s') T.
Proof.
  intros px order t0 ds L T Ho Hnd Hl HP HD.
  assert (HndL : NoDup (names_of L)) by (eapply NoDup_perm_names; eassumption).
  assert (HfL : forall d, In d L -> sget t0 (def_name d) = None).
  { intros d Hd. apply (Hl d). eapply Permutation_in; [symmetry; exact HP|exact Hd]. }
  destruct (definable_facts L t0 T HndL HfL HD) as (HxL & HvL & HoL).
  assert (Hsol : forall d, In d ds -> exists u, def_value T d = Ok u /\ sget T (def_name d) = Some u).
  { intros d Hd. apply HvL. eapply Permutation_in; [exact HP|exact Hd]. }
  assert (Hc : coherent (mkUState t0 [])) by (intros e' v'; discriminate).
  assert (Hf : forall d, In d ds -> sget t0 (def_name d) = None) by (intros d Hd; apply (Hl d Hd)).
  destruct (lib_pass_below px t0 T ds Hsol Hl ds (mkUState t0 []) (incl_refl _) Hnd Hc (Ext_refl _) HxL Hf)
    as (s1 & r1 & E1 & X1 & Len1 & _).
  destruct (lib_pass_definable px t0 ds (mkUState t0 []) s1 r1 Hc (Ext_refl _) Hl Hnd Hf E1)
    as (C1 & X01 & added & P & D).
  destruct (retry_still_fresh _ _ _ _ _ P Hnd Hf D) as [N1 F1].
  assert (Nadd : NoDup (names_of added)).
  { pose proof (NoDup_perm_names _ _ P Hnd) as Hn. unfold names_of in Hn. rewrite map_app in Hn.
    apply NoDup_app_parts in Hn as (N & _). exact N. }
  assert (Fadd : forall d, In d added -> sget t0 (def_name d) = None).
  { intros d' Hd'. apply Hf. eapply Permutation_in; [symmetry; exact P|]. apply in_or_app; left; exact Hd'. }
  destruct (lib_retry_converges px order t0 ds L T Ho Hnd Hl HP HD (S (S (length ds))) (-1) 0 s1 r1)
    as (s' & E'); try assumption.
  - lia.
  - intros _. split; [lia|]. split; [left; lia|lia].
  - intros d Hd. eapply Permutation_in; [symmetry; exact P|]. apply in_or_app; right; exact Hd.
  - intros d Hd. assert (Hda : In d (added ++ r1)) by (eapply Permutation_in; [exact P|exact Hd]).
    apply in_app_iff in Hda as [Hda|Hda]; [|left; exact Hda]. right.
    destruct (definable_facts added t0 (utable s1) Nadd Fadd D) as (_ & Hv & _).
    destruct (Hv d Hda) as (u & _ & Hu). congruence.
  - exists s'. assert (E : update_library px order (mkUState t0 []) ds = Ok s').
    { unfold update_library. rewrite E1. exact E'. }
    split; [exact E|].
    destruct (update_library_definable px order t0 ds s' Ho Hnd Hl E) as (L' & P' & D').
    assert (HndL' : NoDup (names_of L')) by (eapply NoDup_perm_names; eassumption).
    assert (HfL' : forall d, In d L' -> sget t0 (def_name d) = None).
    { intros d Hd. apply (Hl d). eapply Permutation_in; [symmetry; exact P'|exact Hd]. }
    (* both tables are solutions; compare by induction on the derivation L' *)
    clear -D' HxL Hsol HoL HP P' HndL' HfL' Hnd.
    assert (Hgen : forall L1 t, definable t L1 (utable s') -> Ext t T -> (forall d, In d L1 -> In d ds) ->
                   NoDup (names_of L1) -> (forall d, In d L1 -> sget t (def_name d) = None) ->
                   Ext (utable s') T).
    { induction L1 as [|d L1 IH]; intros t Dt Hx Hin N F; inversion Dt as [t1 t2 Hs|t1 d1 ds1 t2 u Hu Dt']; subst.
      - intros n w Hn. apply Hx. rewrite (Hs n). exact Hn.
      - inversion N as [|x l Hni N']; subst.
        apply (IH (sset t (def_name d) u)); try assumption.
        + intros n w Hn. rewrite sget_sset in Hn. destruct (String.eqb n (def_name d)) eqn:En.
          * apply String.eqb_eq in En. subst. injection Hn as <-.
            destruct (Hsol d) as (u' & Hu' & Hn'); [apply Hin; left; reflexivity|].
            pose proof (def_value_mono _ _ _ _ Hx Hu). congruence.
          * apply Hx; exact Hn.
        + intros d' Hd'. apply Hin; right; exact Hd'.
        + intros d' Hd'. rewrite sget_sset. destruct (String.eqb (def_name d') (def_name d)) eqn:En.
          * apply String.eqb_eq in En. exfalso. apply Hni. rewrite <- En. apply in_map; assumption.
          * apply F; right; assumption. }
    assert (HxT : Ext (utable s') T).
    { apply (Hgen L' t0); try assumption. intros d Hd. eapply Permutation_in; [symmetry; exact P'|exact Hd]. }
    destruct (definable_facts L' t0 (utable s') HndL' HfL' D') as (_ & Hv' & Ho').
    intros n. destruct (in_dec string_dec n (names_of ds)) as [Hn|Hn].
    + apply in_map_iff in Hn as (d & <- & Hd).
      destruct (Hv' d) as (u & _ & Hu); [eapply Permutation_in; [exact P'|exact Hd]|].
      rewrite Hu. symmetry. apply HxT. exact Hu.
    + rewrite Ho', HoL; [reflexivity| |].
      * intros H. apply Hn. eapply Permutation_in; [symmetry; apply names_of_perm; exact HP|exact H].
      * intros H. apply Hn. eapply Permutation_in; [symmetry; apply names_of_perm; exact P'|exact H].
Qed.

(** C07 *)
Lemma update_library_iff_definable : forall px order t0 ds,
    set_order order -> NoDup (map def_name ds) -> (forall d, In d ds -> loadable t0 d) ->
    ((exists s', update_library px order (mkUState t0 []) ds = Ok s') <->
     (exists L T, Permutation ds L /\ definable t0 L T)).
Proof.
  intros px order t0 ds Ho Hnd Hl. split.
  - intros [s' H]. destruct (update_library_definable px order t0 ds s' Ho Hnd Hl H) as (L & P & D).
    exists L, (utable s'). split; assumption.
  - intros (L & T & P & D).
    destruct (definable_update_library px order t0 ds L T Ho Hnd Hl P D) as (s' & E & _).
    exists s'; exact E.
Qed.

Lemma update_library_order_independent : forall px order order' t0 ds ds' s,
    set_order order -> set_order order' -> NoDup (map def_name ds) ->
    (forall d, In d ds -> loadable t0 d) -> Permutation ds ds' ->
    update_library px order (mkUState t0 []) ds = Ok s ->
    exists s', update_library px order' (mkUState t0 []) ds' = Ok s' /\
               same_table (utable s) (utable s').
Proof.
  intros px order order' t0 ds ds' s Ho Ho' Hnd Hl HP H.
  destruct (update_library_definable px order t0 ds s Ho Hnd Hl H) as (L & P & D).
  destruct (definable_update_library px order' t0 ds' L (utable s) Ho') as (s' & E & S).
  - eapply NoDup_perm_names; eassumption.
  - intros d Hd. apply Hl. eapply Permutation_in; [symmetry; exact HP|exact Hd].
  - rewrite <- HP. exact P.
  - exact D.
  - exists s'. split; [exact E|]. intros n. symmetry. apply S.
Qed.

(** the table produced satisfies every definition and contains nothing else *)
Lemma update_library_sound : forall px order t0 ds s,
    set_order order -> NoDup (map def_name ds) -> (forall d, In d ds -> loadable t0 d) ->
    update_library px order (mkUState t0 []) ds = Ok s ->
    (forall d, In d ds -> exists u, def_value (utable s) d = Ok u /\ sget (utable s) (def_name d) = Some u) /\
    (forall n, ~ In n (map def_name ds) -> sget (utable s) n = sget t0 n).
Proof.
  intros px order t0 ds s Ho Hnd Hl H.
  destruct (update_library_definable px order t0 ds s Ho Hnd Hl H) as (L & P & D).
  destruct (definable_facts L t0 (utable s)) as (_ & Hv & Hn).
  - eapply NoDup_perm_names; eassumption.
  - intros d Hd. apply (Hl d). eapply Permutation_in; [symmetry; exact P|exact Hd].
  - exact D.
  - split.
    + intros d Hd. apply Hv. eapply Permutation_in; [exact P|exact Hd].
    + intros n Hni. apply Hn. intros Hin. apply Hni.
      eapply Permutation_in; [symmetry; apply names_of_perm; exact P|exact Hin].
Qed.

(** ** redefinitions *)
Lemma redefinition : forall t name u,
    match sget t name with
    | Some old =>
        (factor old == factor u /\ powers old = powers u -> exists t', add_unit t name u = Ok t' /\
            sget t' name = Some u /\ forall n, n <> name -> sget t' n = sget t n) /\
        (~ (factor old == factor u /\ powers old = powers u) -> add_unit t name u = Err KeyError)
    | None => exists t', add_unit t name u = Ok t' /\ sget t' name = Some u /\ forall n, n <> name -> sget t' n = sget t n
    end.
Proof.
  intros t name u. unfold add_unit.
  assert (G : sget (sset t name u) name = Some u /\ forall n, n <> name -> sget (sset t name u) n = sget t n).
  { split.
    - rewrite sget_sset, String.eqb_refl. reflexivity.
    - intros n Hn. rewrite sget_sset. destruct (String.eqb_spec n name); [congruence|]. reflexivity. }
  destruct (sget t name) as [old|]; [|eexists; split; [reflexivity|exact G]].
  destruct (Qeq_bool (factor old) (factor u)) eqn:E1, (zlist_eqb (powers old) (powers u)) eqn:E2; simpl.
  - apply Qeq_bool_iff in E1. apply zlist_eqb_iff in E2. split; [|tauto]. intros _. eexists; split; [reflexivity|exact G].
  - apply zlist_eqb_false in E2. split; [|reflexivity]. intros [_ H]. contradiction.
  - split; [|reflexivity]. intros [H _]. apply Qeq_bool_iff in H. congruence.
  - split; [|reflexivity]. intros [H _]. apply Qeq_bool_iff in H. congruence.
Qed.

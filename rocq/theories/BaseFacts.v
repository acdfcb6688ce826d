(** Facts about the common vocabulary. *)
From Verif Require Import Base.

Section DictFacts.
  Context {K V : Type} (eqb : K -> K -> bool).
  Hypothesis eqb_spec : forall a b, eqb a b = true <-> a = b.

  Lemma eqb_refl' : forall a, eqb a a = true.
  Proof. intros a; apply eqb_spec; reflexivity. Qed.

  Lemma eqb_neq' : forall a b, a <> b -> eqb a b = false.
  Proof.
    intros a b H. destruct (eqb a b) eqn:E; [|reflexivity].
    apply eqb_spec in E. contradiction.
  Qed.

  Lemma dget_dset_eq : forall (d : list (K * V)) k v, dget eqb (dset eqb d k v) k = Some v.
  Proof.
    induction d as [|[k' v'] d IH]; intros k v; simpl.
    - rewrite eqb_refl'; reflexivity.
    - destruct (eqb k k') eqn:E; simpl; rewrite E; [reflexivity|apply IH].
  Qed.

  Lemma dget_dset_ne : forall (d : list (K * V)) k k' v,
      k' <> k -> dget eqb (dset eqb d k v) k' = dget eqb d k'.
  Proof.
    induction d as [|[k0 v0] d IH]; intros k k' v Hne; simpl.
    - rewrite eqb_neq' by assumption; reflexivity.
    - destruct (eqb k k0) eqn:E; simpl.
      + apply eqb_spec in E; subst k0. rewrite eqb_neq' by assumption. reflexivity.
      + destruct (eqb k' k0); [reflexivity|apply IH; assumption].
  Qed.

  Lemma dget_dset : forall (d : list (K * V)) k k' v,
      dget eqb (dset eqb d k v) k' = if eqb k' k then Some v else dget eqb d k'.
  Proof.
    intros d k k' v. destruct (eqb k' k) eqn:E.
    - apply eqb_spec in E; subst. apply dget_dset_eq.
    - apply dget_dset_ne. intros ->. rewrite eqb_refl' in E; discriminate.
  Qed.

  Lemma dget_in : forall (d : list (K * V)) k v, dget eqb d k = Some v -> In (k, v) d.
  Proof.
    induction d as [|[k' v'] d IH]; simpl; intros k v H; [discriminate|].
    destruct (eqb k k') eqn:E.
    - apply eqb_spec in E; subst. injection H as ->. left; reflexivity.
    - right; apply IH; assumption.
  Qed.

  Lemma dget_none : forall (d : list (K * V)) k, dget eqb d k = None <-> ~ In k (dkeys d).
  Proof.
    induction d as [|[k' v'] d IH]; simpl; intros k.
    - split; [intros _ []|reflexivity].
    - destruct (eqb k k') eqn:E.
      + apply eqb_spec in E; subst. split; [discriminate|intros H; exfalso; apply H; left; reflexivity].
      + rewrite IH. split; intros H.
        * intros [->|Hin]; [rewrite eqb_refl' in E; discriminate|contradiction].
        * intros Hin; apply H; right; assumption.
  Qed.

  Lemma dget_some_in_keys : forall (d : list (K * V)) k v, dget eqb d k = Some v -> In k (dkeys d).
  Proof.
    intros d k v H. apply dget_in in H. unfold dkeys. change k with (fst (k, v)).
    apply in_map; assumption.
  Qed.

  Lemma in_dget : forall (d : list (K * V)) k v,
      NoDup (dkeys d) -> In (k, v) d -> dget eqb d k = Some v.
  Proof.
    induction d as [|[k' v'] d IH]; simpl; intros k v Hnd Hin; [contradiction|].
    inversion Hnd as [|x l Hni Hnd' Heq]; subst.
    destruct Hin as [Heq|Hin].
    - injection Heq as -> ->. rewrite eqb_refl'. reflexivity.
    - rewrite eqb_neq'; [apply IH; assumption|].
      intros ->. apply Hni. unfold dkeys. change k' with (fst (k', v)). apply in_map; assumption.
  Qed.

  Lemma dkeys_dset_in : forall (d : list (K * V)) k v,
      In k (dkeys d) -> dkeys (dset eqb d k v) = dkeys d.
  Proof.
    induction d as [|[k' v'] d IH]; simpl; intros k v Hin; [contradiction|].
    destruct (eqb k k') eqn:E; simpl; [reflexivity|].
    destruct Hin as [->|Hin]; [rewrite eqb_refl' in E; discriminate|].
    f_equal. apply IH; assumption.
  Qed.

  Lemma dkeys_dset_new : forall (d : list (K * V)) k v,
      ~ In k (dkeys d) -> dkeys (dset eqb d k v) = dkeys d ++ [k].
  Proof.
    induction d as [|[k' v'] d IH]; simpl; intros k v Hni; [reflexivity|].
    rewrite eqb_neq' by (intros ->; apply Hni; left; reflexivity). simpl.
    f_equal. apply IH. intros H; apply Hni; right; assumption.
  Qed.
End DictFacts.

Lemma NoDup_snoc : forall {A} (l : list A) x, NoDup l -> ~ In x l -> NoDup (l ++ [x]).
Proof.
  intros A l x Hnd Hni. induction l as [|y l IH]; simpl.
  - constructor; [intros []|constructor].
  - inversion Hnd as [|z l' Hy Hl]; subst. constructor.
    + rewrite in_app_iff. intros [H|[->|[]]]; [contradiction|]. apply Hni; left; reflexivity.
    + apply IH; [assumption|]. intros H; apply Hni; right; assumption.
Qed.

Lemma NoDup_dkeys_dset : forall {K V} (eqb : K -> K -> bool)
    (eqb_spec : forall a b, eqb a b = true <-> a = b) (d : list (K * V)) k v,
    NoDup (dkeys d) -> NoDup (dkeys (dset eqb d k v)).
Proof.
  intros K V eqb Hs d k v Hnd. destruct (dget eqb d k) eqn:E.
  - rewrite dkeys_dset_in by (try assumption; eapply dget_some_in_keys; eassumption). assumption.
  - apply dget_none in E; [|assumption]. rewrite dkeys_dset_new by assumption.
    apply NoDup_snoc; assumption.
Qed.

Lemma sget_sset : forall {V} (d : list (string * V)) k k' v,
    sget (sset d k v) k' = if String.eqb k' k then Some v else sget d k'.
Proof. intros. apply dget_dset. apply String.eqb_eq. Qed.

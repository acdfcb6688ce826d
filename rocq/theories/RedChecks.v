(** Checks that show the hypotheses of the theorems of RedProps.v met by concrete systems
    over the integers; used by the examples only. *)
From Verif Require Import Base LinModel LinSpec LinProofs LinProofs2 GradModel GradSpec RedModel RedSpec.
Local Open Scope string_scope.
Local Open Scope nat_scope.
Local Open Scope list_scope.

Definition memb (k : nat) (l : list nat) : bool := existsb (Nat.eqb k) l.
Lemma memb_in : forall k l, memb k l = true -> In k l.
Proof. intros k l H. apply existsb_exists in H. destruct H as (x & Hx & E). apply Nat.eqb_eq in E. subst. exact Hx. Qed.
Fixpoint distinct {A} (eqb : A -> A -> bool) (l : list A) : bool := match l with [] => true | a :: l' => negb (existsb (eqb a) l') && distinct eqb l' end.
Lemma distinct_ok : forall A (eqb : A -> A -> bool), (forall a, eqb a a = true) -> forall l, distinct eqb l = true -> NoDup l.
Proof.
  intros A eqb R. induction l as [|a l IH]; cbn; intros H; constructor; apply andb_true_iff in H; destruct H as [H1 H2]; auto.
  intros Hin. apply negb_true_iff in H1. assert (existsb (eqb a) l = true) by (apply existsb_exists; exists a; auto). congruence.
Qed.
Definition within (l m : list nat) : bool := forallb (fun k => memb k m) l.
Lemma within_ok : forall l m, within l m = true -> incl l m.
Proof. intros l m H k Hk. unfold within in H. rewrite forallb_forall in H. apply memb_in, H, Hk. Qed.

Definition fitsb (c : comp (F:=Z)) (key : string * string * mat (F:=Z)) : bool :=
  let '(un, pn, J) := key in
  match unknown_of c un with
  | None => true
  | Some u => match state_of c pn with
              | Some x => (m_rows J =? u_size u) && (m_cols J =? u_size x)
              | None => match param_of c pn with Some p => (m_rows J =? u_size u) && (m_cols J =? p_size p) | None => true end
              end
  end.
Definition compb (c : comp (F:=Z)) : bool :=
  distinct Nat.eqb (ucells (c_unks c)) && distinct Nat.eqb (pcells (c_params c)) &&
  match c_jac c with
  | Some l => forallb (fitsb c) l && match c_params c, l with [], _ :: _ => false | _, _ => true end
  | None => false
  end.
Definition forwardb (subs : list (sys (F:=Z))) (k : conn) : bool :=
  (k_ssub k <? k_tsub k) &&
  match nth_error subs (k_ssub k) with Some s => memb (k_src k) (rows s) | None => false end &&
  match nth_error subs (k_tsub k) with Some s => memb (k_tgt k) (outside_params s) | None => false end.
Fixpoint sysb (s : sys (F:=Z)) : bool :=
  match s with
  | Comp c => compb c
  | Indep us => distinct Nat.eqb (ucells us) && forallb (fun u => negb (u_state u)) us
  | FdGroup _ _ => false
  | Group _ _ ks subs =>
      distinct Nat.eqb (flat_map rows subs) && distinct Nat.eqb (flat_map all_params subs) && distinct Nat.eqb (map k_tgt ks) &&
      within (map k_tgt ks) (flat_map outside_params subs) && within (map k_src ks) (flat_map rows subs) && forallb sysb subs
  end.
Lemma compb_ok : forall c, compb c = true -> wf_comp c.
Proof.
  intros c H. unfold compb in H. rewrite !andb_true_iff in H. destruct H as [[H1 H2] H3].
  split; [exact (distinct_ok _ _ Nat.eqb_refl _ H1)|]. split; [exact (distinct_ok _ _ Nat.eqb_refl _ H2)|].
  destruct (c_jac c) as [l|]; [|discriminate]. apply andb_true_iff in H3. destruct H3 as [H3 H4]. exists l. split; [reflexivity|]. split.
  - apply Forall_forall. rewrite forallb_forall in H3. intros [[un pn] J] Hk. apply fits_key. exact (H3 _ Hk).
  - intros E. rewrite E in H4. destruct l; [reflexivity|discriminate].
Qed.
Lemma all_fold : forall A (P : A -> Prop) l, (forall x, In x l -> P x) -> fold_right (fun x Q => P x /\ Q) True l.
Proof. induction l as [|a l IH]; cbn; intros H; [exact I|]. split; [apply H; left; reflexivity|apply IH; intros; apply H; right; assumption]. Qed.
Lemma sysb_ok : forall s, sysb s = true -> wf s.
Proof.
  induction s as [c|us|ks c|ns sv ks subs IH] using sys_ind'; cbn [sysb]; intros H.
  - apply compb_ok. exact H.
  - apply andb_true_iff in H. destruct H as [H1 H2]. split; [exact (distinct_ok _ _ Nat.eqb_refl _ H1)|]. apply Forall_forall. rewrite forallb_forall in H2.
    intros u Hu. apply negb_true_iff. exact (H2 u Hu).
  - discriminate.
  - rewrite !andb_true_iff in H. destruct H as [[[[[H1 H2] H3] H4] H5] H6].
    split; [exact (distinct_ok _ _ Nat.eqb_refl _ H1)|]. split; [exact (distinct_ok _ _ Nat.eqb_refl _ H2)|]. split; [exact (distinct_ok _ _ Nat.eqb_refl _ H3)|].
    split; [apply within_ok; exact H4|]. split; [apply within_ok; exact H5|].
    apply all_fold. rewrite forallb_forall in H6. rewrite Forall_forall in IH. intros s Hs. apply IH; auto.
Qed.

(** explicit components without resid_scaler, and connections that lead forward *)
Fixpoint plainb (s : sys (F:=Z)) : bool :=
  match s with
  | Comp c => match c_solve c with None => forallb (fun u => negb (u_state u) && match u_scale u with None => true | Some _ => false end) (c_unks c) | Some _ => false end
  | Indep us => true
  | Group _ None ks subs => forallb (forwardb subs) ks && forallb plainb subs
  | _ => false
  end.
Lemma plainb_ok : forall s, plainb s = true -> (forall fwd, feed_forward 0%Z 1%Z Z.add Z.mul Z.opp fwd s) /\ unscaled s.
Proof.
  induction s as [c|us|ks c|ns sv ks subs IH] using sys_ind'; cbn [plainb]; intros H.
  - cbn. destruct (c_solve c); [discriminate|]. rewrite forallb_forall in H. split.
    + intros _. apply Forall_forall. intros u Hu. specialize (H u Hu). apply andb_true_iff in H. apply negb_true_iff. tauto.
    + right. apply Forall_forall. intros u Hu. specialize (H u Hu). apply andb_true_iff in H. destruct (u_scale u); [destruct H; discriminate|reflexivity].
  - split; [intros; exact I|exact I].
  - discriminate.
  - destruct sv; [discriminate|]. apply andb_true_iff in H. destruct H as [H1 H2]. rewrite forallb_forall in H1, H2. rewrite Forall_forall in IH. split.
    + intros fwd. split; [|apply all_fold; intros s Hs; apply IH; auto].
      apply Forall_forall. intros k Hk. specialize (H1 k Hk). unfold forwardb in H1. rewrite !andb_true_iff in H1. destruct H1 as [[A B] C].
      split; [apply Nat.ltb_lt; exact A|]. split.
      * destruct (nth_error subs (k_ssub k)) as [s|]; [|discriminate]. exists s. split; [reflexivity|apply memb_in; exact B].
      * destruct (nth_error subs (k_tsub k)) as [s|]; [|discriminate]. exists s. split; [reflexivity|apply memb_in; exact C].
    + apply all_fold. intros s Hs. apply IH; auto.
Qed.

Section Keep.
  Variables ku kp : nat -> bool.
  Definition whole_usb (us : list (uvar (F:=Z))) : bool := forallb (fun u => forallb (fun i => eqb (ku (u_off u + i)) (ku (u_off u))) (seq 0 (u_size u))) us.
  Definition whole_compb (c : comp (F:=Z)) : bool :=
    distinct String.eqb (map u_name (c_unks c)) && distinct String.eqb (map p_name (c_params c)) &&
    forallb (fun u => forallb (fun p => negb (String.eqb (u_name u) (p_name p))) (c_params c)) (c_unks c) &&
    whole_usb (c_unks c) && forallb (fun p => forallb (fun i => eqb (kp (p_off p + i)) (kp (p_off p))) (seq 0 (p_size p))) (c_params c).
  Definition kept_connsb (ks : list conn) (m : list (entry (F:=Z))) : bool :=
    forallb (fun k => implb (kp (k_tgt k)) (ku (k_src k)) &&
      forallb (fun e => match e_col e with CP t => implb (t =? k_tgt k) (implb (ku (e_row e)) (implb (ku (k_src k)) (kp (k_tgt k)))) | CU _ => true end) m) ks.
  Notation mat0 := (sys_mat 1%Z Z.mul Z.opp None).
  Fixpoint wholeb (s : sys (F:=Z)) : bool :=
    match s with
    | Comp c => whole_compb c
    | Indep us => whole_usb us
    | FdGroup _ _ => false
    | Group _ _ ks subs => forallb wholeb subs && kept_connsb ks (flat_map mat0 subs)
    end.
  Lemma whole_usb_ok : forall us, whole_usb us = true -> whole_us ku us.
  Proof.
    intros us H u i Hu Hi. unfold whole_usb in H. rewrite forallb_forall in H. specialize (H u Hu). rewrite forallb_forall in H.
    apply eqb_prop, H, in_seq. lia.
  Qed.
  Lemma implb_use : forall a b, implb a b = true -> a = true -> b = true.
  Proof. intros [] []; cbn; auto. Qed.
  Lemma wholeb_ok : forall s, wholeb s = true -> whole 1%Z Z.mul Z.opp ku kp s.
  Proof.
    induction s as [c|us|ks c|ns sv ks subs IH] using sys_ind'; cbn [wholeb]; intros H.
    - unfold whole_compb in H. rewrite !andb_true_iff in H. destruct H as [[[[H1 H2] H3] H4] H5].
      split; [exact (distinct_ok _ _ String.eqb_refl _ H1)|]. split; [exact (distinct_ok _ _ String.eqb_refl _ H2)|]. split; [|split; [apply whole_usb_ok; exact H4|]].
      + intros u p Hu Hp E. rewrite forallb_forall in H3. specialize (H3 u Hu). rewrite forallb_forall in H3. specialize (H3 p Hp). apply negb_true_iff in H3.
        apply String.eqb_neq in H3. exact (H3 E).
      + intros p i Hp Hi. rewrite forallb_forall in H5. specialize (H5 p Hp). rewrite forallb_forall in H5. apply eqb_prop, H5, in_seq. lia.
    - apply whole_usb_ok. exact H.
    - discriminate.
    - apply andb_true_iff in H. destruct H as [H1 H2]. rewrite forallb_forall in H1. rewrite Forall_forall in IH. split; [apply all_fold; intros s Hs; apply IH; auto|].
      intros k Hk. unfold kept_connsb in H2. rewrite forallb_forall in H2. specialize (H2 k Hk). apply andb_true_iff in H2. destruct H2 as [A B].
      split; [apply implb_use; exact A|]. intros e He Ee Kr Ks. rewrite forallb_forall in B. specialize (B e He). rewrite Ee, Nat.eqb_refl, Kr, Ks in B. exact B.
  Qed.

  Definition relevantb (fwd : bool) (s : sys (F:=Z)) (froms asked : list nat) (reach : nat -> bool) : bool :=
    forallb reach froms &&
    forallb (fun e => match e_col e with
                      | CU c => let r := e_row e in
                          (if fwd then implb (reach c) (reach r) else implb (reach r) (reach c)) &&
                          (if fwd then implb (ku r) (implb (reach c) (ku c)) else implb (ku c) (implb (reach r) (ku r)))
                      | CP _ => true
                      end) (mat0 s) &&
    forallb (fun k => implb (ku k) (reach k)) (rows s) && forallb (fun k => implb (reach k) (ku k)) asked.
  Lemma relevantb_ok : forall fwd s froms asked reach, relevantb fwd s froms asked reach = true -> relevant 1%Z Z.mul Z.opp ku fwd s froms asked.
  Proof.
    intros fwd s froms asked reach H. unfold relevantb in H. rewrite !andb_true_iff, !forallb_forall in H. destruct H as [[[H1 H2] H3] H4].
    exists reach. split; [exact H1|].
    assert (D : forall r c, depends 1%Z Z.mul Z.opp s r c ->
        (if fwd then implb (reach c) (reach r) else implb (reach r) (reach c)) = true /\
        (if fwd then implb (ku r) (implb (reach c) (ku c)) else implb (ku c) (implb (reach r) (ku r))) = true).
    { intros r c (e & He & <- & Ec). specialize (H2 e He). rewrite Ec in H2. apply andb_true_iff in H2. exact H2. }
    split; [|split; [|split]].
    - intros r c Hd. destruct (D r c Hd) as [A _]. destruct fwd; apply implb_use; exact A.
    - intros k Hk. apply implb_use. exact (H3 k Hk).
    - intros r c Hd. destruct (D r c Hd) as [_ A]. destruct fwd; intros U V; exact (implb_use _ _ (implb_use _ _ A U) V).
    - intros k Hk. apply implb_use. exact (H4 k Hk).
  Qed.
End Keep.

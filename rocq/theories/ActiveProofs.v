(** Lemmas about active-set screening. *)
From Verif Require Import Base BaseFacts ActiveModel ActiveSpec.
From Coq Require Import Qabs Lqa.
Local Open Scope string_scope.
Local Open Scope Q_scope.
Local Open Scope list_scope.

Lemma qlt_iff : forall a b, qlt a b = true <-> a < b.
Proof. intros a b. unfold qlt. rewrite negb_true_iff. destruct (Qle_bool b a) eqn:E. - split; [discriminate|]. intros L. apply Qle_bool_iff in E. lra. - split; [|reflexivity]. intros _. apply Qnot_le_lt. intros L. apply Qle_bool_iff in L. congruence. Qed.

Definition tol_is (t : tolerance) (j : nat) (q : Q) : Prop := t = TFloat q \/ exists a, t = TArr a /\ nth_error a j = Some q.
Lemma tol_at_ok : forall t j q, tol_at t j = Ok q <-> tol_is t j q.
Proof.
  intros [x|z|l] j q; cbn; unfold tol_is.
  - split; [intros E; injection E as <-; left; reflexivity|]. intros [E|(a & E & _)]; [injection E as <-; reflexivity|discriminate].
  - split; [discriminate|]. intros [E|(a & E & _)]; discriminate.
  - destruct (nth_error l j) eqn:E; split; intros H; try discriminate.
    + injection H as <-. right. exists l. auto.
    + destruct H as [H|(a & H & H')]; [discriminate|]. injection H as <-. rewrite E in H'. injection H' as <-. reflexivity.
    + destruct H as [H|(a & H & H')]; [discriminate|]. injection H as <-. congruence.
Qed.
(** when an index is appended *)
Definition marked (t : tolerance) (c : pycon) (j : nat) (v : Q) : Prop :=
  exists l u q, nth_error (p_lower c) j = Some l /\ nth_error (p_upper c) j = Some u /\ tol_is t j q /\
    ((exists b, l = Some b /\ b + q < v) \/ (exists b, u = Some b /\ v < b - q)).
Lemma inactive_idx_in : forall t c val k idx, inactive_idx t c k val = Ok idx ->
    forall j, In j idx <-> exists v, (k <= j)%nat /\ nth_error val (j - k) = Some v /\ marked t c j v.
Proof.
  intros t c. induction val as [|v r IH]; intros k idx E j; cbn [inactive_idx] in E.
  - injection E as <-. split; [intros []|]. intros (v & _ & X & _). destruct (j - k)%nat; discriminate.
  - destruct (tol_at t k) as [q|] eqn:ET; [|discriminate]. unfold item_at in E. destruct (nth_error (p_lower c) k) as [l|] eqn:EL; [|discriminate]. destruct (nth_error (p_upper c) k) as [u|] eqn:EU; [|discriminate]. destruct (inactive_idx t c (S k) r) as [rest|] eqn:ER; [|discriminate]. cbn [bind] in E. injection E as <-.
    apply tol_at_ok in ET.
    assert (A : forall (o : option Q) (f : Q -> bool), In j (match o with Some b => if f b then [k] else [] | None => [] end) <-> j = k /\ exists b, o = Some b /\ f b = true).
    { intros [b|] f; [|split; [intros []|intros (_ & b & X & _); discriminate]]. destruct (f b) eqn:F; cbn; split.
      - intros [<- |[]]. eauto.
      - intros (-> & _). auto.
      - intros [].
      - intros (_ & b' & X & Y). injection X as <-. congruence. }
    rewrite !in_app_iff. rewrite (A l (fun b => qlt (b + q) v)), (A u (fun b => qlt v (b - q))), (IH _ _ ER j). split.
    + intros [(-> & b & -> & F)|[(-> & b & -> & F)|(w & L & N & M)]].
      * exists v. rewrite Nat.sub_diag. split; [lia|]. split; [reflexivity|]. apply qlt_iff in F. do 3 eexists. repeat split; eauto.
      * exists v. rewrite Nat.sub_diag. split; [lia|]. split; [reflexivity|]. apply qlt_iff in F. do 3 eexists. repeat split; eauto.
      * exists w. split; [lia|]. split; [|exact M]. replace (j - k)%nat with (S (j - S k)) by lia. exact N.
    + intros (w & L & N & M). destruct (Nat.eq_dec j k) as [-> |NE].
      * rewrite Nat.sub_diag in N. injection N as <-. destruct M as (l' & u' & q' & E1 & E2 & E3 & M). rewrite EL in E1. rewrite EU in E2. injection E1 as <-. injection E2 as <-.
        assert (q' = q). { apply tol_at_ok in E3, ET. congruence. } subst q'.
        destruct M as [(b & -> & F)|(b & -> & F)]; apply qlt_iff in F; [left|right; left]; eauto.
      * right. right. exists w. split; [lia|]. split; [|exact M]. replace (j - k)%nat with (S (j - S k)) in N by lia. exact N.
Qed.
Lemma inactive_idx_total : forall t c val k, (k + length val <= length (p_lower c))%nat -> (k + length val <= length (p_upper c))%nat ->
    (forall j, (k <= j < k + length val)%nat -> exists q, tol_is t j q) -> exists idx, inactive_idx t c k val = Ok idx.
Proof.
  intros t c. induction val as [|v r IH]; intros k L U T; [eexists; reflexivity|]. cbn [inactive_idx length] in *. destruct (T k) as (q & Q0); [lia|]. apply tol_at_ok in Q0. rewrite Q0. unfold item_at.
  destruct (nth_error (p_lower c) k) eqn:EL; [|apply nth_error_None in EL; lia]. destruct (nth_error (p_upper c) k) eqn:EU; [|apply nth_error_None in EU; lia]. destruct (IH (S k)) as (rest & ER); [lia|lia|intros j J; apply T; lia|]. cbn [bind]. rewrite ER. eexists. reflexivity.
Qed.
Lemma complete_total : forall t c, complete t c -> exists idx, inactive_idx t c 0 (p_value c) = Ok idx.
Proof.
  intros t c (L & U & T). apply inactive_idx_total; [lia|lia|]. intros j J. destruct T as [(q & ->)|(a & -> & La)]; [exists q; left; reflexivity|]. destruct (nth_error a j) as [q|] eqn:E; [|apply nth_error_None in E; lia]. exists q. right. eauto.
Qed.

Lemma inactives_in : forall tols cons ina, inactives_of tols cons = Ok ina -> forall v i, skipped false ina v i = true ->
    exists t c x, In (v, t) tols /\ In (v, c) cons /\ nth_error (p_value c) i = Some x /\ marked t c i x.
Proof.
  induction tols as [|[n t] r IH]; intros cons ina E v i S; cbn [inactives_of] in E.
  - injection E as <-. discriminate.
  - destruct (dget String.eqb cons n) as [c|] eqn:D; [|discriminate]. destruct (inactive_idx t c 0 (p_value c)) as [idx|] eqn:EI; [|discriminate]. destruct (inactives_of r cons) as [rest|] eqn:ER; [|discriminate]. cbn [bind] in E.
    assert (C : ina = (n, idx) :: rest \/ ina = rest) by (destruct idx; injection E as <-; auto).
    assert (R : skipped false rest v i = true -> exists t0 c0 x, In (v, t0) ((n, t) :: r) /\ In (v, c0) cons /\ nth_error (p_value c0) i = Some x /\ marked t0 c0 i x).
    { intros H. destruct (IH cons rest ER v i H) as (t0 & c0 & x & I1 & I2 & I3 & I4). exists t0, c0, x. cbn; auto. }
    destruct C as [-> | ->]; [|apply R; exact S].
    unfold skipped in S. cbn [negb andb dget] in S. destruct (String.eqb v n) eqn:EQ; [|apply R; exact S].
    apply String.eqb_eq in EQ. subst v. apply existsb_exists in S. destruct S as (j & Ij & Ej). apply Nat.eqb_eq in Ej. subst j.
    apply (inactive_idx_in _ _ _ _ _ EI) in Ij. destruct Ij as (x & _ & N & M). rewrite Nat.sub_0_r in N. exists t, c, x. split; [left; reflexivity|]. split; [|auto].
    apply dget_in in D; [|intros; apply String.eqb_eq; assumption]. exact D.
Qed.
Lemma inactives_total : forall tols cons, (forall n t, In (n, t) tols -> exists c, dget String.eqb cons n = Some c /\ complete t c) -> exists ina, inactives_of tols cons = Ok ina.
Proof.
  induction tols as [|[n t] r IH]; intros cons H; [eexists; reflexivity|]. cbn [inactives_of]. destruct (H n t (or_introl eq_refl)) as (c & D & C). rewrite D. destruct (complete_total t c C) as (idx & E). rewrite E. destruct (IH cons) as (rest & ER); [intros; apply H; right; assumption|]. cbn [bind]. rewrite ER. cbn [bind]. destruct idx; eexists; reflexivity.
Qed.
(** with at most one bound, marked entries are far from it *)
Lemma marked_far : forall t c j v, one_sided c -> nth_error (p_value c) j = Some v -> marked t c j v -> entry_far t c j.
Proof.
  intros t c j v O V (l & u & q & E1 & E2 & T & M). exists v, l, u, q. do 3 (split; [assumption|]). split; [exact T|].
  assert (A1 : forall a b, q < a - b -> q < Qabs (a - b)) by (intros a b X; assert (Y := Qle_Qabs (a - b)); lra).
  assert (A2 : forall a b, q < b - a -> q < Qabs (a - b)) by (intros a b X; rewrite Qabs_Qminus; assert (Y := Qle_Qabs (b - a)); lra).
  destruct M as [(b & -> & L)|(b & -> & L)].
  - split; intros b' Hb; [injection Hb as <-; apply A1; lra|]. subst u. rewrite <- (O j b b' E1 E2). apply A1; lra.
  - split; intros b' Hb; [|injection Hb as <-; apply A2; lra]. subst l. rewrite (O j b' b E1 E2). apply A2; lra.
Qed.

Lemma group_rows_in : forall fwd ina len sol params n v i row, In ((v, i), row) (group_rows fwd ina len sol params n) <->
    In v params /\ (i < n)%nat /\ row = (if skipped fwd ina (last params "") i then repeat 0 (len (last params "")) else sol v i).
Proof.
  intros. unfold group_rows. rewrite in_flat_map. split.
  - intros (k & Ik & I). apply in_map_iff in I. destruct I as (w & E & Iw). injection E as -> -> <-. apply in_seq in Ik. repeat split; auto; lia.
  - intros (Iv & L & ->). exists i. split; [apply in_seq; lia|]. apply in_map_iff. exists v. auto.
Qed.
Lemma all_rows_in : forall fwd ina len sol sets v i row, In ((v, i), row) (all_rows fwd ina len sol sets) <->
    exists params n, In (params, n) sets /\ In v params /\ (i < n)%nat /\ row = (if skipped fwd ina (last params "") i then repeat 0 (len (last params "")) else sol v i).
Proof.
  intros. unfold all_rows. rewrite in_flat_map. split.
  - intros ([params n] & I & H). apply group_rows_in in H. exists params, n. intuition.
  - intros (params & n & I & H). exists (params, n). split; [exact I|]. apply group_rows_in. exact H.
Qed.
Lemma last_in : forall (l : list string) d v, In v l -> In (last l d) l.
Proof. induction l as [|a [|b l] IH]; intros d v I; [destruct I|left; reflexivity|]. right. apply (IH d b). left. reflexivity. Qed.

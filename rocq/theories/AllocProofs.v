(** Lemmas about processor allocation. *)
From Coq Require Import Permutation Sorting.Sorted.
From Verif Require Import Base AllocModel AllocSpec.
Local Open Scope nat_scope.

(** ** one pass of the round robin *)
Lemma rr_pass_gen : forall mxs asg n lim r n', length asg = length mxs -> n < lim -> rr_pass mxs asg n lim = (r, n') ->
    length r = length asg /\ list_sum r + n = list_sum asg + n' /\ n <= n' <= lim /\
    (Forall2 at_most asg mxs -> Forall2 at_most r mxs).
Proof.
  induction mxs as [|m mxs IH]; intros asg n lim r n' HL Hn H.
  - destruct asg; [|discriminate]. cbn in H. injection H as <- <-. repeat split; auto; lia.
  - destruct asg as [|a asg]; [discriminate|]. cbn [rr_pass] in H. injection HL as HL.
    assert (A : room m a = true -> at_most a m -> at_most (S a) m).
    { unfold room, at_most. destruct m as [k|]; [|auto]. intros E _. apply Nat.ltb_lt in E. lia. }
    destruct (room m a) eqn:Er.
    + destruct (S n =? lim) eqn:E.
      * injection H as <- <-. apply Nat.eqb_eq in E. cbn [length list_sum fold_right]. unfold list_sum. cbn [fold_right].
        repeat split; try lia. intros HF. inversion HF; subst. constructor; auto.
      * destruct (rr_pass mxs asg (S n) lim) as [r1 n1] eqn:E1. injection H as <- <-.
        apply Nat.eqb_neq in E. destruct (IH asg (S n) lim r1 n1 HL) as (I1 & I2 & I3 & I4); [lia|exact E1|].
        change (list_sum (S a :: r1)) with (S a + list_sum r1). change (list_sum (a :: asg)) with (a + list_sum asg).
        cbn [length]. repeat split; try lia. intros HF. inversion HF; subst. constructor; auto.
    + destruct (rr_pass mxs asg n lim) as [r1 n1] eqn:E1. injection H as <- <-.
      destruct (IH asg n lim r1 n1 HL) as (I1 & I2 & I3 & I4); [lia|exact E1|].
      change (list_sum (a :: r1)) with (a + list_sum r1). change (list_sum (a :: asg)) with (a + list_sum asg).
      cbn [length]. repeat split; try lia. intros HF. inversion HF; subst. constructor; auto.
Qed.

(** a pass that assigns nothing has found everybody at the maximum *)
Lemma rr_pass_stuck : forall mxs asg n lim r, length asg = length mxs -> n < lim -> rr_pass mxs asg n lim = (r, n) ->
    exists c, capacity mxs = Some c /\ c <= list_sum asg.
Proof.
  induction mxs as [|m mxs IH]; intros asg n lim r HL Hn H.
  - exists 0. split; [reflexivity|lia].
  - destruct asg as [|a asg]; [discriminate|]. cbn [rr_pass] in H. injection HL as HL. destruct (room m a) eqn:Er.
    + destruct (S n =? lim) eqn:E; [injection H as _ H; lia|].
      destruct (rr_pass mxs asg (S n) lim) as [r1 n1] eqn:E1. injection H as _ ->.
      apply Nat.eqb_neq in E. destruct (rr_pass_gen mxs asg (S n) lim r1 n HL) as (_ & _ & K & _); [lia|exact E1|]. lia.
    + destruct (rr_pass mxs asg n lim) as [r1 n1] eqn:E1. injection H as _ ->.
      destruct (IH asg n lim r1 HL Hn E1) as (c & Ec & Hc).
      destruct m as [k|]; [|discriminate]. cbn [capacity]. rewrite Ec. exists (k + c). split; [reflexivity|].
      unfold room in Er. apply Nat.ltb_ge in Er. change (list_sum (a :: asg)) with (a + list_sum asg). lia.
Qed.

Definition enough_room (mxs : list (option nat)) (k : nat) : Prop :=
  match capacity mxs with Some c => k <= c | None => True end.

Lemma rr_loop_done : forall fuel mxs asg n lim, length asg = length mxs -> n <= lim -> lim - n <= fuel ->
    enough_room mxs (list_sum asg + (lim - n)) ->
    exists r, rr_loop fuel mxs asg n lim = Some (r, lim) /\ length r = length asg /\
              list_sum r = list_sum asg + (lim - n) /\ (Forall2 at_most asg mxs -> Forall2 at_most r mxs).
Proof.
  induction fuel as [|fuel IH]; intros mxs asg n lim HL Hn Hf Hroom; cbn [rr_loop].
  - assert (n = lim) by lia. subst n. rewrite Nat.ltb_irrefl. exists asg. repeat split; auto. lia.
  - destruct (Nat.ltb_spec n lim) as [Hlt|Hge].
    + destruct (rr_pass mxs asg n lim) as [r1 n1] eqn:E1.
      destruct (rr_pass_gen _ _ _ _ _ _ HL Hlt E1) as (I1 & I2 & I3 & I4).
      assert (n < n1).
      { destruct (Nat.eq_dec n n1) as [<-|]; [|lia]. destruct (rr_pass_stuck _ _ _ _ _ HL Hlt E1) as (c & Ec & Hc).
        unfold enough_room in Hroom. rewrite Ec in Hroom. lia. }
      destruct (IH mxs r1 n1 lim) as (r & E & J1 & J2 & J3); [lia|lia|lia|replace (list_sum r1 + (lim - n1)) with (list_sum asg + (lim - n)) by lia; exact Hroom|].
      exists r. split; [exact E|]. split; [lia|]. split; [lia|auto].
    + assert (n = lim) by lia. subst n. exists asg. repeat split; auto. lia.
Qed.

Lemma at_most_capacity : forall asg mxs c, Forall2 at_most asg mxs -> capacity mxs = Some c -> list_sum asg <= c.
Proof.
  intros asg mxs c H. revert c. induction H as [|a m asg mxs Ha H IH]; intros c Hc.
  - injection Hc as <-. unfold list_sum; simpl; lia.
  - cbn [capacity] in Hc. destruct m as [k|]; [|discriminate]. destruct (capacity mxs) as [c'|]; [|discriminate].
    injection Hc as <-. specialize (IH c' eq_refl). simpl in Ha. change (list_sum (a :: asg)) with (a + list_sum asg). lia.
Qed.

Lemma rr_loop_runs : forall fuel mxs asg n lim c, length asg = length mxs -> n <= lim ->
    capacity mxs = Some c -> c < list_sum asg + (lim - n) -> Forall2 at_most asg mxs ->
    rr_loop fuel mxs asg n lim = None.
Proof.
  induction fuel as [|fuel IH]; intros mxs asg n lim c HL Hn Hc Hlt Ham; pose proof (at_most_capacity _ _ _ Ham Hc) as K;
    cbn [rr_loop]; destruct (Nat.ltb_spec n lim) as [Hl|Hge]; try lia; [reflexivity|].
  destruct (rr_pass mxs asg n lim) as [r1 n1] eqn:E1.
  destruct (rr_pass_gen _ _ _ _ _ _ HL Hl E1) as (I1 & I2 & I3 & I4).
  apply (IH mxs r1 n1 lim c); try lia; auto.
Qed.

(** ** level of the round robin started from nothing *)
Definition fill (l : nat) (m : option nat) : nat := match m with Some k => Nat.min k l | None => l end.

Lemma fill_room : forall m l, fill (S l) m = if room m (fill l m) then S (fill l m) else fill l m.
Proof.
  intros [k|] l; cbn [fill room]; [|reflexivity]. destruct (Nat.ltb_spec (Nat.min k l) k); lia.
Qed.

Lemma pass_level : forall mxs l n lim r n', n < lim -> rr_pass mxs (map (fill l) mxs) n lim = (r, n') ->
    exists k, r = map (fill (S l)) (firstn k mxs) ++ map (fill l) (skipn k mxs) /\ (n' < lim -> r = map (fill (S l)) mxs).
Proof.
  induction mxs as [|m mxs IH]; intros l n lim r n' Hn H; cbn [map rr_pass] in H.
  - injection H as <- <-. exists 0. split; reflexivity.
  - destruct (room m (fill l m)) eqn:Er.
    + destruct (S n =? lim) eqn:E.
      * injection H as <- <-. apply Nat.eqb_eq in E. exists 1. cbn [firstn skipn map app]. rewrite fill_room, Er.
        split; [reflexivity|lia].
      * destruct (rr_pass mxs _ (S n) lim) as [r1 n1] eqn:E1. injection H as <- <-. apply Nat.eqb_neq in E.
        destruct (IH l (S n) lim r1 n1) as (k & Hk & Hf); [lia|exact E1|].
        exists (S k). cbn [firstn skipn map app]. rewrite fill_room, Er. split; [rewrite Hk; reflexivity|intros K; rewrite (Hf K); reflexivity].
    + destruct (rr_pass mxs _ n lim) as [r1 n1] eqn:E1. injection H as <- <-.
      destruct (IH l n lim r1 n1) as (k & Hk & Hf); [lia|exact E1|].
      exists (S k). cbn [firstn skipn map app]. rewrite fill_room, Er. split; [rewrite Hk; reflexivity|intros K; rewrite (Hf K); reflexivity].
Qed.

Lemma loop_level : forall fuel mxs l n lim r n', rr_loop fuel mxs (map (fill l) mxs) n lim = Some (r, n') ->
    exists l' k, r = map (fill (S l')) (firstn k mxs) ++ map (fill l') (skipn k mxs).
Proof.
  induction fuel as [|fuel IH]; intros mxs l n lim r n' H; cbn [rr_loop] in H; destruct (Nat.ltb_spec n lim) as [Hlt|Hge];
    try discriminate; try (injection H as <- <-; exists l, 0; reflexivity).
  destruct (rr_pass mxs _ n lim) as [r1 n1] eqn:E1. destruct (pass_level _ _ _ _ _ _ Hlt E1) as (k & Hk & Hf).
  destruct (Nat.ltb_spec n1 lim) as [Hl|Hg].
  - rewrite (Hf Hl) in H. apply (IH _ _ _ _ _ _ H).
  - assert (rr_loop fuel mxs r1 n1 lim = Some (r1, n1)).
    { destruct fuel; cbn [rr_loop]; destruct (Nat.ltb_spec n1 lim); try lia; reflexivity. }
    rewrite H0 in H. injection H as <- <-. exists l, k. exact Hk.
Qed.

(** the number for subsystem i is its fill at level l' or S l' *)
Lemma level_nth : forall mxs l k i p, nth_error (map (fill (S l)) (firstn k mxs) ++ map (fill l) (skipn k mxs)) i = Some p ->
    exists m, nth_error mxs i = Some m /\ (p = fill l m \/ p = fill (S l) m).
Proof.
  induction mxs as [|m mxs IH]; intros l k i p H.
  - rewrite firstn_nil, skipn_nil in H. destruct i; discriminate.
  - destruct k as [|k]; cbn [firstn skipn map app] in H.
    + change (fill l m :: map (fill l) mxs) with (map (fill l) (m :: mxs)) in H. rewrite nth_error_map in H.
      destruct (nth_error (m :: mxs) i) as [m'|]; [|discriminate]. injection H as <-. exists m'. auto.
    + destruct i as [|i]; [injection H as <-; exists m; auto|]. apply (IH _ _ _ _ H).
Qed.

Lemma level_balance : forall mxs l k i j p q, 
    let r := map (fill (S l)) (firstn k mxs) ++ map (fill l) (skipn k mxs) in
    nth_error r i = Some p -> nth_error r j = Some q -> S p < q -> nth_error mxs i = Some (Some p).
Proof.
  intros mxs l k i j p q r Hp Hq Hlt. destruct (level_nth _ _ _ _ _ Hp) as (m & Hm & Em).
  destruct (level_nth _ _ _ _ _ Hq) as (m' & _ & Em'). rewrite Hm. f_equal.
  assert (q <= S l) by (destruct Em' as [->| ->]; destruct m'; cbn [fill]; lia).
  destruct m as [c|]; [f_equal|exfalso]; destruct Em as [->| ->]; cbn [fill] in *; lia.
Qed.

(** ** the tuples *)
Lemma insert_perm : forall x l, Permutation (insert_desc x l) (x :: l).
Proof.
  induction l as [|y l IH]; cbn; [reflexivity|]. destruct (tup_ge x y); [reflexivity|]. rewrite IH. apply perm_swap.
Qed.
Lemma sort_perm : forall l, Permutation (sort_desc l) l.
Proof. induction l as [|x l IH]; cbn; [reflexivity|]. rewrite insert_perm, IH. reflexivity. Qed.

Definition desc (a b : nat * nat) : Prop := fst b <= fst a.
Lemma tup_ge_desc : forall x y, if tup_ge x y then fst y <= fst x else fst x <= fst y.
Proof.
  intros x y. unfold tup_ge. destruct (Nat.ltb_spec (fst y) (fst x)); simpl; [lia|].
  destruct (Nat.eqb_spec (fst x) (fst y)); simpl; [destruct (snd y <=? snd x); lia|lia].
Qed.
Lemma insert_sorted : forall x l, StronglySorted desc l -> StronglySorted desc (insert_desc x l).
Proof.
  induction l as [|y l IH]; intros H; cbn; [constructor; constructor|]. inversion H as [|? ? Hs Hf]; subst.
  pose proof (tup_ge_desc x y) as K. destruct (tup_ge x y).
  - constructor; [assumption|]. constructor; [exact K|]. rewrite Forall_forall in *. intros z Hz. specialize (Hf z Hz). unfold desc in *. lia.
  - constructor; [auto|]. rewrite Forall_forall in *. intros z Hz. apply (Permutation_in _ (insert_perm x l)) in Hz.
    destruct Hz as [<-|Hz]; [exact K|auto].
Qed.
Lemma sort_sorted : forall l, StronglySorted desc (sort_desc l).
Proof. induction l as [|x l IH]; [constructor|apply insert_sorted; exact IH]. Qed.

(** ** grouping *)
Lemma best_in : forall req bs b, best req bs = Some b -> In b bs /\ req <= fst b.
Proof.
  induction bs as [|x bs IH]; intros b H; [discriminate|]. cbn [best] in H. destruct (best req bs) as [b'|].
  - destruct ((req <=? fst x) && bucket_ltb x b') eqn:E; injection H as <-.
    + apply andb_true_iff in E. destruct E as [E _]. apply Nat.leb_le in E. split; [left; reflexivity|exact E].
    + destruct (IH b' eq_refl). split; [right|]; assumption.
  - destruct (Nat.leb_spec req (fst x)); [|discriminate]. injection H as <-. split; [left; reflexivity|assumption].
Qed.
Lemma best_some : forall req bs b, In b bs -> req <= fst b -> exists b', best req bs = Some b'.
Proof.
  induction bs as [|x bs IH]; intros b Hin Hr; [destruct Hin|]. cbn [best]. destruct Hin as [->|Hin].
  - destruct (best req bs); [destruct (_ && _); eexists; reflexivity|]. apply Nat.leb_le in Hr. rewrite Hr. eexists; reflexivity.
  - destruct (IH b Hin Hr) as [b' ->]. destruct (_ && _); eexists; reflexivity.
Qed.

Lemma append_split : forall b sub bs, In b bs -> exists l r, bs = l ++ b :: r /\ append_to b sub bs = l ++ (fst b, snd b ++ [sub]) :: r.
Proof.
  induction bs as [|x bs IH]; intros Hin; [destruct Hin|]. cbn [append_to].
  destruct ((fst x =? fst b) && list_eqb (snd x) (snd b)) eqn:E.
  - apply andb_true_iff in E. destruct E as [E1 E2]. apply Nat.eqb_eq in E1. unfold list_eqb in E2.
    destruct (list_eq_dec Nat.eq_dec (snd x) (snd b)) as [E3|]; [|discriminate].
    assert (x = b) by (destruct x, b; simpl in *; congruence). subst x. exists [], bs. split; reflexivity.
  - destruct Hin as [->|Hin].
    + rewrite Nat.eqb_refl in E. unfold list_eqb in E. destruct (list_eq_dec Nat.eq_dec (snd b) (snd b)); [discriminate|contradiction].
    + destruct (IH Hin) as (l & r & -> & ->). exists (x :: l), r. split; reflexivity.
Qed.

Section Group.
  Variables (minof : nat -> nat) (maxof : nat -> option nat) (n size : nat).
  Hypothesis min_max : forall i, at_most (minof i) (maxof i).

  Definition caps (b : bucket) : option nat := largest (map maxof (snd b)).
  Definition good (b : bucket) : Prop := (forall i, In i (snd b) -> minof i <= fst b) /\ at_most (fst b) (caps b).

  Lemma largest_app : forall l m, largest (l ++ [m]) = match largest l, m with Some a, Some b => Some (Nat.max a b) | _, _ => None end.
  Proof.
    induction l as [|[k|] l IH]; intros m; cbn [app largest].
    - destruct m as [b|]; cbn; [rewrite Nat.max_0_r|]; reflexivity.
    - rewrite IH. destruct (largest l) as [a|], m as [b|]; try reflexivity. rewrite Nat.max_assoc. reflexivity.
    - reflexivity.
  Qed.

  Definition ginv (tups : list (nat * nat)) (remaining : nat) (bs : list bucket) : Prop :=
    procs_total bs + remaining = size /\ Forall good bs /\
    Permutation (concat (map snd bs) ++ map snd tups) (seq 0 n) /\
    Forall (fun t => fst t = minof (snd t)) tups /\ StronglySorted desc tups.

  Lemma total_app : forall a b, procs_total (a ++ b) = procs_total a + procs_total b.
  Proof. intros a b. unfold procs_total. rewrite map_app, list_sum_app. reflexivity. Qed.

  Lemma group_run : forall tups remaining bs, ginv tups remaining bs ->
      (forall t, In t tups -> exists b, In b bs /\ fst t <= fst b) ->
      exists bs' r', group_subs tups false remaining bs = Ok (bs', r') /\ ginv [] r' bs'.
  Proof.
    induction tups as [|[req sub] tups IH]; intros remaining bs Hi Hb.
    - exists bs, remaining. split; [reflexivity|exact Hi].
    - destruct Hi as (H1 & H2 & H3 & H4 & H5). inversion H4 as [|? ? Hreq H4']; subst. cbn [fst snd] in Hreq.
      inversion H5 as [|? ? H5' Hf]; subst. cbn [group_subs]. destruct (Nat.leb_spec (minof sub) remaining) as [Hle|Hgt].
      + apply IH.
        * split; [rewrite total_app; unfold procs_total at 2; cbn; lia|]. split.
          { apply Forall_app. split; [assumption|]. constructor; [|constructor]. split; cbn [snd fst].
            - intros i [<-|[]]. lia.
            - unfold caps. cbn [snd map largest]. pose proof (min_max sub) as K. destruct (maxof sub); [|exact I]. cbn in *. lia. }
          split; [|split; assumption]. rewrite map_app, concat_app. cbn [map snd concat]. rewrite app_nil_r, <- app_assoc. exact H3.
        * intros t Ht. destruct (Hb t (or_intror Ht)) as (b & Hin & Hle'). exists b. split; [apply in_or_app; left; assumption|assumption].
      + destruct (Hb (minof sub, sub) (or_introl eq_refl)) as (b0 & Hin0 & Hle0). cbn [fst] in Hle0.
        destruct (best_some _ _ _ Hin0 Hle0) as [b Eb]. rewrite Eb. destruct (best_in _ _ _ Eb) as [Hin Hle].
        destruct (append_split b sub bs Hin) as (l & r & E1 & E2). rewrite E2. apply IH.
        * split; [rewrite <- H1, E1, !total_app; unfold procs_total; cbn; lia|]. split.
          { rewrite E1 in H2. apply Forall_app in H2. destruct H2 as [Hl Hr]. inversion Hr as [|? ? Hgb Hr']; subst.
            apply Forall_app. split; [assumption|]. constructor; [|assumption]. destruct Hgb as [G1 G2]. split; cbn [snd fst].
            - intros i Hi. apply in_app_or in Hi. destruct Hi as [Hi|[<-|[]]]; [apply G1; assumption|assumption].
            - unfold caps in *. cbn [snd]. rewrite map_app. cbn [map]. rewrite largest_app.
              destruct (largest (map maxof (snd b))), (maxof sub); cbn in *; try exact I. lia. }
          split; [|split; assumption]. rewrite E1 in H3. rewrite !map_app in *. cbn [map snd] in *. rewrite !concat_app in *. cbn [concat] in *.
          rewrite <- H3. rewrite <- !app_assoc. apply Permutation_app_head. apply Permutation_app_head. cbn [app].
          apply (Permutation_trans (l' := sub :: concat (map snd r) ++ map snd tups)); [reflexivity|].
          apply Permutation_middle.
        * intros t Ht. destruct (Hb t (or_intror Ht)) as (b1 & Hin1 & Hle1). rewrite E1 in Hin1. apply in_app_or in Hin1.
          destruct Hin1 as [Hin1|[<-|Hin1]].
          { exists b1. split; [apply in_or_app; left; assumption|assumption]. }
          { eexists. split; [apply in_or_app; right; left; reflexivity|exact Hle1]. }
          { exists b1. split; [apply in_or_app; right; right; assumption|assumption]. }
  Qed.

  Lemma group_start : forall tups, ginv tups size [] -> (forall t, In t tups -> fst t <= size) ->
      exists bs' r', group_subs tups true size [] = Ok (bs', r') /\ ginv [] r' bs'.
  Proof.
    intros [|[req sub] tups] Hi Hs; [exists [], size; split; [reflexivity|exact Hi]|].
    cbn [group_subs]. assert (K : req <= size) by apply (Hs (req, sub) (or_introl eq_refl)).
    apply Nat.leb_le in K. rewrite K. apply Nat.leb_le in K. destruct Hi as (H1 & H2 & H3 & H4 & H5).
    inversion H4 as [|? ? Hreq H4']; subst. cbn [fst snd] in Hreq. subst req. inversion H5 as [|? ? H5' Hf]; subst. apply group_run.
    - split; [unfold procs_total; cbn; lia|]. split.
      { constructor; [|constructor]. split; cbn [snd fst].
        - intros i [<-|[]]. lia.
        - unfold caps. cbn [snd map largest]. pose proof (min_max sub) as K1. destruct (maxof sub); [|exact I]. cbn in *. lia. }
      split; [exact H3|split; assumption].
    - intros t Ht. exists (minof sub, [sub]). split; [left; reflexivity|]. cbn [fst]. rewrite Forall_forall in Hf. apply (Hf t Ht).
  Qed.

  Lemma group_error : forall t tups, size < fst t -> group_subs (t :: tups) true size [] = Err RuntimeError.
  Proof. intros [req sub] tups H. cbn [group_subs fst] in *. apply Nat.leb_gt in H. rewrite H. reflexivity. Qed.
End Group.

(** ** giving away the rest *)
Lemma exists_room : forall (f : nat -> option nat) p subs, existsb (fun i => room (f i) p) subs = room (largest (map f subs)) p.
Proof.
  intros f p. induction subs as [|i subs IH]; [reflexivity|]. cbn [existsb map largest]. rewrite IH.
  destruct (f i) as [k|]; [|reflexivity]. destruct (largest (map f subs)) as [c|]; cbn [room]; [|apply orb_true_r].
  destruct (Nat.ltb_spec p k), (Nat.ltb_spec p c), (Nat.ltb_spec p (Nat.max k c)); try reflexivity; lia.
Qed.

Definition caps_of (mxs : list (option nat)) (bs : list bucket) : list (option nat) :=
  map (fun b => largest (map (fun i => nth i mxs None) (snd b))) bs.

Lemma extra_rr_pass : forall mxs bs remaining size, 0 < remaining <= size ->
    extra_pass mxs bs remaining =
    let '(r, n) := rr_pass (caps_of mxs bs) (map fst bs) (size - remaining) size in (combine r (map snd bs), size - n).
Proof.
  induction bs as [|[p subs] bs IH]; intros remaining size H; cbn [extra_pass caps_of map rr_pass].
  - cbn. f_equal. lia.
  - rewrite exists_room. cbn [snd fst]. fold (caps_of mxs bs). destruct (room _ p).
    + destruct (Nat.eqb_spec remaining 1) as [->|Hne].
      * replace (S (size - 1) =? size) with true by (symmetry; apply Nat.eqb_eq; lia).
        cbn [combine]. f_equal; [f_equal|lia]. clear. induction bs as [|[a b] bs IH]; [reflexivity|]. cbn. rewrite <- IH. reflexivity.
      * replace (S (size - remaining) =? size) with false by (symmetry; apply Nat.eqb_neq; lia).
        rewrite (IH (remaining - 1) size) by lia. replace (S (size - remaining)) with (size - (remaining - 1)) by lia.
        destruct (rr_pass _ _ _ _) as [r n]. reflexivity.
    + rewrite (IH remaining size) by lia. destruct (rr_pass _ _ _ _) as [r n]. reflexivity.
Qed.

Lemma snd_combine : forall (r : list nat) (s : list (list nat)), length r = length s -> map snd (combine r s) = s.
Proof. induction r as [|x r IH]; intros [|y s] H; try discriminate; [reflexivity|]. cbn. rewrite IH by (cbn in H; lia). reflexivity. Qed.
Lemma fst_combine : forall (r : list nat) (s : list (list nat)), length r = length s -> map fst (combine r s) = r.
Proof. induction r as [|x r IH]; intros [|y s] H; try discriminate; [reflexivity|]. cbn. rewrite IH by (cbn in H; lia). reflexivity. Qed.
Lemma combine_split : forall bs : list bucket, combine (map fst bs) (map snd bs) = bs.
Proof. induction bs as [|[p s] bs IH]; [reflexivity|]. cbn. rewrite IH. reflexivity. Qed.
Lemma caps_of_snd : forall mxs bs bs', map snd bs = map snd bs' -> caps_of mxs bs = caps_of mxs bs'.
Proof.
  intros mxs bs bs' H. unfold caps_of. rewrite <- !(map_map snd (fun l => largest (map (fun i => nth i mxs None) l))). rewrite H. reflexivity.
Qed.

Lemma extra_rr_loop : forall fuel mxs bs remaining size, remaining <= size ->
    extra_loop fuel mxs bs remaining =
    match rr_loop fuel (caps_of mxs bs) (map fst bs) (size - remaining) size with
    | Some (r, n) => Some (combine r (map snd bs), size - n)
    | None => None
    end.
Proof.
  induction fuel as [|fuel IH]; intros mxs bs remaining size H; cbn [extra_loop rr_loop].
  - destruct (Nat.ltb_spec 0 remaining), (Nat.ltb_spec (size - remaining) size); try lia; [reflexivity|].
    rewrite combine_split. f_equal. f_equal. lia.
  - destruct (Nat.ltb_spec 0 remaining), (Nat.ltb_spec (size - remaining) size); try lia.
    + rewrite (extra_rr_pass mxs bs remaining size) by lia. destruct (rr_pass _ _ _ _) as [r n] eqn:E.
      assert (HL : length (map fst bs) = length (caps_of mxs bs)) by (unfold caps_of; rewrite !map_length; reflexivity).
      destruct (rr_pass_gen _ _ _ _ _ _ HL H1 E) as (I1 & I2 & I3 & _).
      assert (L : length r = length (map snd bs)) by (rewrite I1, !map_length; reflexivity).
      rewrite (IH mxs (combine r (map snd bs)) (size - n) size) by lia. rewrite snd_combine, fst_combine by assumption.
      rewrite (caps_of_snd mxs (combine r (map snd bs)) bs) by (apply snd_combine; assumption).
      replace (size - (size - n)) with n by lia. reflexivity.
    + rewrite combine_split. f_equal. f_equal. lia.
Qed.

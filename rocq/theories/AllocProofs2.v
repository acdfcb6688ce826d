(** Both allocation algorithms as a whole. *)
From Coq Require Import Permutation Sorting.Sorted.
From Verif Require Import Base AllocModel AllocSpec AllocProofs.
Local Open Scope nat_scope.

Definition pstep (acc s : reqs) : reqs :=
  (if fst acc <? fst s then fst s else fst acc, match snd acc, snd s with Some a, Some b => Some (a + b) | _, _ => None end).

Lemma pstep_fold : forall subs acc,
    fst (fold_left pstep subs acc) = Nat.max (fst acc) (list_max (map fst subs)) /\
    snd (fold_left pstep subs acc) =
      match snd acc, capacity (map snd subs) with Some a, Some c => Some (a + c) | _, _ => None end.
Proof.
  induction subs as [|s subs IH]; intros acc.
  - cbn. split; [lia|]. destruct (snd acc); [f_equal; lia|reflexivity].
  - change (fold_left pstep (s :: subs) acc) with (fold_left pstep subs (pstep acc s)). destruct (IH (pstep acc s)) as [I1 I2].
    rewrite I1, I2. cbn [pstep fst snd map capacity]. change (list_max (fst s :: map fst subs)) with (Nat.max (fst s) (list_max (map fst subs))).
    split; [destruct (Nat.ltb_spec (fst acc) (fst s)); lia|].
    destruct (snd acc) as [a|], (snd s) as [b|]; cbn; try reflexivity; destruct (capacity (map snd subs)); try reflexivity. f_equal. lia.
Qed.

Lemma parallel_req_fst : forall subs, fst (parallel_req subs) = Nat.max 1 (list_max (map fst subs)).
Proof.
  intros subs. unfold parallel_req. change (fun acc s : reqs => (_, _)) with pstep.
  pose proof (pstep_fold subs (0, Some 0)) as [H1 _]. destruct (fold_left pstep subs (0, Some 0)) as [mn mx]. cbn [fst] in *. subst mn.
  destruct (Nat.eqb_spec (Nat.max 0 (list_max (map fst subs))) 0); lia.
Qed.

Lemma parallel_req_snd : forall subs, capacity (map snd subs) = None <-> snd (parallel_req subs) = None.
Proof.
  intros subs. unfold parallel_req. change (fun acc s : reqs => (_, _)) with pstep.
  pose proof (pstep_fold subs (0, Some 0)) as [_ H2]. destruct (fold_left pstep subs (0, Some 0)) as [mn mx]. cbn [snd] in *. subst mx.
  destruct (capacity (map snd subs)) as [[|c]|]; cbn; split; intros H; congruence.
Qed.

Lemma sum_capacity : forall mxs c, capacity mxs = Some c -> list_sum (map (fun m => match m with Some k => k | None => 0 end) mxs) = c.
Proof.
  induction mxs as [|[m|] mxs IH]; intros c H; cbn [capacity] in H; try discriminate; [injection H as <-; reflexivity|].
  destruct (capacity mxs) as [c'|]; [|discriminate]. injection H as <-. cbn [map].
  change (list_sum (m :: map (fun m0 => match m0 with Some k => k | None => 0 end) mxs))
    with (m + list_sum (map (fun m0 => match m0 with Some k => k | None => 0 end) mxs)). rewrite (IH c' eq_refl). reflexivity.
Qed.

Lemma no_zero : forall subs, Forall req_ok subs -> existsb (fun s : reqs => fst s =? 0) subs = false.
Proof.
  induction 1 as [|s subs [H _] HF IH]; [reflexivity|]. cbn. rewrite IH, orb_false_r. apply Nat.eqb_neq. lia.
Qed.

Lemma requested_pos : forall subs, subs <> [] -> Forall req_ok subs -> list_sum (map fst subs) =? 0 = false.
Proof.
  intros [|s subs] Hne HF; [contradiction|]. inversion HF as [|? ? [H _] _]; subst. apply Nat.eqb_neq. cbn. lia.
Qed.

Lemma limit_usable : forall size subs,
    match snd (parallel_req subs) with
    | None => size
    | Some _ => Nat.min size (list_sum (map (fun m => match m with Some k => k | None => 0 end) (map snd subs)))
    end = usable size (capacity (map snd subs)).
Proof.
  intros size subs. pose proof (parallel_req_snd subs) as K. destruct (snd (parallel_req subs)) as [c'|].
  - destruct (capacity (map snd subs)) as [c|] eqn:E; [|destruct K as [K _]; specialize (K eq_refl); discriminate].
    rewrite (sum_capacity _ _ E). reflexivity.
  - destruct K as [_ K]. rewrite (K eq_refl). reflexivity.
Qed.

Lemma zeros : forall (subs : list reqs), map (fun _ => 0) subs = map (fill 0) (map snd subs).
Proof.
  induction subs as [|[mn [m|]] subs IH]; [reflexivity| |]; cbn [map snd fill]; rewrite IH; [|reflexivity].
  f_equal. lia.
Qed.
Lemma zeros_sum : forall (subs : list reqs), list_sum (map (fun _ => 0) subs) = 0.
Proof. induction subs; [reflexivity|]. cbn. exact IHsubs. Qed.
Lemma zeros_at_most : forall (subs : list reqs), Forall2 at_most (map (fun _ => 0) subs) (map snd subs).
Proof. induction subs as [|[mn [m|]] subs IH]; constructor; try assumption; cbn; lia. Qed.

Lemma nth_singles : forall (asg : list nat) k i (b : bucket), nth_error (combine asg (map (fun i => [i]) (seq k (length asg)))) i = Some b ->
    exists p, nth_error asg i = Some p /\ b = (p, [k + i]).
Proof.
  induction asg as [|a asg IH]; intros k i b H; [destruct i; discriminate|]. cbn [length seq map combine] in H.
  destruct i as [|i]; [injection H as <-; exists a; rewrite Nat.add_0_r; split; reflexivity|].
  destruct (IH (S k) i b H) as (p & Hp & ->). exists p. split; [exact Hp|]. f_equal. f_equal. lia.
Qed.
Lemma singles_nth : forall (asg : list nat) k i p, nth_error asg i = Some p ->
    nth_error (combine asg (map (fun i => [i]) (seq k (length asg)))) i = Some (p, [k + i]).
Proof.
  induction asg as [|a asg IH]; intros k i p H; [destruct i; discriminate|]. cbn [length seq map combine].
  destruct i as [|i]; [injection H as ->; rewrite Nat.add_0_r; reflexivity|]. replace (k + S i) with (S k + i) by lia. exact (IH (S k) i p H).
Qed.

Lemma runs_singles : forall (asg : list nat) i p, runs_on (combine asg (map (fun i => [i]) (seq 0 (length asg)))) i p <-> nth_error asg i = Some p.
Proof.
  intros asg i p. split.
  - intros (b & Hin & Hi & Hp). apply In_nth_error in Hin. destruct Hin as [j Hj].
    destruct (nth_singles _ _ _ _ Hj) as (q & Hq & ->). cbn in Hi, Hp. destruct Hi as [<-|[]]. subst q. exact Hq.
  - intros H. exists (p, [i]). split; [|split; [left; reflexivity|reflexivity]].
    apply nth_error_In with i. apply (singles_nth asg 0 i p H).
Qed.

Lemma full_capacity : forall asg mxs c i p, Forall2 at_most asg mxs -> capacity mxs = Some c -> c <= list_sum asg ->
    nth_error asg i = Some p -> nth_error mxs i = Some (Some p).
Proof.
  intros asg mxs c i p H. revert c i. induction H as [|a m asg mxs Ha H IH]; intros c i Hc Hs Hi; [destruct i; discriminate|].
  cbn [capacity] in Hc. destruct m as [k|]; [|discriminate]. destruct (capacity mxs) as [c'|] eqn:Ec; [|discriminate]. injection Hc as <-.
  change (list_sum (a :: asg)) with (a + list_sum asg) in Hs. cbn in Ha.
  pose proof (at_most_capacity _ _ _ H Ec). destruct i as [|i].
  - injection Hi as ->. cbn. do 2 f_equal. lia.
  - apply (IH c' i eq_refl); [lia|exact Hi].
Qed.

Lemma sum_bound : forall l b i p, (forall x, In x l -> x <= b) -> nth_error l i = Some p -> p < b -> list_sum l < length l * b.
Proof.
  induction l as [|x l IH]; intros b i p Hb Hi Hp; [destruct i; discriminate|].
  change (list_sum (x :: l)) with (x + list_sum l). cbn [length]. destruct i as [|i].
  - injection Hi as ->. assert (K : list_sum l <= length l * b).
    { clear -Hb. induction l as [|y l IH]; [cbn; lia|]. change (list_sum (y :: l)) with (y + list_sum l). cbn [length].
      assert (y <= b) by (apply Hb; right; left; reflexivity). assert (list_sum l <= length l * b); [|lia].
      apply IH. intros z [<-|Hz]; apply Hb; [left; reflexivity|right; right; exact Hz]. }
    lia.
  - assert (x <= b) by (apply Hb; left; reflexivity). assert (list_sum l < length l * b); [|lia].
    apply (IH b i p); [intros z Hz; apply Hb; right; exact Hz|exact Hi|exact Hp].
Qed.

Lemma alloc_enough : forall fuel size subs, subs <> [] -> Forall req_ok subs -> list_sum (map fst subs) <= size -> size <= fuel ->
    let used := usable size (capacity (map snd subs)) in
    exists bs, alloc fuel size subs = Alloc bs used /\ map snd bs = map (fun i => [i]) (seq 0 (length subs)) /\
      procs_total bs = used /\ balanced subs bs /\
      forall i mn mx, nth_error subs i = Some (mn, mx) ->
        exists p, runs_on bs i p /\ at_most p mx /\ (length subs * mn <= size -> mn <= p).
Proof.
  intros fuel size subs Hne HF Hs Hf used. unfold alloc. rewrite (no_zero _ HF), (requested_pos _ Hne HF), limit_usable. fold used.
  apply Nat.leb_le in Hs. rewrite Hs.
  assert (U : used <= size) by (unfold used, usable; destruct (capacity _); lia).
  destruct (rr_loop_done fuel (map snd subs) (map (fun _ => 0) subs) 0 used) as (r & E & HL & HS & HA);
    [rewrite !map_length; reflexivity|lia|lia|unfold enough_room, used, usable; rewrite zeros_sum; destruct (capacity _); lia|].
  rewrite E. rewrite zeros_sum in HS. specialize (HA (zeros_at_most subs)). rewrite map_length in HL.
  rewrite zeros in E. destruct (loop_level _ _ _ _ _ _ _ E) as (l & k & Hlev).
  exists (combine r (map (fun i => [i]) (seq 0 (length r)))). split; [reflexivity|].
  split; [rewrite snd_combine by (rewrite map_length, seq_length; reflexivity); rewrite HL; reflexivity|].
  split; [unfold procs_total; rewrite fst_combine by (rewrite map_length, seq_length; reflexivity); lia|].
  assert (Bal : forall i j p q, nth_error r i = Some p -> nth_error r j = Some q -> S p < q -> exists mn, nth_error subs i = Some (mn, Some p)).
  { intros i j p q Hp Hq Hlt. rewrite Hlev in Hp, Hq. pose proof (level_balance _ _ _ _ _ _ _ Hp Hq Hlt) as K.
    rewrite nth_error_map in K. destruct (nth_error subs i) as [[mn mx]|]; [|discriminate]. cbn in K. injection K as ->. exists mn. reflexivity. }
  split.
  { intros i j p q Hp Hq Hlt. apply runs_singles in Hp, Hq. apply (Bal i j p q Hp Hq Hlt). }
  intros i mn mx Hi.
  destruct (nth_error r i) as [p|] eqn:Ep; [|apply nth_error_None in Ep; assert (i < length subs) by (apply nth_error_Some; congruence); lia].
  exists p. split; [apply runs_singles; exact Ep|]. split.
  - assert (K : forall a m, nth_error r i = Some a -> nth_error (map snd subs) i = Some m -> at_most a m).
    { clear -HA. revert i. induction HA as [|a0 m0 r mxs H0 HA IH]; intros [|i] a m H1 H2; try discriminate.
      - injection H1 as <-. injection H2 as <-. exact H0.
      - apply (IH i a m H1 H2). }
    apply (K p mx Ep). rewrite nth_error_map, Hi. reflexivity.
  - intros Hn. destruct (Nat.le_gt_cases mn p) as [|Hlt]; [assumption|exfalso].
    assert (Hok : at_most mn mx). { rewrite Forall_forall in HF. apply nth_error_In in Hi. apply (HF _ Hi). }
    assert (Hnot : mx <> Some p). { intros ->. cbn in Hok. lia. }
    assert (Hall : forall x, In x r -> x <= mn).
    { intros x Hx. apply In_nth_error in Hx. destruct Hx as [j Hj]. destruct (Nat.le_gt_cases x (S p)) as [|Hgt]; [lia|].
      destruct (Bal i j p x Ep Hj Hgt) as [mn' Hmn']. rewrite Hi in Hmn'. injection Hmn' as _ Hmx. congruence. }
    pose proof (sum_bound r mn i p Hall Ep Hlt) as HB. rewrite HL in HB.
    assert (list_sum r = used) by lia. unfold used, usable in *. destruct (capacity (map snd subs)) as [c|] eqn:Ec; [|lia].
    destruct (Nat.le_gt_cases c size); [|lia].
    pose proof (full_capacity _ _ _ _ _ HA Ec ltac:(lia) Ep) as K. rewrite nth_error_map, Hi in K. cbn in K. congruence.
Qed.

(** ** the other branch *)
Lemma combine_seq_snd : forall (l : list nat) k, map snd (combine l (seq k (length l))) = seq k (length l).
Proof. induction l as [|x l IH]; intros k; [reflexivity|]. cbn. rewrite IH. reflexivity. Qed.
Lemma combine_seq_in : forall (l : list nat) k t, In t (combine l (seq k (length l))) -> k <= snd t /\ nth_error l (snd t - k) = Some (fst t).
Proof.
  induction l as [|x l IH]; intros k t H; [destruct H|]. cbn [length seq combine] in H. destruct H as [<-|H].
  - cbn. rewrite Nat.sub_diag. split; [lia|reflexivity].
  - destruct (IH (S k) t H) as [H1 H2]. split; [lia|]. replace (snd t - k) with (S (snd t - S k)) by lia. exact H2.
Qed.

Lemma alloc_short : forall size subs, Forall req_ok subs -> size < list_sum (map fst subs) -> Forall (fun s => fst s <= size) subs ->
    exists bs0, each_once (length subs) bs0 /\ procs_total bs0 <= size /\
      let c := capacity (map (bucket_cap subs) bs0) in
      ((match c with Some k => size <= k | None => True end) ->
         forall fuel, size <= fuel -> exists bs, alloc fuel size subs = Alloc bs size /\ map snd bs = map snd bs0 /\ procs_total bs = size /\
           (forall b i, In b bs -> In i (snd b) -> min_of subs i <= fst b) /\
           (forall b, In b bs -> at_most (fst b) (bucket_cap subs b))) /\
      ((match c with Some k => k < size | None => False end) -> forall fuel, alloc fuel size subs = Running).
Proof.
  intros size subs HF Hs Hsz.
  assert (Hne : subs <> []) by (intros ->; cbn in Hs; lia).
  set (tups := sort_desc (combine (map fst subs) (seq 0 (length (map fst subs))))).
  set (mx := fun i => nth i (map snd subs) None).
  assert (MM : forall i, at_most (min_of subs i) (mx i)).
  { intros i. unfold min_of, mx. destruct (nth_error subs i) as [[mn m]|] eqn:E.
    - assert (E1 : nth_error (map fst subs) i = Some mn) by (rewrite nth_error_map, E; reflexivity).
      assert (E2 : nth_error (map snd subs) i = Some m) by (rewrite nth_error_map, E; reflexivity).
      rewrite (nth_error_nth _ _ _ E1), (nth_error_nth _ _ _ E2). apply nth_error_In in E. rewrite Forall_forall in HF. apply (HF _ E).
    - apply nth_error_None in E. rewrite (nth_overflow (map snd subs)) by (rewrite map_length; exact E). exact I. }
  assert (TIN : forall t, In t tups -> fst t = min_of subs (snd t) /\ fst t <= size).
  { intros t Ht. apply (Permutation_in _ (sort_perm _)) in Ht. apply combine_seq_in in Ht. destruct Ht as [_ Ht]. rewrite Nat.sub_0_r in Ht.
    split; [unfold min_of; rewrite (nth_error_nth _ _ _ Ht); reflexivity|].
    apply nth_error_In in Ht. apply in_map_iff in Ht. destruct Ht as (s & <- & Hin). rewrite Forall_forall in Hsz. apply (Hsz _ Hin). }
  destruct (group_start (min_of subs) mx (length subs) size MM tups) as (bs0 & r0 & Eg & (G1 & G2 & G3 & _ & _)).
  { split; [unfold procs_total; cbn; lia|]. split; [constructor|]. split; [|split].
    - cbn [map concat app]. unfold tups. rewrite (Permutation_map snd (sort_perm _)). rewrite combine_seq_snd, map_length. reflexivity.
    - apply Forall_forall. intros t Ht. apply (TIN t Ht).
    - apply sort_sorted. }
  { intros t Ht. apply (TIN t Ht). }
  exists bs0. split; [cbn [map app] in G3; rewrite app_nil_r in G3; exact G3|]. split; [lia|].
  assert (EA : forall fuel, alloc fuel size subs =
     match rr_loop fuel (caps_of (map snd subs) bs0) (map fst bs0) (size - r0) size with
     | Some (r, n) => Alloc (combine r (map snd bs0)) (size - (size - n))
     | None => Running end).
  { intros fuel. unfold alloc. rewrite (no_zero _ HF), (requested_pos _ Hne HF). apply Nat.leb_gt in Hs. rewrite Hs.
    fold tups. rewrite Eg. rewrite (extra_rr_loop fuel (map snd subs) bs0 r0 size) by lia.
    destruct (rr_loop _ _ _ _ _) as [[r n]|]; reflexivity. }
  assert (HL : length (map fst bs0) = length (caps_of (map snd subs) bs0)) by (unfold caps_of; rewrite !map_length; reflexivity).
  assert (HA : Forall2 at_most (map fst bs0) (caps_of (map snd subs) bs0)).
  { clear -G2. induction G2 as [|b bs [_ Hb] _ IH]; constructor; [exact Hb|exact IH]. }
  assert (CE : map (bucket_cap subs) bs0 = caps_of (map snd subs) bs0) by reflexivity.
  rewrite CE. cbv zeta. split.
  - intros Hc fuel Hf.
    destruct (rr_loop_done fuel (caps_of (map snd subs) bs0) (map fst bs0) (size - r0) size HL) as (r & E & I1 & I2 & I3); [lia|lia| |].
    { unfold enough_room. destruct (capacity _); [|exact I]. unfold procs_total in G1. lia. }
    rewrite EA, E. assert (L : length r = length (map snd bs0)) by (rewrite I1, !map_length; reflexivity).
    exists (combine r (map snd bs0)). split; [f_equal; lia|]. split; [apply snd_combine; exact L|].
    split; [unfold procs_total; rewrite fst_combine by exact L; unfold procs_total in G1; lia|]. split.
    + (* numbers only grow: compare with the loop's start *)
      assert (GR : Forall2 le (map fst bs0) r).
      { clear -E HL. revert E HL. generalize (size - r0) as n. generalize (map fst bs0) as asg. generalize (caps_of (map snd subs) bs0) as mxs.
        induction fuel as [|fuel IH]; intros mxs asg n E HL; cbn [rr_loop] in E; destruct (n <? size) eqn:En; try discriminate;
          try (injection E as <- _; clear; induction asg; constructor; auto).
        destruct (rr_pass mxs asg n size) as [r1 n1] eqn:E1.
        assert (P : Forall2 le asg r1).
        { clear -E1 HL. revert asg n r1 n1 E1 HL. induction mxs as [|m mxs IH]; intros [|a asg] n r1 n1 E1 HL; try discriminate; cbn [rr_pass] in E1.
          - injection E1 as <- _. constructor.
          - injection HL as HL. destruct (room m a).
            + destruct (S n =? size); [injection E1 as <- _; constructor; [lia|clear; induction asg; constructor; auto]|].
              destruct (rr_pass mxs asg (S n) size) as [r2 n2] eqn:E2. injection E1 as <- _. constructor; [lia|apply (IH _ _ _ _ E2 HL)].
            + destruct (rr_pass mxs asg n size) as [r2 n2] eqn:E2. injection E1 as <- _. constructor; [lia|apply (IH _ _ _ _ E2 HL)]. }
        apply Nat.ltb_lt in En. destruct (rr_pass_gen _ _ _ _ _ _ HL En E1) as (K & _).
        specialize (IH mxs r1 n1 E ltac:(lia)). clear -P IH.
        revert r IH. induction P as [|a b l l' Hab P IHP]; intros r IH; inversion IH; subst; constructor; [lia|auto]. }
      intros b i Hb Hi. clear -GR G2 Hb Hi. revert r GR Hb. induction G2 as [|b0 bs [Hb0 _] _ IH]; intros r GR Hb; [destruct r; destruct Hb|].
      inversion GR as [|x y l l' Hxy GR']; subst. cbn [map combine] in Hb. destruct Hb as [<-|Hb].
      * cbn in *. specialize (Hb0 i Hi). lia.
      * apply (IH l' GR' Hb).
    + specialize (I3 HA). intros b Hb. unfold caps_of in I3. clear -I3 Hb. revert r I3 Hb.
      induction bs0 as [|b0 bs IH]; intros r I3 Hb; [destruct r; destruct Hb|]. inversion I3 as [|x y l l' Hxy I3']; subst.
      cbn [map combine] in Hb. destruct Hb as [<-|Hb]; [exact Hxy|apply (IH l I3' Hb)].
  - intros Hc fuel. rewrite EA. destruct (capacity (caps_of (map snd subs) bs0)) as [c|] eqn:Ec; [|destruct Hc].
    rewrite (rr_loop_runs fuel _ _ _ _ c HL); [reflexivity|lia|exact Ec|unfold procs_total in G1; lia|exact HA].
Qed.

Lemma unlimited_capacity : forall l, In None l -> capacity l = None.
Proof.
  induction l as [|[m|] l IH]; intros H; [destruct H| |reflexivity]. destruct H as [H|H]; [discriminate|]. cbn. rewrite (IH H). reflexivity.
Qed.
Lemma unlimited_largest : forall l, In None l -> largest l = None.
Proof.
  induction l as [|[m|] l IH]; intros H; [destruct H| |reflexivity]. destruct H as [H|H]; [discriminate|]. cbn. rewrite (IH H). reflexivity.
Qed.

Lemma alloc_short_unlimited : forall size subs fuel, Forall req_ok subs -> size < list_sum (map fst subs) ->
    Forall (fun s => fst s <= size) subs -> In None (map snd subs) -> size <= fuel ->
    exists bs, alloc fuel size subs = Alloc bs size /\ each_once (length subs) bs /\ procs_total bs = size /\
      (forall i mn mx, nth_error subs i = Some (mn, mx) -> exists p, runs_on bs i p /\ mn <= p).
Proof.
  intros size subs fuel HF Hs Hsz HN Hf. destruct (alloc_short size subs HF Hs Hsz) as (bs0 & H1 & H2 & H3 & _).
  assert (C : capacity (map (bucket_cap subs) bs0) = None).
  { apply In_nth_error in HN. destruct HN as [i Hi]. assert (Hi' : i < length subs) by (rewrite <- (map_length snd); apply nth_error_Some; congruence).
    assert (K : In i (concat (map snd bs0))) by (apply (Permutation_in _ (Permutation_sym H1)); apply in_seq; lia).
    apply in_concat in K. destruct K as (l & Hl & Hil). apply in_map_iff in Hl. destruct Hl as (b & <- & Hb).
    apply unlimited_capacity. apply in_map_iff. exists b. split; [|exact Hb]. unfold bucket_cap. apply unlimited_largest.
    apply in_map_iff. exists i. split; [apply (nth_error_nth _ _ _ Hi)|exact Hil]. }
  rewrite C in H3. destruct (H3 I fuel Hf) as (bs & E & S1 & S2 & S3 & _).
  exists bs. split; [exact E|]. split; [unfold each_once in *; rewrite S1; exact H1|]. split; [exact S2|].
  intros i mn mx Hi. assert (Hi' : i < length subs) by (apply nth_error_Some; congruence).
  assert (K : In i (concat (map snd bs))) by (rewrite S1; apply (Permutation_in _ (Permutation_sym H1)); apply in_seq; lia).
  apply in_concat in K. destruct K as (l & Hl & Hil). apply in_map_iff in Hl. destruct Hl as (b & <- & Hb).
  exists (fst b). split; [exists b; auto|]. specialize (S3 b i Hb Hil). unfold min_of in S3.
  assert (E1 : nth_error (map fst subs) i = Some mn) by (rewrite nth_error_map, Hi; reflexivity). rewrite (nth_error_nth _ _ _ E1) in S3. exact S3.
Qed.

Lemma alloc_too_small : forall fuel size subs, Forall req_ok subs -> Exists (fun s => size < fst s) subs -> alloc fuel size subs = Raises RuntimeError.
Proof.
  intros fuel size subs HF HE. assert (Hne : subs <> []) by (intros ->; inversion HE).
  assert (Hs : size < list_sum (map fst subs)).
  { clear HF Hne. induction HE as [s subs H|s subs HE IH]; cbn [map]; [change (list_sum (fst s :: map fst subs)) with (fst s + list_sum (map fst subs)); lia|].
    change (list_sum (fst s :: map fst subs)) with (fst s + list_sum (map fst subs)); lia. }
  unfold alloc. rewrite (no_zero _ HF), (requested_pos _ Hne HF). apply Nat.leb_gt in Hs. rewrite Hs.
  set (tups := sort_desc _). assert (K : exists t, In t tups /\ size < fst t).
  { apply Exists_exists in HE. destruct HE as (s & Hin & Hlt). apply In_nth_error in Hin. destruct Hin as [i Hi].
    exists (fst s, i). split; [|exact Hlt]. apply (Permutation_in _ (Permutation_sym (sort_perm _))).
    assert (E : nth_error (map fst subs) i = Some (fst s)) by (rewrite nth_error_map, Hi; reflexivity). revert E. clear. revert i.
    assert (G : forall (l : list nat) k i x, nth_error l i = Some x -> In (x, k + i) (combine l (seq k (length l)))).
    { induction l as [|y l IH]; intros k i x E; [destruct i; discriminate|]. cbn [length seq combine]. destruct i as [|i].
      - injection E as ->. left. rewrite Nat.add_0_r. reflexivity.
      - right. replace (k + S i) with (S k + i) by lia. apply IH. exact E. }
    intros i E. apply (G _ 0 i _ E). }
  destruct K as (t & Hin & Hlt). pose proof (sort_sorted (combine (map fst subs) (seq 0 (length (map fst subs))))) as Hsort. fold tups in Hsort.
  destruct tups as [|t0 tups]; [destruct Hin|]. inversion Hsort as [|? ? _ Hall]; subst.
  assert (size < fst t0). { destruct Hin as [->|Hin]; [exact Hlt|]. rewrite Forall_forall in Hall. specialize (Hall t Hin). unfold desc in Hall. lia. }
  rewrite group_error by assumption. reflexivity.
Qed.

Lemma colors_length : forall size bs assigned, procs_total bs = assigned -> assigned <= size -> length (colors size bs assigned) = size.
Proof.
  intros size bs assigned H Hle. unfold colors. rewrite app_length, repeat_length.
  assert (K : forall k, length (concat (map (fun ib : nat * bucket => repeat (Some (fst ib)) (fst (snd ib))) (combine (seq k (length bs)) bs))) = procs_total bs).
  { clear. induction bs as [|b bs IH]; intros k; [reflexivity|]. cbn [length seq combine map concat fst snd]. rewrite app_length, repeat_length, IH.
    unfold procs_total. reflexivity. }
  rewrite K. lia.
Qed.

Lemma colors_count : forall size bs assigned i, count_occ opt_dec (colors size bs assigned) (Some i) =
    match nth_error bs i with Some b => fst b | None => 0 end.
Proof.
  intros size bs assigned i. set (dec := opt_dec). unfold colors. rewrite count_occ_app.
  assert (R : forall x n y, count_occ dec (repeat x n) y = if dec x y then n else 0).
  { intros x n y. induction n as [|n IH]; cbn; [destruct (dec x y); reflexivity|]. rewrite IH. destruct (dec x y); reflexivity. }
  rewrite R. destruct (dec None (Some i)) as [E0|_]; [discriminate|]. rewrite Nat.add_0_r.
  assert (K : forall k, count_occ dec (concat (map (fun ib : nat * bucket => repeat (Some (fst ib)) (fst (snd ib))) (combine (seq k (length bs)) bs))) (Some (k + i)) =
     match nth_error bs i with Some b => fst b | None => 0 end).
  { revert i. induction bs as [|b bs IH]; intros i k; [destruct i; reflexivity|]. cbn [length seq combine map concat fst snd].
    rewrite count_occ_app, R. destruct i as [|i]; cbn [nth_error].
    - rewrite Nat.add_0_r. destruct (dec (Some k) (Some k)); [|contradiction].
      assert (Z : forall k' bs', k < k' -> count_occ dec (concat (map (fun ib : nat * bucket => repeat (Some (fst ib)) (fst (snd ib))) (combine (seq k' (length bs')) bs'))) (Some k) = 0).
      { clear -R. intros k' bs'. revert k'. induction bs' as [|b bs' IH]; intros k' H; [reflexivity|]. cbn [length seq combine map concat fst snd].
        rewrite count_occ_app, R, IH by lia. destruct (dec (Some k') (Some k)) as [E|]; [injection E; lia|reflexivity]. }
      rewrite Z by lia. lia.
    - destruct (dec (Some k) (Some (k + S i))) as [E|]; [injection E; lia|]. replace (k + S i) with (S k + i) by lia. rewrite IH. reflexivity. }
  apply (K 0).
Qed.

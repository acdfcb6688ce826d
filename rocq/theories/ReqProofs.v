(** Lemmas about requirements and mode. *)
From Coq Require Import Permutation.
From Verif Require Import Base BaseFacts AllocModel ReqModel ReqSpec.
Local Open Scope nat_scope.

Lemma covers_refl : forall r, covers r r.
Proof. intros [a [b|]]; split; cbn; auto. Qed.
Lemma covers_trans : forall r s t, covers r s -> covers s t -> covers r t.
Proof. intros [a [b|]] [c [d|]] [e [f|]] [H1 H2] [H3 H4]; cbn in *; split; cbn; try lia; tauto. Qed.

Lemma group_fold : forall subs acc, consistent acc -> Forall consistent subs ->
    let r := fold_left (fun (acc : reqs) (s : reqs) => (Nat.max (fst acc) (fst s), match snd acc, snd s with Some a, Some b => Some (Nat.max a b) | _, _ => None end)) subs acc in
    consistent r /\ covers r acc /\ forall s, In s subs -> covers r s.
Proof.
  induction subs as [|s subs IH]; intros acc HA HF; cbv zeta; cbn [fold_left].
  - split; [exact HA|]. split; [apply covers_refl|]. intros s [].
  - inversion HF as [|? ? Hs HF']; subst. set (acc' := (Nat.max (fst acc) (fst s), match snd acc, snd s with Some a, Some b => Some (Nat.max a b) | _, _ => None end)).
    assert (CA : consistent acc' /\ covers acc' acc /\ covers acc' s).
    { destruct acc as [a [b|]], s as [c [d|]], HA, Hs; cbn in *; repeat split; cbn; try lia; try exact I. }
    destruct CA as (C1 & C2 & C3). destruct (IH acc' C1 HF') as (R1 & R2 & R3). split; [exact R1|]. split; [eapply covers_trans; eassumption|].
    intros x [<-|Hx]; [eapply covers_trans; eassumption|apply R3; exact Hx].
Qed.
Lemma group_req_ok : forall subs, Forall consistent subs -> consistent (group_req subs) /\ forall s, In s subs -> covers (group_req subs) s.
Proof. intros subs HF. destruct (group_fold subs (1, Some 1)) as (R1 & _ & R3); [split; cbn; lia|exact HF|]. split; assumption. Qed.

(** the accumulator of a parallel group may still be (0, 0) *)
Lemma par_fold : forall subs acc, match snd acc with Some m => fst acc <= m | None => True end -> Forall consistent subs ->
    let r := fold_left (fun (acc : reqs) (s : reqs) => (if fst acc <? fst s then fst s else fst acc, match snd acc, snd s with Some a, Some b => Some (a + b) | _, _ => None end)) subs acc in
    match snd r with Some m => fst r <= m | None => True end /\ covers r acc /\ forall s, In s subs -> covers r s.
Proof.
  induction subs as [|s subs IH]; intros acc HA HF; cbv zeta; cbn [fold_left].
  - split; [exact HA|]. split; [apply covers_refl|]. intros s [].
  - inversion HF as [|? ? Hs HF']; subst. set (acc' := (if fst acc <? fst s then fst s else fst acc, match snd acc, snd s with Some a, Some b => Some (a + b) | _, _ => None end)).
    assert (CA : match snd acc' with Some m => fst acc' <= m | None => True end /\ covers acc' acc /\ covers acc' s).
    { destruct acc as [a [b|]], s as [c [d|]], Hs; unfold acc', covers; cbn [fst snd] in *; destruct (Nat.ltb_spec a c); repeat split; try lia; exact I. }
    destruct CA as (C1 & C2 & C3). destruct (IH acc' C1 HF') as (R1 & R2 & R3). split; [exact R1|]. split; [eapply covers_trans; eassumption|].
    intros x [<-|Hx]; [eapply covers_trans; eassumption|apply R3; exact Hx].
Qed.
Lemma parallel_req_ok : forall subs, Forall consistent subs -> consistent (parallel_req subs) /\ forall s, In s subs -> covers (parallel_req subs) s.
Proof.
  intros subs HF. unfold parallel_req. destruct (par_fold subs (0, Some 0)) as (R1 & R2 & R3); [cbn; lia|exact HF|].
  destruct (fold_left _ subs (0, Some 0)) as [mn mx]. cbn [fst snd] in *. split.
  - split; cbn; [destruct (Nat.eqb_spec mn 0); lia|]. destruct mx as [[|m]|]; [| |exact I]; destruct (Nat.eqb_spec mn 0); lia.
  - intros s Hs. apply (covers_trans _ (mn, mx)); [|apply R3; exact Hs]. split; cbn; [destruct (Nat.eqb_spec mn 0); lia|]. destruct mx as [[|m]|]; lia || exact I.
Qed.
Lemma times_req_ok : forall k r, 1 <= k -> consistent r -> consistent (times_req k r) /\ covers (times_req k r) r.
Proof. intros k [a [b|]] Hk [H1 H2]; cbn in *; repeat split; cbn; auto; nia. Qed.

Fixpoint sys_ind' (P : sys -> Prop) (HC : forall r, P (SComp r)) (HG : forall l, Forall P l -> P (SGroup l)) (HP : forall l, Forall P l -> P (SParallel l))
         (HF : forall k l, Forall P l -> P (SParallelFD k l)) (s : sys) : P s :=
  let go := fix go (l : list sys) : Forall P l := match l with [] => Forall_nil P | c :: r => Forall_cons c (sys_ind' P HC HG HP HF c) (go r) end in
  match s with SComp r => HC r | SGroup l => HG l (go l) | SParallel l => HP l (go l) | SParallelFD k l => HF k l (go l) end.

Lemma map_consistent : forall l, Forall (fun s => wf_sys s -> consistent (req s)) l -> (forall s, In s l -> wf_sys s) -> Forall consistent (map req l).
Proof. intros l H W. apply Forall_forall. intros r Hr. apply in_map_iff in Hr. destruct Hr as (s & <- & Hs). rewrite Forall_forall in H. auto. Qed.
Lemma req_consistent : forall s, wf_sys s -> consistent (req s).
Proof.
  intros s. induction s as [r|l IH|l IH|k l IH] using sys_ind'; intros W; inversion W; subst; cbn [req].
  - assumption.
  - apply group_req_ok. apply map_consistent; assumption.
  - apply parallel_req_ok. apply map_consistent; assumption.
  - apply times_req_ok; [assumption|]. apply group_req_ok. apply map_consistent; assumption.
Qed.
Lemma req_covers : forall s r, wf_sys r -> inside s r -> covers (req r) (req s).
Proof.
  intros s r W H. induction H as [|c l Hc H IH|c l Hc H IH|c k l Hc H IH]; [apply covers_refl| | |].
  - inversion W as [|? WL| |]; subst. eapply covers_trans; [|apply IH; apply WL; exact Hc]. cbn [req]. apply group_req_ok; [|apply in_map; exact Hc].
    apply Forall_forall. intros x Hx. apply in_map_iff in Hx. destruct Hx as (y & <- & Hy). apply req_consistent. apply WL. exact Hy.
  - inversion W as [| |? WL|]; subst. eapply covers_trans; [|apply IH; apply WL; exact Hc]. cbn [req]. apply parallel_req_ok; [|apply in_map; exact Hc].
    apply Forall_forall. intros x Hx. apply in_map_iff in Hx. destruct Hx as (y & <- & Hy). apply req_consistent. apply WL. exact Hy.
  - inversion W as [| | |? ? Hk WL]; subst. eapply covers_trans; [|apply IH; apply WL; exact Hc]. cbn [req].
    assert (FC : Forall consistent (map req l)) by (apply Forall_forall; intros x Hx; apply in_map_iff in Hx; destruct Hx as (y & <- & Hy); apply req_consistent; apply WL; exact Hy).
    destruct (group_req_ok (map req l) FC) as [G1 G2]. destruct (times_req_ok k (group_req (map req l)) Hk G1) as [_ T]. eapply covers_trans; [exact T|]. apply G2. apply in_map. exact Hc.
Qed.

(** ** mode *)
Lemma voi_names_iff : forall vs n, In n (voi_names vs) <-> mentioned vs n.
Proof.
  intros vs n. unfold voi_names, mentioned. rewrite nodup_In, in_flat_map. split; intros (v & Hv & H); exists v; (split; [exact Hv|]); destruct v; cbn in *; intuition congruence.
Qed.
Lemma nodup_remove_str : forall n l, NoDup l -> NoDup (remove string_dec n l).
Proof.
  intros n. induction l as [|a l IH]; intros H; [constructor|]. inversion H; subst. cbn. destruct (string_dec n a); [apply IH; assumption|]. constructor; [|apply IH; assumption].
  intros K. apply in_remove in K. tauto.
Qed.
Lemma remove_perm_str : forall (l : list string) n, NoDup l -> In n l -> Permutation l (n :: remove string_dec n l).
Proof.
  induction l as [|a l IH]; intros n ND Hin; [destruct Hin|]. inversion ND; subst. cbn. destruct (string_dec n a) as [->|Hne].
  - rewrite notin_remove by assumption. reflexivity.
  - destruct Hin as [->|Hin]; [congruence|]. rewrite (IH n) at 1 by assumption. apply perm_swap.
Qed.
Lemma total_size_ok : forall vars names acc, NoDup names ->
    fst (total_size vars names acc) = acc + list_sum (map (size_of vars) names) /\ (forall n, In n (snd (total_size vars names acc)) <-> In n names /\ ~ In n (map fst vars)).
Proof.
  induction vars as [|[n k] vars IH]; intros names acc ND; cbn [total_size].
  - split; [|cbn; tauto]. cbn [fst]. assert (E : list_sum (map (size_of []) names) = 0) by (clear; induction names; cbn; auto). lia.
  - assert (SZ : forall m, size_of ((n, k) :: vars) m = if String.eqb m n then k else size_of vars m) by (intros m; unfold size_of, sget; cbn; destruct (String.eqb m n); reflexivity).
    assert (EX : forall l, ~ In n l -> map (size_of ((n, k) :: vars)) l = map (size_of vars) l).
    { intros l Hl. apply map_ext_in. intros m Hm. rewrite SZ. destruct (String.eqb_spec m n) as [->|]; [contradiction|reflexivity]. }
    destruct (in_dec string_dec n names) as [Hin|Hn].
    + destruct (IH (remove string_dec n names) (acc + k) (nodup_remove_str n names ND)) as [I1 I2]. split.
      * rewrite I1. pose proof (remove_perm_str names n ND Hin) as P. apply (Permutation_map (size_of ((n, k) :: vars))) in P.
        assert (LS : forall a b, Permutation a b -> list_sum a = list_sum b) by (intros a b Q; induction Q; unfold list_sum in *; cbn [fold_right] in *; lia).
        rewrite (LS _ _ P). cbn [map list_sum fold_right]. rewrite SZ, String.eqb_refl. rewrite (EX (remove string_dec n names)) by (apply remove_In). unfold list_sum. lia.
      * intros m. rewrite I2. cbn [map In]. split.
        -- intros [H1 H2]. apply in_remove in H1. destruct H1 as [H1 H3]. cbn. split; [exact H1|]. intros [K|K]; [congruence|contradiction].
        -- cbn. intros [H1 H2]. split; [apply in_in_remove; [intros ->; apply H2; left; reflexivity|exact H1]|]. tauto.
    + destruct (IH names acc ND) as [I1 I2]. split; [rewrite I1, (EX names Hn); reflexivity|]. intros m. rewrite I2. cbn. split; intros [H1 H2]; (split; [exact H1|]); intros K; apply H2; [|auto].
      destruct K as [<-|K]; [contradiction|exact K].
Qed.

(** ** exactness *)
Lemma group_exact : forall subs acc, let r := fold_left (fun (acc : reqs) (s : reqs) => (Nat.max (fst acc) (fst s), match snd acc, snd s with Some a, Some b => Some (Nat.max a b) | _, _ => None end)) subs acc in
    (forall m, snd r = Some m -> snd acc = Some m \/ exists s, In s subs /\ snd s = Some m) /\
    (snd r = None -> snd acc = None \/ exists s, In s subs /\ snd s = None) /\
    (fst r = fst acc \/ exists s, In s subs /\ fst s = fst r).
Proof.
  induction subs as [|s subs IH]; intros acc; cbv zeta; cbn [fold_left]; [auto|].
  destruct (IH (Nat.max (fst acc) (fst s), match snd acc, snd s with Some a, Some b => Some (Nat.max a b) | _, _ => None end)) as (R1 & R2 & R3). cbv zeta in R1, R2, R3.
  set (r := fold_left _ subs _) in *. cbn [fst snd] in *. split; [|split].
  - intros m E. destruct (R1 m E) as [K|(x & Hx & K)]; [|right; exists x; split; [right; exact Hx|exact K]].
    destruct (snd acc) as [a|] eqn:EA, (snd s) as [b|] eqn:EB; try discriminate. injection K as K. destruct (Nat.max_spec a b) as [[_ M]|[_ M]]; rewrite M in K.
    + right. exists s. split; [left; reflexivity|]. congruence.
    + left. congruence.
  - intros E. destruct (R2 E) as [K|(x & Hx & K)]; [|right; exists x; split; [right; exact Hx|exact K]].
    destruct (snd acc) as [a|] eqn:EA; [|left; reflexivity]. destruct (snd s) as [b|] eqn:EB; [discriminate|]. right. exists s. split; [left; reflexivity|exact EB].
  - destruct R3 as [K|(x & Hx & K)]; [|right; exists x; split; [right; exact Hx|exact K]]. destruct (Nat.max_spec (fst acc) (fst s)) as [[_ M]|[_ M]]; rewrite M in K.
    + right. exists s. split; [left; reflexivity|congruence].
    + left. congruence.
Qed.
Lemma par_exact : forall subs acc, let r := fold_left (fun (acc : reqs) (s : reqs) => (if fst acc <? fst s then fst s else fst acc, match snd acc, snd s with Some a, Some b => Some (a + b) | _, _ => None end)) subs acc in
    (fst r = fst acc \/ exists s, In s subs /\ fst s = fst r) /\
    (snd r = None <-> snd acc = None \/ exists s, In s subs /\ snd s = None) /\
    (forall a, snd acc = Some a -> (forall s, In s subs -> snd s <> None) -> snd r = Some (a + list_sum (map (fun s : reqs => match snd s with Some m => m | None => 0 end) subs))).
Proof.
  induction subs as [|s subs IH]; intros acc; cbv zeta; cbn [fold_left].
  - split; [auto|]. split; [|intros a E _; rewrite E; cbn; f_equal; lia]. split; [auto|]. intros [K|(x & [] & _)]. exact K.
  - destruct (IH (if fst acc <? fst s then fst s else fst acc, match snd acc, snd s with Some a, Some b => Some (a + b) | _, _ => None end)) as (R1 & R2 & R3). cbv zeta in R1, R2, R3.
    set (r := fold_left _ subs _) in *. cbn [fst snd] in *. split; [|split].
    + destruct R1 as [K|(x & Hx & K)]; [|right; exists x; split; [right; exact Hx|exact K]]. destruct (fst acc <? fst s); [right; exists s; split; [left; reflexivity|congruence]|left; exact K].
    + rewrite R2. split.
      * intros [K|(x & Hx & K)]; [|right; exists x; split; [right; exact Hx|exact K]]. destruct (snd acc) as [a|]; [|left; reflexivity]. destruct (snd s) as [b|] eqn:EB; [discriminate|].
        right. exists s. split; [left; reflexivity|exact EB].
      * intros [K|(x & [->|Hx] & K)]; [left; rewrite K; reflexivity|left; rewrite K; destruct (snd acc); reflexivity|right; exists x; auto].
    + intros a E H. destruct (snd s) as [b|] eqn:EB; [|exfalso; apply (H s (or_introl eq_refl)); exact EB]. rewrite E in R3. rewrite (R3 (a + b) eq_refl) by (intros x Hx; apply H; right; exact Hx).
      cbn [map]. rewrite EB. unfold list_sum. cbn [fold_right]. f_equal. lia.
Qed.
Lemma req_exact : forall l, (forall s, In s l -> wf_sys s) ->
    (forall m, snd (req (SGroup l)) = Some m -> m = 1 \/ exists s, In s l /\ snd (req s) = Some m) /\
    (snd (req (SGroup l)) = None -> exists s, In s l /\ snd (req s) = None) /\
    (fst (req (SGroup l)) = 1 \/ exists s, In s l /\ fst (req s) = fst (req (SGroup l))) /\
    (fst (req (SParallel l)) = 1 \/ exists s, In s l /\ fst (req s) = fst (req (SParallel l))) /\
    (l <> [] -> (forall s, In s l -> snd (req s) <> None) -> snd (req (SParallel l)) = Some (list_sum (map (fun s => match snd (req s) with Some m => m | None => 0 end) l))) /\
    ((exists s, In s l /\ snd (req s) = None) <-> snd (req (SParallel l)) = None).
Proof.
  intros l W. assert (MP : forall (P : reqs -> Prop), (exists r, In r (map req l) /\ P r) -> exists s, In s l /\ P (req s)).
  { intros P (r & Hr & HP). apply in_map_iff in Hr. destruct Hr as (s & <- & Hs). exists s. auto. }
  destruct (group_exact (map req l) (1, Some 1)) as (G1 & G2 & G3). cbv zeta in G1, G2, G3. cbn [fst snd] in *. fold (group_req (map req l)) in G1, G2, G3. cbn [req].
  split; [|split; [|split]].
  - intros m E. destruct (G1 m E) as [K|K]; [left; congruence|right; exact (MP (fun r => snd r = Some m) K)].
  - intros E. destruct (G2 E) as [K|K]; [discriminate|exact (MP (fun r => snd r = None) K)].
  - destruct G3 as [K|K]; [left; exact K|right; exact (MP (fun r => fst r = _) K)].
  - destruct (par_exact (map req l) (0, Some 0)) as (P1 & P2 & P3). cbv zeta in P1, P2, P3. unfold parallel_req. destruct (fold_left _ (map req l) (0, Some 0)) as [mn mx]. cbn [fst snd] in *.
    split; [|split].
    + destruct (Nat.eqb_spec mn 0) as [->|Hn]; [left; reflexivity|]. destruct P1 as [K|K]; [contradiction|right; exact (MP (fun r => fst r = mn) K)].
    + intros Hl H. rewrite (P3 0 eq_refl) by (intros r Hr; apply in_map_iff in Hr; destruct Hr as (s & <- & Hs); apply H; exact Hs). rewrite map_map. cbn [plus].
      destruct l as [|s l]; [contradiction|]. assert (1 <= match snd (req s) with Some m => m | None => 0 end).
      { pose proof (req_consistent s (W s (or_introl eq_refl))) as [C1 C2]. destruct (snd (req s)) as [m|] eqn:E; [lia|exfalso; apply (H s (or_introl eq_refl)); exact E]. }
      unfold list_sum. cbn [map fold_right]. destruct (_ + _) eqn:E; [lia|reflexivity].
    + transitivity (mx = None).
      * rewrite P2. split; [intros (s & Hs & K); right; exists (req s); split; [apply in_map; exact Hs|exact K]|]. intros [K|K]; [discriminate|exact (MP (fun r => snd r = None) K)].
      * destruct mx as [[|m]|]; split; intros; congruence.
Qed.

(** Full factorial designs. *)
From Coq Require Import Permutation Lqa Qfield.
From Verif Require Import Base DoeModel DoeSpec.
Local Open Scope nat_scope.

Lemma q_of_pos : forall n, (0 < q_of (S n))%Q.
Proof. intros n. unfold q_of, Qlt. simpl. lia. Qed.
Lemma q_of_le : forall a b, a <= b -> (q_of a <= q_of b)%Q.
Proof. intros a b H. unfold q_of. rewrite <- Zle_Qle. lia. Qed.
Lemma q_of_lt : forall a b, a < b -> (q_of a < q_of b)%Q.
Proof. intros a b H. unfold q_of. rewrite <- Zlt_Qlt. lia. Qed.
Lemma q_of_nonneg : forall a, (0 <= q_of a)%Q.
Proof. intros a. change 0%Q with (q_of 0). apply q_of_le. lia. Qed.
Lemma q_of_S : forall a, (q_of (S a) == q_of a + 1)%Q.
Proof. intros a. unfold q_of. rewrite Nat2Z.inj_succ, <- Z.add_1_r, inject_Z_plus. reflexivity. Qed.

Lemma Forall2_len : forall A B (R : A -> B -> Prop) a b, Forall2 R a b -> length a = length b.
Proof. intros A B R a b H. induction H; cbn; congruence. Qed.

(** ** levels *)
Lemma linspace_length : forall lo hi n, length (linspace lo hi n) = n.
Proof. intros lo hi [|[|m]]; [reflexivity|reflexivity|]. cbn [linspace]. rewrite app_length, map_length, seq_length. cbn. lia. Qed.

Lemma linspace_nth : forall lo hi n k x, nth_error (linspace lo hi n) k = Some x -> k < n /\ (x == level n (lo, hi) k)%Q.
Proof.
  intros lo hi n k x H.
  assert (K : k < n) by (rewrite <- (linspace_length lo hi n); apply nth_error_Some; congruence). split; [exact K|].
  destruct n as [|[|m]]; [lia| |].
  - assert (k = 0) by lia. subst k. cbn in H. injection H as <-. reflexivity.
  - cbn [linspace level fst snd] in *. pose proof (q_of_pos m) as P.
    destruct (Nat.lt_ge_cases k (S m)) as [Hlt|Hge].
    + rewrite nth_error_app1 in H by (rewrite map_length, seq_length; lia). rewrite nth_error_map in H.
      assert (E : nth_error (seq 0 (S m)) k = Some k).
      { rewrite (nth_error_nth' (seq 0 (S m)) 0) by (rewrite seq_length; lia). rewrite seq_nth by lia. reflexivity. }
      rewrite E in H. cbn [option_map] in H. injection H as <-. change (inject_Z (Z.of_nat k)) with (q_of k).
      change (inject_Z (Z.pos (Pos.of_succ_nat m))) with (q_of (S m)). field. intros E0. rewrite E0 in P. apply (Qlt_irrefl 0 P).
    + assert (k = S m) by lia. subst k. rewrite nth_error_app2 in H by (rewrite map_length, seq_length; lia).
      rewrite map_length, seq_length, Nat.sub_diag in H. cbn in H. injection H as <-.
      field. intros E0. rewrite E0 in P. apply (Qlt_irrefl 0 P).
Qed.

Lemma linspace_in : forall lo hi n k, k < n -> exists x, nth_error (linspace lo hi n) k = Some x /\ (x == level n (lo, hi) k)%Q.
Proof.
  intros lo hi n k H. destruct (nth_error (linspace lo hi n) k) as [x|] eqn:E.
  - exists x. split; [reflexivity|]. apply (linspace_nth _ _ _ _ _ E).
  - apply nth_error_None in E. rewrite linspace_length in E. lia.
Qed.

Lemma level_bounds : forall n b k, (fst b <= snd b)%Q -> k < n -> (fst b <= level n b k <= snd b)%Q.
Proof.
  intros n [lo hi] k Hb Hk. cbn [fst snd] in *. destruct n as [|[|m]]; [lia|cbn; lra|]. cbn [level fst snd].
  pose proof (q_of_pos m) as P. pose proof (q_of_nonneg k) as Nk. pose proof (q_of_le k (S m) ltac:(lia)) as Lk.
  assert (A : (0 <= q_of k / q_of (S m))%Q) by (apply Qle_shift_div_l; [exact P|lra]).
  assert (B : (q_of k / q_of (S m) <= 1)%Q) by (apply Qle_shift_div_r; [exact P|lra]). nra.
Qed.
Lemma level_first : forall n b, (level n b 0 == fst b)%Q.
Proof.
  intros [|[|m]] b; try reflexivity. cbn [level]. change (q_of 0) with 0%Q. field.
  pose proof (q_of_pos m) as P. intros E0. rewrite E0 in P. apply (Qlt_irrefl 0 P).
Qed.
Lemma level_last : forall n b, 2 <= n -> (level n b (n - 1) == snd b)%Q.
Proof.
  intros [|[|m]] b H; try lia. cbn [level]. replace (S (S m) - 1) with (S m) by lia. field.
  pose proof (q_of_pos m) as P. intros E0. rewrite E0 in P. apply (Qlt_irrefl 0 P).
Qed.
Lemma level_strict : forall n b j k, (fst b < snd b)%Q -> j < k < n -> (level n b j < level n b k)%Q.
Proof.
  intros n [lo hi] j k Hb Hk. cbn [fst snd] in *. destruct n as [|[|m]]; [lia|lia|]. cbn [level fst snd].
  pose proof (q_of_pos m) as P. pose proof (q_of_lt j k ltac:(lia)) as L.
  assert (A : (q_of j / q_of (S m) < q_of k / q_of (S m))%Q).
  { apply Qlt_shift_div_l; [exact P|]. setoid_replace (q_of j / q_of (S m) * q_of (S m))%Q with (q_of j); [exact L|]. field.
    intros E0. rewrite E0 in P. apply (Qlt_irrefl 0 P). }
  nra.
Qed.

(** ** products *)
Lemma product_in : forall A (ls : list (list A)) x, In x (product ls) <-> Forall2 (@In A) x ls.
Proof.
  induction ls as [|l ls IH]; intros x; cbn [product].
  - split; [intros [<-|[]]; constructor|intros H; inversion H; left; reflexivity].
  - rewrite in_flat_map. split.
    + intros (a & Ha & Hx). apply in_map_iff in Hx. destruct Hx as (y & <- & Hy). constructor; [exact Ha|apply IH; exact Hy].
    + intros H. inversion H as [|a y l' ls' Ha Hy]; subst. exists a. split; [exact Ha|]. apply in_map. apply IH. exact Hy.
Qed.

Lemma product_length : forall A (ls : list (list A)) n, Forall (fun l => length l = n) ls -> length (product ls) = n ^ length ls.
Proof.
  induction ls as [|l ls IH]; intros n H; [reflexivity|]. inversion H as [|? ? Hl Hls]; subst. cbn [product length Nat.pow].
  rewrite <- (IH _ Hls). clear. induction l as [|a l IH]; [reflexivity|]. cbn. rewrite app_length, map_length, IH. reflexivity.
Qed.

Lemma fop_app : forall A (R : A -> A -> Prop) a b, ForallOrdPairs R a -> ForallOrdPairs R b ->
    (forall x y, In x a -> In y b -> R x y) -> ForallOrdPairs R (a ++ b).
Proof.
  induction a as [|x a IH]; intros b Ha Hb H; [exact Hb|]. inversion Ha as [|? ? Hx Ha']; subst. cbn. constructor.
  - apply Forall_app. split; [exact Hx|]. apply Forall_forall. intros y Hy. apply H; [left; reflexivity|exact Hy].
  - apply IH; [exact Ha'|exact Hb|]. intros u v Hu Hv. apply H; [right; exact Hu|exact Hv].
Qed.
Lemma fop_map : forall A B (R : B -> B -> Prop) (f : A -> B) l, ForallOrdPairs (fun a b => R (f a) (f b)) l -> ForallOrdPairs R (map f l).
Proof.
  intros A B R f l H. induction H as [|a l Ha H IH]; cbn; constructor; [|exact IH]. apply Forall_map. exact Ha.
Qed.
Lemma fop_impl : forall A (R S : A -> A -> Prop) l, (forall a b, In a l -> In b l -> R a b -> S a b) -> ForallOrdPairs R l -> ForallOrdPairs S l.
Proof.
  intros A R S l HI H. induction H as [|a l Ha H IH]; constructor.
  - rewrite Forall_forall in *. intros b Hb. apply HI; [left; reflexivity|right; exact Hb|apply Ha; exact Hb].
  - apply IH. intros x y Hx Hy. apply HI; right; assumption.
Qed.

Lemma product_distinct : forall A (R : A -> A -> Prop) (ls : list (list A)),
    Forall (ForallOrdPairs (fun a b => ~ R a b)) ls -> ForallOrdPairs (fun a b => ~ Forall2 R a b) (product ls).
Proof.
  induction ls as [|l ls IH]; intros H; cbn [product].
  - constructor; constructor.
  - inversion H as [|? ? Hl Hls]; subst. specialize (IH Hls). clear H Hls. induction Hl as [|a l Ha Hl IHl]; [constructor|].
    cbn [flat_map]. apply fop_app; [|exact IHl|].
    + apply fop_map. apply (fop_impl _ (fun x y => ~ Forall2 R x y)); [|exact IH]. intros x y _ _ K F. inversion F; subst. contradiction.
    + intros x y Hx Hy F. apply in_map_iff in Hx. destruct Hx as (x' & <- & _). apply in_flat_map in Hy. destruct Hy as (b & Hb & Hy).
      apply in_map_iff in Hy. destruct Hy as (y' & <- & _). inversion F; subst. rewrite Forall_forall in Ha. apply (Ha b Hb). assumption.
Qed.

(** ** the runs *)
Lemma entries_ok : forall A (f : Q -> Q -> A) v ks, dv_ok v -> Forall (fun k => k < dv_size v) ks ->
    entries f v ks = Ok (map (fun k => f (bound_at (dv_lower v) k) (bound_at (dv_upper v) k)) ks).
Proof.
  intros A f v ks [H1 H2]. assert (K : forall b k, bound_fits (dv_size v) b -> k < dv_size v -> entry_bound b k = Ok (bound_at b k)).
  { intros [q|l] k Hb Hk; cbn in *; [reflexivity|]. rewrite (nth_error_nth' l 0%Q) by lia. reflexivity. }
  induction 1 as [|k ks Hk HF IH]; [reflexivity|]. cbn [entries map]. rewrite (K _ _ H1 Hk), (K _ _ H2 Hk), IH. reflexivity.
Qed.

Lemma entries_all : forall A (f : Q -> Q -> A) v, dv_ok v ->
    entries f v (seq 0 (dv_size v)) = Ok (map (fun b => f (fst b) (snd b)) (var_bounds v)).
Proof.
  intros A f v H. rewrite entries_ok; [|exact H|apply Forall_forall; intros k Hk; apply in_seq in Hk; lia].
  unfold var_bounds. rewrite map_map. reflexivity.
Qed.

Lemma map_res_ok : forall A B (f : A -> res B) g l, Forall (fun x => f x = Ok (g x)) l -> map_res f l = Ok (map g l).
Proof. intros A B f g l H. induction H as [|x l Hx H IH]; [reflexivity|]. cbn. rewrite Hx, IH. reflexivity. Qed.

Definition lev (n : nat) (b : Q * Q) : list Q := linspace (fst b) (snd b) n.
Definition dv_runs (n : nat) (v : dv) : list (list Q) := product (map (lev n) (var_bounds v)).

Lemma full_factorial_ok : forall n dvs, Forall dv_ok dvs ->
    full_factorial n dvs = Ok (map (combine (map dv_name dvs)) (product (map (dv_runs n) dvs))).
Proof.
  intros n dvs H. unfold full_factorial. rewrite (map_res_ok _ _ _ (dv_runs n)); [reflexivity|].
  rewrite Forall_forall in *. intros v Hv. rewrite entries_all by (apply H; exact Hv). reflexivity.
Qed.

Lemma values_combine : forall (names : list string) (xs : list (list Q)), length names = length xs -> values (combine names xs) = concat xs.
Proof.
  induction names as [|a names IH]; intros [|x xs] H; try discriminate; [reflexivity|]. cbn in *. unfold values in *. cbn. rewrite IH by lia. reflexivity.
Qed.

Lemma levels_app : forall n b1 b2 k1 k2, length b1 = length k1 -> levels_of n (b1 ++ b2) (k1 ++ k2) = levels_of n b1 k1 ++ levels_of n b2 k2.
Proof.
  intros n b1 b2 k1 k2. unfold levels_of. revert k1. induction b1 as [|b b1 IH]; intros [|k k1] H; try discriminate; [reflexivity|].
  cbn [app combine map] in *. rewrite IH by (cbn in H; lia). reflexivity.
Qed.

Lemma dv_runs_sound : forall n bs x, In x (product (map (lev n) bs)) ->
    exists ks, length ks = length bs /\ Forall (fun k => k < n) ks /\ same x (levels_of n bs ks).
Proof.
  intros n bs x H. apply product_in in H. revert x H. induction bs as [|b bs IH]; intros x H; inversion H as [|a l0 y ls Ha Hy]; subst.
  - exists []. repeat split; constructor.
  - destruct (IH y Hy) as (ks & H1 & H2 & H3). apply In_nth_error in Ha. destruct Ha as [k Hk]. apply linspace_nth in Hk. destruct Hk as [Hk He].
    exists (k :: ks). split; [cbn; lia|]. split; [constructor; assumption|]. constructor; [destruct b; exact He|exact H3].
Qed.

Lemma dv_runs_complete : forall n bs ks, length ks = length bs -> Forall (fun k => k < n) ks ->
    exists x, In x (product (map (lev n) bs)) /\ same x (levels_of n bs ks).
Proof.
  intros n bs. induction bs as [|b bs IH]; intros [|k ks] HL HF; try discriminate.
  - exists []. split; [left; reflexivity|constructor].
  - inversion HF as [|? ? Hk HF']; subst. destruct (IH ks ltac:(cbn in HL; lia) HF') as (y & Hy & Hs).
    destruct (linspace_in (fst b) (snd b) n k Hk) as (a & Ha & He). exists (a :: y). split.
    + apply product_in. cbn [map]. constructor; [apply nth_error_In with k; exact Ha|apply product_in; exact Hy].
    + constructor; [destruct b; exact He|exact Hs].
Qed.

Lemma all_sound : forall n dvs xs, Forall2 (@In (list Q)) xs (map (dv_runs n) dvs) ->
    Forall2 (fun v x => length x = dv_size v) dvs xs /\
    exists ks, length ks = length (all_bounds dvs) /\ Forall (fun k => k < n) ks /\ same (concat xs) (levels_of n (all_bounds dvs) ks).
Proof.
  intros n. induction dvs as [|v dvs IH]; intros xs H; inversion H as [|x ys l ls Hx Hys]; subst.
  - split; [constructor|]. exists []. repeat split; constructor.
  - destruct (IH _ Hys) as (F & ks2 & H1 & H2 & H3). destruct (dv_runs_sound _ _ _ Hx) as (ks1 & G1 & G2 & G3). split.
    + constructor; [|exact F]. apply Forall2_len in G3. rewrite G3. unfold levels_of. rewrite map_length, combine_length, G1.
      unfold var_bounds. rewrite map_length, seq_length. lia.
    + exists (ks1 ++ ks2). unfold all_bounds in *. cbn [flat_map concat]. rewrite !app_length. split; [lia|]. split; [apply Forall_app; auto|].
      rewrite levels_app by (symmetry; exact G1). apply Forall2_app; assumption.
Qed.

Lemma all_complete : forall n dvs ks, length ks = length (all_bounds dvs) -> Forall (fun k => k < n) ks ->
    exists xs, Forall2 (@In (list Q)) xs (map (dv_runs n) dvs) /\ same (concat xs) (levels_of n (all_bounds dvs) ks).
Proof.
  intros n. induction dvs as [|v dvs IH]; intros ks HL HF.
  - destruct ks; [|discriminate]. exists []. split; constructor.
  - unfold all_bounds in *. cbn [flat_map] in *. rewrite app_length in HL.
    rewrite <- (firstn_skipn (length (var_bounds v)) ks) in HF. apply Forall_app in HF. destruct HF as [F1 F2].
    destruct (IH (skipn (length (var_bounds v)) ks) ltac:(rewrite skipn_length; lia) F2) as (ys & Hys & Hs).
    destruct (dv_runs_complete n (var_bounds v) (firstn (length (var_bounds v)) ks)) as (x & Hx & Hxs); [rewrite firstn_length; lia|exact F1|].
    exists (x :: ys). split; [constructor; [exact Hx|exact Hys]|].
    rewrite <- (firstn_skipn (length (var_bounds v)) ks). rewrite levels_app by (rewrite firstn_length; lia). cbn [concat]. apply Forall2_app; assumption.
Qed.

Lemma shaped_combine : forall dvs xs, Forall2 (fun v x => length x = dv_size v) dvs xs -> shaped dvs (combine (map dv_name dvs) xs).
Proof. intros dvs xs H. unfold shaped. induction H as [|v x dvs xs Hx H IH]; cbn; constructor; [split; [reflexivity|exact Hx]|exact IH]. Qed.

Lemma factorial_sound : forall n dvs runs c, Forall dv_ok dvs -> full_factorial n dvs = Ok runs -> In c runs ->
    shaped dvs c /\ exists ks, length ks = length (all_bounds dvs) /\ Forall (fun k => k < n) ks /\ same (values c) (levels_of n (all_bounds dvs) ks).
Proof.
  intros n dvs runs c HF H Hin. rewrite (full_factorial_ok n dvs HF) in H. injection H as <-.
  apply in_map_iff in Hin. destruct Hin as (xs & <- & Hxs). apply product_in in Hxs. destruct (all_sound _ _ _ Hxs) as (S1 & S2).
  split; [apply shaped_combine; exact S1|]. rewrite values_combine; [exact S2|]. apply Forall2_len in S1. rewrite map_length. exact S1.
Qed.

Lemma factorial_complete : forall n dvs runs ks, Forall dv_ok dvs -> full_factorial n dvs = Ok runs ->
    length ks = length (all_bounds dvs) -> Forall (fun k => k < n) ks ->
    exists c, In c runs /\ same (values c) (levels_of n (all_bounds dvs) ks).
Proof.
  intros n dvs runs ks HF H HL HK. rewrite (full_factorial_ok n dvs HF) in H. injection H as <-.
  destruct (all_complete n dvs ks HL HK) as (xs & Hxs & Hs). exists (combine (map dv_name dvs) xs). split.
  - apply in_map. apply product_in. exact Hxs.
  - rewrite values_combine; [exact Hs|]. apply Forall2_len in Hxs. rewrite !map_length in *. lia.
Qed.

Lemma lev_distinct : forall n b, (fst b < snd b)%Q -> ForallOrdPairs (fun x y => ~ (x == y)%Q) (lev n b).
Proof.
  intros n b Hb. assert (K : forall l, (forall i j x y, i < j -> nth_error l i = Some x -> nth_error l j = Some y -> ~ (x == y)%Q) ->
     ForallOrdPairs (fun x y => ~ (x == y)%Q) l).
  { induction l as [|a l IH]; intros H; constructor.
    - apply Forall_forall. intros y Hy. apply In_nth_error in Hy. destruct Hy as [j Hj]. apply (H 0 (S j)); [lia|reflexivity|exact Hj].
    - apply IH. intros i j x y Hij Hx Hy. apply (H (S i) (S j)); [lia|exact Hx|exact Hy]. }
  apply K. intros i j x y Hij Hx Hy. apply linspace_nth in Hx, Hy. destruct Hx as [Hi Ex], Hy as [Hj Ey].
  pose proof (level_strict n (fst b, snd b) i j Hb ltac:(lia)) as L. rewrite <- Ex, <- Ey in L. intros E. rewrite E in L. apply (Qlt_irrefl y L).
Qed.

Lemma same_concat : forall xs ys : list (list Q), Forall2 (fun a b => length a = length b) xs ys -> same (concat xs) (concat ys) -> Forall2 same xs ys.
Proof.
  intros xs ys H. induction H as [|x y xs ys Hxy H IH]; intros HS; [constructor|]. cbn [concat] in HS.
  assert (K : same x y /\ same (concat xs) (concat ys)).
  { clear -Hxy HS. revert y Hxy HS. induction x as [|a x IH]; intros [|b y] HL HS; try discriminate; [split; [constructor|exact HS]|].
    cbn [app] in HS. inversion HS; subst. destruct (IH y ltac:(cbn in HL; lia) ltac:(assumption)). split; [constructor; assumption|assumption]. }
  constructor; [apply K|apply IH; apply K].
Qed.

Lemma factorial_distinct : forall n dvs runs, Forall dv_ok dvs -> full_factorial n dvs = Ok runs ->
    Forall (fun b => fst b < snd b)%Q (all_bounds dvs) ->
    ForallOrdPairs (fun a b => ~ same (values a) (values b)) runs.
Proof.
  intros n dvs runs HF H HB. rewrite (full_factorial_ok n dvs HF) in H. injection H as <-. apply fop_map.
  assert (D : ForallOrdPairs (fun a b => ~ Forall2 same a b) (product (map (dv_runs n) dvs))).
  { apply (product_distinct _ same). apply Forall_map. apply Forall_forall. intros v Hv. unfold dv_runs.
    apply (product_distinct _ Qeq). apply Forall_map. apply Forall_forall. intros b Hb. apply lev_distinct.
    rewrite Forall_forall in HB. apply HB. apply in_flat_map. exists v. split; assumption. }
  apply (fop_impl _ (fun a b => ~ Forall2 same a b)); [|exact D]. intros a b Ha Hb Hn Hs. apply Hn.
  apply product_in in Ha, Hb. destruct (all_sound _ _ _ Ha) as [La _], (all_sound _ _ _ Hb) as [Lb _].
  pose proof (Forall2_len _ _ _ _ _ La) as La'. pose proof (Forall2_len _ _ _ _ _ Lb) as Lb'.
  rewrite !values_combine in Hs by (rewrite map_length; assumption). apply same_concat; [|exact Hs].
  clear -La Lb. revert b Lb. induction La as [|v x dvs a Hx La IH]; intros b Lb; inversion Lb; subst; constructor; [congruence|auto].
Qed.

Lemma factorial_count : forall n dvs runs, Forall dv_ok dvs -> full_factorial n dvs = Ok runs -> length runs = n ^ length (all_bounds dvs).
Proof.
  intros n dvs runs HF H. rewrite (full_factorial_ok n dvs HF) in H. injection H as <-. rewrite map_length. clear HF.
  induction dvs as [|v dvs IH]; [reflexivity|]. unfold all_bounds in *. cbn [map product flat_map]. rewrite app_length, Nat.pow_add_r, <- IH.
  replace (n ^ length (var_bounds v)) with (length (dv_runs n v)).
  - generalize (dv_runs n v) as l. clear. induction l as [|a l IH]; [reflexivity|]. cbn. rewrite app_length, map_length, IH. reflexivity.
  - unfold dv_runs. rewrite (product_length _ _ n); [rewrite map_length; reflexivity|]. apply Forall_map. apply Forall_forall. intros b _. apply linspace_length.
Qed.

Lemma levels_bounds : forall n bs ks, length ks = length bs -> Forall (fun k => k < n) ks -> Forall (fun b => fst b <= snd b)%Q bs ->
    Forall2 (fun b x => fst b <= x <= snd b)%Q bs (levels_of n bs ks).
Proof.
  intros n bs ks HL HK HB. revert ks HL HK. induction HB as [|b bs Hb HB IH]; intros [|k ks] HL HK; try discriminate; [constructor|].
  inversion HK; subst. constructor; [apply level_bounds; assumption|apply IH; [cbn in HL; lia|assumption]].
Qed.

Lemma factorial_bounds : forall n dvs runs c, Forall dv_ok dvs -> full_factorial n dvs = Ok runs -> In c runs ->
    Forall (fun b => fst b <= snd b)%Q (all_bounds dvs) -> Forall2 (fun b x => fst b <= x <= snd b)%Q (all_bounds dvs) (values c).
Proof.
  intros n dvs runs c HF H Hin HB. destruct (factorial_sound n dvs runs c HF H Hin) as (_ & ks & H1 & H2 & H3).
  pose proof (levels_bounds n _ ks H1 H2 HB) as K. set (ys := levels_of n (all_bounds dvs) ks) in *. clearbody ys. clear -H3 K. revert K. generalize (all_bounds dvs) as bs.
  induction H3 as [|x y xs ys Hxy H3 IH]; intros bs K; inversion K; subst; constructor; [|auto]. rewrite Hxy. assumption.
Qed.

Lemma levels_const : forall n k bs, levels_of n bs (repeat k (length bs)) = map (fun b => level n b k) bs.
Proof. intros n k. unfold levels_of. induction bs as [|b bs IH]; [reflexivity|]. cbn. rewrite IH. reflexivity. Qed.

Lemma factorial_attained : forall n dvs runs, Forall dv_ok dvs -> full_factorial n dvs = Ok runs -> 2 <= n ->
    (exists c, In c runs /\ same (values c) (map fst (all_bounds dvs))) /\ (exists c, In c runs /\ same (values c) (map snd (all_bounds dvs))).
Proof.
  intros n dvs runs HF H Hn.
  assert (K : forall k f, k < n -> (forall b, level n b k == f b)%Q -> exists c, In c runs /\ same (values c) (map f (all_bounds dvs))).
  { intros k f Hk Hf. destruct (factorial_complete n dvs runs (repeat k (length (all_bounds dvs))) HF H) as (c & Hc & Hs);
      [apply repeat_length|apply Forall_forall; intros x Hx; apply repeat_spec in Hx; lia|]. exists c. split; [exact Hc|].
    rewrite levels_const in Hs. clear -Hs Hf. revert Hs. generalize (values c) as l. induction (all_bounds dvs) as [|b bs IH]; intros l Hs; inversion Hs; subst; constructor.
    - rewrite <- Hf. assumption.
    - apply IH. assumption. }
  split; [apply (K 0); [lia|intros b; apply level_first]|apply (K (n - 1)); [lia|intros b; apply level_last; lia]].
Qed.

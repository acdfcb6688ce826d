(** Proofs for index distribution and data transfer. *)
From Coq Require Import Ring Permutation Ring_theory.
From Verif Require Import Base TransferModel TransferSpec.
Local Open Scope Z_scope.

(** ** evenly_distrib_idxs *)
Lemma offsets_nth : forall sizes start k s, nth_error sizes k = Some s ->
    exists o, nth_error (offsets_from start sizes) k = Some o /\
              o = start + fold_right Z.add 0 (firstn k sizes).
Proof.
  induction sizes as [|x sizes IH]; intros start k s H; destruct k; simpl in *; try discriminate.
  - exists start. split; auto. lia.
  - destruct (IH (start + x) k s H) as (o & E & F). exists o. split; auto. lia.
Qed.

Lemma offsets_length : forall sizes start, length (offsets_from start sizes) = length sizes.
Proof. induction sizes; intros; simpl; auto. Qed.

Definition dsize (base leftover : Z) (k : nat) : Z := if Z.of_nat k <? leftover then base + 1 else base.

Lemma firstn_map_seq : forall (f : nat -> Z) n k, (k <= n)%nat -> firstn k (map f (seq 0 n)) = map f (seq 0 k).
Proof.
  intros f n k H. rewrite firstn_map. f_equal.
  replace n with (k + (n - k))%nat by lia. rewrite seq_app, firstn_app, seq_length.
  rewrite Nat.sub_diag. simpl. rewrite app_nil_r. rewrite <- (seq_length k 0) at 1. apply firstn_all.
Qed.

Lemma fold_add_app : forall a b, fold_right Z.add 0 (a ++ b) = fold_right Z.add 0 a + fold_right Z.add 0 b.
Proof. induction a; intros; simpl; auto. rewrite IHa. lia. Qed.

Lemma dsum : forall base leftover k, 0 <= leftover ->
    fold_right Z.add 0 (map (dsize base leftover) (seq 0 k)) = base * Z.of_nat k + Z.min (Z.of_nat k) leftover.
Proof.
  intros base leftover k H. induction k as [|k IH]; [simpl; lia|].
  rewrite seq_S, map_app, fold_add_app, IH. cbn [map fold_right]. unfold dsize. rewrite Nat.add_0_l.
  destruct (Z.of_nat k <? leftover) eqn:E; [apply Z.ltb_lt in E|apply Z.ltb_ge in E]; lia.
Qed.

Lemma distrib_shape : forall n size sizes offsets, 1 <= n -> 0 <= size ->
    evenly_distrib_idxs n size = Ok (sizes, offsets) ->
    exists base leftover, size = base * n + leftover /\ 0 <= leftover < n /\ 0 <= base /\
      sizes = map (dsize base leftover) (seq 0 (Z.to_nat n)) /\ offsets = offsets_from 0 sizes.
Proof.
  intros n size sizes offsets Hn Hs H. unfold evenly_distrib_idxs in H.
  assert (E : (n =? 0) = false) by (apply Z.eqb_neq; lia). rewrite E in H. injection H as <- <-.
  exists (size / n), (size mod n). repeat split; auto.
  - rewrite Z.mul_comm. apply Z.div_mod. lia.
  - apply Z.mod_pos_bound; lia.
  - apply Z.mod_pos_bound; lia.
  - apply Z.div_pos; lia.
Qed.

Lemma distrib_total : forall n size, 1 <= n -> exists sizes offsets, evenly_distrib_idxs n size = Ok (sizes, offsets) /\
   length sizes = Z.to_nat n /\ length offsets = Z.to_nat n.
Proof.
  intros n size H. unfold evenly_distrib_idxs. assert (E : (n =? 0) = false) by (apply Z.eqb_neq; lia). rewrite E.
  do 2 eexists. split; [reflexivity|]. rewrite offsets_length, !map_length, seq_length. auto.
Qed.

Lemma distrib_offset : forall base leftover n k, 0 <= leftover -> (k < n)%nat ->
    nth_error (map (dsize base leftover) (seq 0 n)) k = Some (dsize base leftover k) /\
    nth_error (offsets_from 0 (map (dsize base leftover) (seq 0 n))) k
    = Some (base * Z.of_nat k + Z.min (Z.of_nat k) leftover).
Proof.
  intros base leftover n k Hl Hk.
  assert (N : nth_error (map (dsize base leftover) (seq 0 n)) k = Some (dsize base leftover k)).
  { rewrite nth_error_map. rewrite nth_error_nth' with (d := 0%nat) by (rewrite seq_length; lia).
    rewrite seq_nth by lia. reflexivity. }
  split; auto. destruct (offsets_nth _ 0 k _ N) as (o & E & F). rewrite E, F.
  rewrite firstn_map_seq, dsum by lia. f_equal; lia.
Qed.

Lemma distrib_cover : forall n size sizes offsets i, 1 <= n -> 0 <= size ->
    evenly_distrib_idxs n size = Ok (sizes, offsets) ->
    (0 <= i < size <-> exists k, in_chunk sizes offsets k i).
Proof.
  intros n size sizes offsets i Hn Hs H. destruct (distrib_shape _ _ _ _ Hn Hs H) as (b & l & E & Hl & Hb & -> & ->).
  split.
  - intro Hi. (* induction on the number of chunks considered *)
    assert (P : forall m, (m <= Z.to_nat n)%nat -> i < b * Z.of_nat m + Z.min (Z.of_nat m) l ->
      exists k, in_chunk (map (dsize b l) (seq 0 (Z.to_nat n))) (offsets_from 0 (map (dsize b l) (seq 0 (Z.to_nat n)))) k i).
    { induction m as [|m IH]; intros Hm Hlt; [lia|].
      destruct (Z.lt_ge_cases i (b * Z.of_nat m + Z.min (Z.of_nat m) l)) as [C|C]; [apply IH; auto; lia|].
      exists m. destruct (distrib_offset b l (Z.to_nat n) m ltac:(lia) ltac:(lia)) as [A B].
      exists (dsize b l m), (b * Z.of_nat m + Z.min (Z.of_nat m) l). repeat split; auto.
      unfold dsize. destruct (Z.of_nat m <? l) eqn:Q; [apply Z.ltb_lt in Q|apply Z.ltb_ge in Q]; lia. }
    apply (P (Z.to_nat n)); auto. rewrite Z2Nat.id by lia. lia.
  - intros (k & s & o & A & B & C).
    assert (K : (k < Z.to_nat n)%nat).
    { rewrite <- (seq_length (Z.to_nat n) 0), <- (map_length (dsize b l)). apply nth_error_Some. congruence. }
    destruct (distrib_offset b l (Z.to_nat n) k ltac:(lia) K) as [A' B']. rewrite A' in A. rewrite B' in B.
    injection A as <-. injection B as <-. split; [lia|].
    assert (Z.of_nat k < n) by lia. unfold dsize in C.
    destruct (Z.of_nat k <? l) eqn:Q; [apply Z.ltb_lt in Q|apply Z.ltb_ge in Q]; nia.
Qed.

Lemma distrib_disjoint : forall n size sizes offsets i k k', 1 <= n -> 0 <= size ->
    evenly_distrib_idxs n size = Ok (sizes, offsets) ->
    in_chunk sizes offsets k i -> in_chunk sizes offsets k' i -> k = k'.
Proof.
  intros n size sizes offsets i k k' Hn Hs H C C'.
  destruct (distrib_shape _ _ _ _ Hn Hs H) as (b & l & E & Hl & Hb & -> & ->).
  assert (G : forall k, in_chunk (map (dsize b l) (seq 0 (Z.to_nat n))) (offsets_from 0 (map (dsize b l) (seq 0 (Z.to_nat n)))) k i ->
              b * Z.of_nat k + Z.min (Z.of_nat k) l <= i < b * (Z.of_nat k + 1) + Z.min (Z.of_nat k + 1) l).
  { clear C C' k k'. intros k (s & o & A & B & C).
    assert (K : (k < Z.to_nat n)%nat).
    { rewrite <- (seq_length (Z.to_nat n) 0), <- (map_length (dsize b l)). apply nth_error_Some. congruence. }
    destruct (distrib_offset b l (Z.to_nat n) k ltac:(lia) K) as [A' B']. rewrite A' in A. rewrite B' in B.
    injection A as <-. injection B as <-. unfold dsize in C.
    destruct (Z.of_nat k <? l) eqn:Q; [apply Z.ltb_lt in Q|apply Z.ltb_ge in Q]; lia. }
  apply G in C. apply G in C'.
  destruct (Nat.lt_trichotomy k k') as [L|[L|L]]; auto; exfalso.
  - assert (Z.of_nat k + 1 <= Z.of_nat k') by lia. nia.
  - assert (Z.of_nat k' + 1 <= Z.of_nat k) by lia. nia.
Qed.

Lemma distrib_even : forall n size sizes offsets k k' s s', 1 <= n -> 0 <= size ->
    evenly_distrib_idxs n size = Ok (sizes, offsets) -> (k <= k')%nat ->
    nth_error sizes k = Some s -> nth_error sizes k' = Some s' -> s' <= s <= s' + 1.
Proof.
  intros n size sizes offsets k k' s s' Hn Hs H L A B.
  destruct (distrib_shape _ _ _ _ Hn Hs H) as (b & l & E & Hl & Hb & -> & ->).
  assert (K : (k' < Z.to_nat n)%nat).
  { rewrite <- (seq_length (Z.to_nat n) 0), <- (map_length (dsize b l)). apply nth_error_Some. congruence. }
  destruct (distrib_offset b l (Z.to_nat n) k ltac:(lia) ltac:(lia)) as [A' _].
  destruct (distrib_offset b l (Z.to_nat n) k' ltac:(lia) K) as [B' _].
  rewrite A' in A. rewrite B' in B. injection A as <-. injection B as <-. unfold dsize.
  destruct (Z.of_nat k <? l) eqn:Q, (Z.of_nat k' <? l) eqn:Q'; lia.
Qed.

Lemma distrib_consecutive : forall n size sizes offsets k s o o', 1 <= n -> 0 <= size ->
    evenly_distrib_idxs n size = Ok (sizes, offsets) ->
    nth_error sizes k = Some s -> nth_error offsets k = Some o -> nth_error offsets (S k) = Some o' -> o' = o + s.
Proof.
  intros n size sizes offsets k s o o' Hn Hs H A B C.
  destruct (distrib_shape _ _ _ _ Hn Hs H) as (b & l & E & Hl & Hb & -> & ->).
  assert (K : (S k < Z.to_nat n)%nat).
  { rewrite <- (seq_length (Z.to_nat n) 0), <- (map_length (dsize b l)), <- (offsets_length _ 0).
    apply nth_error_Some. congruence. }
  destruct (distrib_offset b l (Z.to_nat n) k ltac:(lia) ltac:(lia)) as [A' B'].
  destruct (distrib_offset b l (Z.to_nat n) (S k) ltac:(lia) K) as [_ C'].
  rewrite A' in A. rewrite B' in B. rewrite C' in C. injection A as <-. injection B as <-. injection C as <-.
  unfold dsize. destruct (Z.of_nat k <? l) eqn:Q; [apply Z.ltb_lt in Q|apply Z.ltb_ge in Q]; lia.
Qed.

(** ** what an index denotes *)
Fixpoint prog (a st : Z) (k : nat) : list Z :=
  match k with O => [] | S k' => a :: prog (a + st) st k' end.

Definition step_of (o : option Z) : Z := match o with None => 1 | Some x => x end.

Inductive den : isel -> list Z -> Prop :=
| den_arr : forall l, den (IArr l) l
| den_slice : forall a o k, 0 < step_of o -> (1 <= k)%nat ->
    den (ISlice a (a + Z.of_nat k * step_of o) o) (prog a (step_of o) k).

Lemma prog_length : forall k a st, length (prog a st k) = k.
Proof. induction k; intros; simpl; auto. Qed.

Lemma prog_app : forall k k' a st, prog a st (k + k') = prog a st k ++ prog (a + Z.of_nat k * st) st k'.
Proof.
  induction k as [|k IH]; intros; cbn [prog app Nat.add].
  - f_equal. lia.
  - f_equal. rewrite IH. f_equal. f_equal. lia.
Qed.

Lemma diffs_prog : forall l a st, existsb (fun d => negb (d =? st)) (diffs (a :: l)) = false ->
    a :: l = prog a st (S (length l)).
Proof.
  induction l as [|b l IH]; intros a st H; [reflexivity|].
  cbn [diffs existsb] in H. apply orb_false_iff in H. destruct H as [H1 H2].
  apply negb_false_iff, Z.eqb_eq in H1. cbn [length prog]. f_equal.
  replace (a + st) with b by lia. apply IH. exact H2.
Qed.

Lemma prog_last : forall k a st d, last (prog a st (S k)) d = a + Z.of_nat k * st.
Proof.
  induction k as [|k IH]; intros; [simpl; lia|].
  change (last (prog a st (S (S k))) d) with (last (prog (a + st) st (S k)) d). rewrite IH. lia.
Qed.

Lemma to_slice_den : forall l, l <> [] -> den (to_slice l) l.
Proof.
  intros [|a [|b l]] H; [congruence| |].
  - simpl. pose proof (den_slice a None 1 ltac:(simpl; lia) ltac:(lia)) as D. simpl in D.
    exact D.
  - unfold to_slice. destruct (b - a <=? 0) eqn:E; [apply den_arr|]. apply Z.leb_gt in E.
    destruct (existsb _ _) eqn:X; [apply den_arr|].
    apply diffs_prog in X. rewrite X at 1 2. cbn [length] in *. rewrite prog_last.
    pose proof (den_slice a (Some (b - a)) (S (S (length l))) ltac:(simpl; lia) ltac:(lia)) as D.
    cbn [step_of] in D.
    replace (a + Z.of_nat (S (length l)) * (b - a) + (b - a))
      with (a + Z.of_nat (S (S (length l))) * (b - a)) by lia. exact D.
Qed.

Lemma norm_all_ok : forall n l, Forall (fun z => 0 <= z < n) l -> norm_all n l = Ok (map Z.to_nat l).
Proof.
  induction 1 as [|z l Hz F IH]; auto. simpl. unfold norm_idx.
  assert (E : (z <? 0) = false) by (apply Z.ltb_ge; lia). rewrite E, E.
  assert (E2 : (n <=? z) = false) by (apply Z.leb_gt; lia). rewrite E2. simpl. rewrite IH. reflexivity.
Qed.

Lemma prog_in : forall k a st i, (i < k)%nat -> In (a + Z.of_nat i * st) (prog a st k).
Proof.
  induction k as [|k IH]; intros a st i H; [lia|]. destruct i as [|i].
  - left. lia.
  - right. replace (a + Z.of_nat (S i) * st) with (a + st + Z.of_nat i * st) by lia. apply IH. lia.
Qed.

Lemma steps_prog : forall k a st, steps a st k = map Z.to_nat (prog a st k).
Proof. induction k; intros; simpl; auto. now rewrite IHk. Qed.

Lemma den_resolve : forall n s l, den s l -> Forall (in_range n) l -> resolve (Z.of_nat n) s = Ok (map Z.to_nat l).
Proof.
  intros n s l D F. destruct D as [l|a o k Hst Hk].
  - apply norm_all_ok. exact F.
  - rewrite Forall_forall in F.
    assert (A : in_range n a).
    { apply F. replace a with (a + Z.of_nat 0 * step_of o) at 1 by lia. apply prog_in. lia. }
    assert (B : in_range n (a + Z.of_nat (k - 1) * step_of o)) by (apply F, prog_in; lia).
    unfold in_range in *. unfold resolve. fold (step_of o).
    assert (E : (step_of o =? 0) = false) by (apply Z.eqb_neq; lia). rewrite E.
    assert (CA : clip (Z.of_nat n) a = a).
    { unfold clip. assert (X : (a <? 0) = false) by (apply Z.ltb_ge; lia). rewrite X, X.
      assert (Y : (Z.of_nat n <? a) = false) by (apply Z.ltb_ge; lia). now rewrite Y. }
    rewrite CA. set (e := a + Z.of_nat k * step_of o).
    assert (CE : clip (Z.of_nat n) e = Z.min (Z.of_nat n) e).
    { unfold clip. assert (X : (e <? 0) = false) by (apply Z.ltb_ge; unfold e; nia). rewrite X, X.
      destruct (Z.of_nat n <? e) eqn:Y; [apply Z.ltb_lt in Y|apply Z.ltb_ge in Y]; lia. }
    rewrite CE. rewrite steps_prog. f_equal. f_equal. f_equal.
    assert (Q : (Z.min (Z.of_nat n) e - a + step_of o - 1) / step_of o = Z.of_nat k).
    { symmetry. apply Z.div_unique with (r := Z.min (Z.of_nat n) e - a + step_of o - 1 - step_of o * Z.of_nat k).
      - left. unfold e.
        replace (Z.of_nat k) with (Z.of_nat (k - 1) + 1) in * by lia.
        set (q := Z.of_nat (k - 1)) in *. nia.
      - lia. }
    rewrite Q. apply Nat2Z.id.
Qed.

(** ** sorting keeps the pairs *)
Lemma insert_sorted_perm : forall A (x : Z * A) l, Permutation (insert_sorted x l) (x :: l).
Proof.
  induction l as [|y l IH]; simpl; auto. destruct (fst x <=? fst y); auto.
  rewrite IH. apply perm_swap.
Qed.
Lemma sort_pairs_perm : forall A (l : list (Z * A)), Permutation (sort_pairs l) l.
Proof. induction l; simpl; auto. rewrite insert_sorted_perm. auto. Qed.

Lemma with_keys_ok : forall fwd l, Forall (fun c => length (fst c) = length (snd c) /\ fst c <> []) l ->
    exists k, with_keys fwd l = Ok k /\ map snd k = l.
Proof.
  induction 1 as [|[s t] l [HL HN] F IH]; [exists []; auto|]. simpl in HL, HN.
  destruct IH as (k & E & M). simpl. unfold keyfunc.
  destruct s as [|a s]; [congruence|]. destruct t as [|b t]; [discriminate|].
  destruct fwd; simpl; rewrite E; simpl; eexists; split; try reflexivity; simpl; now rewrite M.
Qed.

(** ** the scatters denote the connections *)
Definition scden (fwd : bool) (s : scatter) (c : list Z * list Z) : Prop :=
  let '(ss, ts, u) := s in
  den ss (fst c) /\ den ts (snd c) /\ length (fst c) = length (snd c) /\
  (fwd = false -> u = true -> NoDup (fst c)).

Lemma prog_nodup : forall k a st, 0 < st -> NoDup (prog a st k).
Proof.
  assert (G : forall k a st z, 0 < st -> In z (prog a st k) -> a <= z).
  { induction k as [|k IH]; intros a st z H I; [destruct I|]. destruct I as [<-|I]; [lia|].
    apply IH in I; lia. }
  induction k as [|k IH]; intros a st H; simpl; constructor; auto.
  intro I. apply G in I; lia.
Qed.

Lemma nodupb_sound : forall l, nodupb l = true -> NoDup l.
Proof.
  induction l as [|a l IH]; intro H; constructor; simpl in H; apply andb_true_iff in H; destruct H as [H1 H2]; auto.
  intro I. apply negb_true_iff in H1.
  assert (existsb (Z.eqb a) l = true) by (apply existsb_exists; exists a; split; [auto|apply Z.eqb_refl]). congruence.
Qed.

Lemma optZ_eqb_eq : forall a b, optZ_eqb a b = true -> a = b.
Proof. intros [x|] [y|]; simpl; intro H; try discriminate; auto. apply Z.eqb_eq in H. now subst. Qed.

Lemma combine_app : forall A B (a a' : list A) (b b' : list B), length a = length b ->
    combine (a ++ a') (b ++ b') = combine a b ++ combine a' b'.
Proof. induction a; intros a' [|y b] b' H; simpl in *; try discriminate; auto. f_equal. apply IHa. lia. Qed.

Lemma entries_app : forall a b, entries (a ++ b) = entries a ++ entries b.
Proof. intros. unfold entries. apply flat_map_app. Qed.

Lemma add_scatter_den : forall fwd sc pl ls lt, Forall2 (scden fwd) sc pl -> length ls = length lt -> ls <> [] ->
    exists pl', Forall2 (scden fwd) (add_scatter fwd sc ls lt) pl' /\ entries pl' = entries pl ++ combine ls lt.
Proof.
  intros fwd sc pl ls lt F HL HN.
  assert (HT : lt <> []) by (destruct ls, lt; simpl in *; congruence).
  assert (NEW : scden fwd (to_slice ls, to_slice lt, match fwd, to_slice ls with false, IArr l => nodupb l | _, _ => true end) (ls, lt)).
  { simpl. split; [now apply to_slice_den|]. split; [now apply to_slice_den|]. split; auto.
    intros -> U. pose proof (to_slice_den ls HN) as D. inversion D; subst.
    - rewrite <- H0 in U. now apply nodupb_sound.
    - apply prog_nodup. assumption. }
  assert (DEF : exists pl', Forall2 (scden fwd) (sc ++ [(to_slice ls, to_slice lt, match fwd, to_slice ls with false, IArr l => nodupb l | _, _ => true end)]) pl'
                 /\ entries pl' = entries pl ++ combine ls lt).
  { exists (pl ++ [(ls, lt)]). split; [apply Forall2_app; auto|]. rewrite entries_app. simpl. now rewrite app_nil_r. }
  unfold add_scatter. cbv zeta.
  destruct (rev sc) as [|[[olds oldt] ou] older] eqn:R.
  - assert (sc = []) by (rewrite <- (rev_involutive sc), R; reflexivity). subst sc. inversion F; subst.
    exists [(ls, lt)]. split; [constructor; auto|]. simpl. now rewrite app_nil_r.
  - destruct olds as [os oe ost|]; [|exact DEF]. destruct oldt as [ots ote otst|]; [|exact DEF].
    destruct (to_slice ls) as [s e st|] eqn:TS; [|exact DEF]. destruct (to_slice lt) as [ts te tst|] eqn:TT; [|exact DEF].
    destruct ((oe =? s) && (ote =? ts) && optZ_eqb ost st && optZ_eqb otst tst) eqn:M; [|exact DEF].
    apply andb_true_iff in M. destruct M as [M M4]. apply andb_true_iff in M. destruct M as [M M3].
    apply andb_true_iff in M. destruct M as [M1 M2]. apply Z.eqb_eq in M1, M2. apply optZ_eqb_eq in M3, M4. subst.
    assert (SC : sc = rev older ++ [(ISlice os s st, ISlice ots ts tst, ou)]) by (rewrite <- (rev_involutive sc), R; reflexivity).
    subst sc. apply Forall2_app_inv_l in F. destruct F as (p1 & p2 & F1 & F2 & ->).
    inversion F2 as [|x [ps pt] y l Hx Hl]; subst. inversion Hl; subst. clear F2 Hl.
    destruct Hx as (D1 & D2 & L & _). simpl in D1, D2, L.
    destruct NEW as (D3 & D4 & _ & _). simpl in D3, D4.
    inversion D1; subst. inversion D2; subst. inversion D3; subst. inversion D4; subst.
    rewrite !prog_length in *.
    exists (p1 ++ [(prog os (step_of st) (k + k1), prog ots (step_of tst) (k0 + k2))]). split.
    + apply Forall2_app; auto. constructor; [|constructor]. simpl. split; [|split; [|split]].
      * replace (os + Z.of_nat k * step_of st + Z.of_nat k1 * step_of st) with (os + Z.of_nat (k + k1) * step_of st) by lia.
        apply den_slice; auto; lia.
      * replace (ots + Z.of_nat k0 * step_of tst + Z.of_nat k2 * step_of tst) with (ots + Z.of_nat (k0 + k2) * step_of tst) by lia.
        apply den_slice; auto; lia.
      * rewrite !prog_length. lia.
      * intros _ _. apply prog_nodup. assumption.
    + rewrite !entries_app, <- app_assoc. f_equal. unfold entries. simpl. rewrite !app_nil_r, !prog_app.
      apply combine_app. now rewrite !prog_length.
Qed.

Lemma make_scatters_den : forall fwd conns, Forall (fun c => length (fst c) = length (snd c) /\ fst c <> []) conns ->
    exists sc pl, make_scatters fwd (map fst conns) (map snd conns) = Ok sc /\
      Forall2 (scden fwd) sc pl /\ Permutation (entries pl) (entries conns).
Proof.
  intros fwd conns F. unfold make_scatters.
  assert (C : combine (map fst conns) (map snd conns) = conns).
  { clear F. induction conns as [|[a b] l IH]; simpl; auto. now rewrite IH. }
  rewrite C. destruct (with_keys_ok fwd conns F) as (k & -> & M). simpl.
  assert (P : Permutation (map snd (sort_pairs k)) conns).
  { rewrite <- M. apply Permutation_map, sort_pairs_perm. }
  assert (F' : Forall (fun c => length (fst c) = length (snd c) /\ fst c <> []) (map snd (sort_pairs k))).
  { eapply Permutation_Forall; [apply Permutation_sym, P|exact F]. }
  assert (G : forall l sc pl, Forall (fun c : list Z * list Z => length (fst c) = length (snd c) /\ fst c <> []) (map snd l) ->
      Forall2 (scden fwd) sc pl ->
      exists pl', Forall2 (scden fwd) (fold_left (fun sc (x : Z * (list Z * list Z)) => add_scatter fwd sc (fst (snd x)) (snd (snd x))) l sc) pl' /\
                  entries pl' = entries pl ++ entries (map snd l)).
  { induction l as [|[z [a b]] l IH]; intros sc pl H D; simpl in *.
    - exists pl. split; auto. now rewrite app_nil_r.
    - inversion H as [|x y [H1 H2] H3]; subst. simpl in H1, H2.
      destruct (add_scatter_den fwd sc pl a b D H1 H2) as (pl1 & D1 & E1).
      destruct (IH _ _ H3 D1) as (pl2 & D2 & E2). exists pl2. split; auto.
      rewrite E2, E1, <- app_assoc. reflexivity. }
  destruct (G _ [] [] F' ltac:(constructor)) as (pl & D & E).
  eexists; exists pl. split; [reflexivity|]. split; auto. rewrite E. simpl. unfold entries.
  clear - P. induction P; simpl; auto.
  - now apply Permutation_app_head.
  - rewrite !app_assoc. apply Permutation_app_tail, Permutation_app_comm.
  - now rewrite IHP1.
Qed.

(** ** effect on vectors *)
Section Vec.
  Context {A : Type}.

  Lemma set_nth_length : forall (v : list A) i x, length (set_nth v i x) = length v.
  Proof. induction v; intros [|i] x; simpl; auto. Qed.

  Lemma nth_error_set_nth : forall (v : list A) i x j, (i < length v)%nat ->
      nth_error (set_nth v i x) j = if Nat.eqb j i then Some x else nth_error v j.
  Proof.
    induction v as [|y v IH]; intros i x j H; simpl in H; [lia|].
    destruct i, j; simpl; auto. apply IH. lia.
  Qed.

  Lemma take_ok : forall (v : list A) l, Forall (fun i => (i < length v)%nat) l ->
      exists xs, take v l = Ok xs /\ length xs = length l /\
        forall k i, nth_error l k = Some i -> nth_error xs k = nth_error v i.
  Proof.
    induction 1 as [|i l Hi F (xs & E & L & N)].
    - exists []. repeat split; auto. intros [|k] i H; discriminate.
    - simpl. destruct (nth_error v i) as [x|] eqn:X; [|apply nth_error_None in X; lia].
      rewrite E. simpl. exists (x :: xs). repeat split; simpl; auto.
      intros [|k] j H; simpl in *; [congruence|auto].
  Qed.

  (** sequential assignment of pairs *)
  Fixpoint apply_pairs (src tgt : list A) (ps : list (Z * Z)) : list A :=
    match ps with
    | [] => tgt
    | (s, t) :: ps' => match nth_error src (Z.to_nat s) with
                       | Some x => apply_pairs src (set_nth tgt (Z.to_nat t) x) ps'
                       | None => apply_pairs src tgt ps'
                       end
    end.

  Lemma apply_pairs_app : forall src ps ps' tgt,
      apply_pairs src tgt (ps ++ ps') = apply_pairs src (apply_pairs src tgt ps) ps'.
  Proof.
    induction ps as [|[s t] ps IH]; intros; simpl; auto. destruct (nth_error src (Z.to_nat s)); auto.
  Qed.

  Lemma apply_pairs_length : forall src ps tgt, length (apply_pairs src tgt ps) = length tgt.
  Proof.
    induction ps as [|[s t] ps IH]; intros; simpl; auto. destruct (nth_error src (Z.to_nat s)); auto.
    rewrite IH. apply set_nth_length.
  Qed.

  Lemma put_apply : forall src ls lt tgt xs, length ls = length lt ->
      take src (map Z.to_nat ls) = Ok xs ->
      put_all tgt (map Z.to_nat lt) xs = apply_pairs src tgt (combine ls lt).
  Proof.
    induction ls as [|s ls IH]; intros lt tgt xs HL H; simpl in H.
    - injection H as <-. destruct (map Z.to_nat lt); reflexivity.
    - destruct lt as [|t lt]; [discriminate|]. simpl. destruct (nth_error src (Z.to_nat s)) as [x|]; [|discriminate].
      destruct (take src (map Z.to_nat ls)) as [ys|] eqn:T; [|discriminate]. simpl in H. injection H as <-.
      apply IH; auto.
  Qed.

  Lemma in_range_nat : forall n l, Forall (in_range n) l -> Forall (fun i => (i < n)%nat) (map Z.to_nat l).
  Proof. intros n l F. rewrite Forall_forall in *. intros i I. apply in_map_iff in I. destruct I as (z & <- & I). apply F in I. unfold in_range in I. lia. Qed.

  Definition legal_one (nsrc ntgt : nat) (c : list Z * list Z) : Prop :=
    Forall (in_range nsrc) (fst c) /\ Forall (in_range ntgt) (snd c).

  Lemma fwd_one_ok : forall fwd s c src tgt, scden fwd s c -> legal_one (length src) (length tgt) c ->
      fwd_one src tgt s = Ok (apply_pairs src tgt (combine (fst c) (snd c))).
  Proof.
    intros fwd [[ss ts] u] [ls lt] src tgt (D1 & D2 & L & _) [F1 F2]. simpl in *. unfold len.
    rewrite (den_resolve _ _ _ D1 F1). simpl.
    destruct (take_ok src (map Z.to_nat ls) (in_range_nat _ _ F1)) as (xs & E & LX & _). rewrite E. simpl.
    rewrite (den_resolve _ _ _ D2 F2). simpl. unfold put, broadcast.
    rewrite LX, !map_length, L, Nat.eqb_refl. simpl. f_equal. apply put_apply; auto.
  Qed.

  Lemma transfer_fwd_pairs : forall fwd sc pl src tgt, Forall2 (scden fwd) sc pl ->
      Forall (legal_one (length src) (length tgt)) pl ->
      transfer_fwd sc src tgt = Ok (apply_pairs src tgt (entries pl)).
  Proof.
    intros fwd sc pl src tgt F. revert tgt. induction F as [|s c sc pl D F IH]; intros tgt H; [reflexivity|].
    inversion H; subst. unfold transfer_fwd. simpl. rewrite (fwd_one_ok fwd s c src tgt D H2). simpl.
    fold (transfer_fwd sc src (apply_pairs src tgt (combine (fst c) (snd c)))).
    rewrite IH by (now rewrite apply_pairs_length). rewrite apply_pairs_app. reflexivity.
  Qed.

  Lemma apply_pairs_other : forall src ps tgt j, ~ In j (map (fun p => Z.to_nat (snd p)) ps) ->
      Forall (fun p => in_range (length tgt) (snd p)) ps ->
      nth_error (apply_pairs src tgt ps) j = nth_error tgt j.
  Proof.
    induction ps as [|[s t] ps IH]; intros tgt j H F; simpl; auto. inversion F; subst. simpl in *.
    destruct (nth_error src (Z.to_nat s)).
    - rewrite IH by (try tauto; now rewrite set_nth_length). rewrite nth_error_set_nth by (unfold in_range in *; lia).
      destruct (Nat.eqb j (Z.to_nat t)) eqn:E; auto. apply Nat.eqb_eq in E. exfalso; auto.
    - apply IH; tauto.
  Qed.

  Lemma nodup_map_nat : forall n (l : list Z), Forall (in_range n) l -> NoDup l -> NoDup (map Z.to_nat l).
  Proof.
    induction l as [|z l IH]; intros F N; [constructor|]. inversion F; inversion N; subst. simpl. constructor; auto.
    intro I. apply in_map_iff in I. destruct I as (y & E & I). rewrite Forall_forall in H2. apply H2 in I as R.
    unfold in_range in *. assert (y = z) by lia. subst. contradiction.
  Qed.

  Lemma apply_pairs_spec : forall src ps tgt,
      Forall (fun p => in_range (length src) (fst p) /\ in_range (length tgt) (snd p)) ps ->
      NoDup (map snd ps) ->
      forall s t, In (s, t) ps -> nth_error (apply_pairs src tgt ps) (Z.to_nat t) = nth_error src (Z.to_nat s).
  Proof.
    induction ps as [|[s0 t0] ps IH]; intros tgt F N s t I; [destruct I|]. inversion F; inversion N; subst.
    simpl in *. destruct H1 as [H1 H1'].
    destruct (nth_error src (Z.to_nat s0)) as [x|] eqn:X.
    2: { apply nth_error_None in X. unfold in_range in *. lia. }
    destruct I as [I|I].
    - injection I as -> ->. rewrite apply_pairs_other.
      + rewrite nth_error_set_nth, Nat.eqb_refl by (unfold in_range in *; lia). auto.
      + intro J. rewrite <- map_map in J. apply in_map_iff in J. destruct J as (y & E & J).
        assert (in_range (length tgt) y).
        { apply in_map_iff in J. destruct J as (p & <- & J). rewrite Forall_forall in H2. apply H2 in J. tauto. }
        unfold in_range in *. assert (y = t) by lia. subst. contradiction.
      + rewrite set_nth_length. eapply Forall_impl; [|exact H2]. simpl; tauto.
    - apply IH; auto. now rewrite set_nth_length.
  Qed.
End Vec.

Lemma legal_split : forall ns nt conns, legal_conns ns nt conns ->
    Forall (fun c => length (fst c) = length (snd c) /\ fst c <> []) conns /\
    Forall (fun p => in_range ns (fst p) /\ in_range nt (snd p)) (entries conns).
Proof.
  intros ns nt conns H. split.
  - eapply Forall_impl; [|exact H]. simpl; tauto.
  - unfold legal_conns in H. rewrite Forall_forall in *. intros [s t] I. unfold entries in I. apply in_flat_map in I.
    destruct I as (c & C & I). apply H in C. destruct C as (_ & _ & F1 & F2).
    rewrite Forall_forall in F1, F2. simpl. split; [apply F1; eapply in_combine_l; eauto|apply F2; eapply in_combine_r; eauto].
Qed.

Lemma den_pl_legal : forall fwd sc pl ns nt, Forall2 (scden fwd) sc pl ->
    Forall (fun p => in_range ns (fst p) /\ in_range nt (snd p)) (entries pl) ->
    Forall (legal_one ns nt) pl.
Proof.
  intros fwd sc pl ns nt F H. induction F as [|s c sc pl D F IH]; constructor.
  - destruct s as [[ss ts] u]. destruct D as (_ & _ & L & _). destruct c as [a b]. simpl in *.
    unfold entries in H. simpl in H. apply Forall_app in H. destruct H as [H _].
    clear - L H. revert b L H. induction a as [|x a IH]; intros [|y b] L H; simpl in *; try discriminate; [repeat constructor|].
    inversion H; subst. destruct (IH b ltac:(lia) H3) as [I1 I2]. simpl in *.
    split; constructor; tauto.
  - apply IH. unfold entries in H. simpl in H. apply Forall_app in H. tauto.
Qed.

Lemma forward_correct : forall A fwd conns (src tgt : list A),
    legal_conns (length src) (length tgt) conns -> targets_distinct conns ->
    exists sc tgt', make_scatters fwd (map fst conns) (map snd conns) = Ok sc /\
      transfer_fwd sc src tgt = Ok tgt' /\ length tgt' = length tgt /\
      (forall s t, In (s, t) (entries conns) -> nth_error tgt' (Z.to_nat t) = nth_error src (Z.to_nat s)) /\
      (forall j, ~ In (Z.of_nat j) (map snd (entries conns)) -> nth_error tgt' j = nth_error tgt j).
Proof.
  intros A fwd conns src tgt L N. destruct (legal_split _ _ _ L) as [L1 L2].
  destruct (make_scatters_den fwd conns L1) as (sc & pl & M & D & P).
  assert (E : Forall (fun p => in_range (length src) (fst p) /\ in_range (length tgt) (snd p)) (entries pl))
    by (eapply Permutation_Forall; [apply Permutation_sym, P|exact L2]).
  exists sc, (apply_pairs src tgt (entries pl)). split; auto. split; [|split; [|split]].
  - eapply transfer_fwd_pairs; eauto. eapply den_pl_legal; eauto.
  - apply apply_pairs_length.
  - intros s t I. apply apply_pairs_spec; auto.
    + eapply Permutation_NoDup; [|exact N]. apply Permutation_map, Permutation_sym, P.
    + eapply Permutation_in; [apply Permutation_sym, P|exact I].
  - intros j J. apply apply_pairs_other.
    + intro I. apply J. apply in_map_iff in I. destruct I as ([s t] & <- & I). simpl.
      rewrite Forall_forall in E. apply E in I as R. simpl in R. unfold in_range in R. rewrite Z2Nat.id by lia.
      apply in_map_iff. exists (s, t). split; auto. eapply Permutation_in; eauto.
    + eapply Forall_impl; [|exact E]. simpl; tauto.
Qed.

(** ** reverse *)
Section Rev.
  Context {A : Type} (add : A -> A -> A).

  Fixpoint accum (tgt src : list A) (ps : list (Z * Z)) : list A :=
    match ps with
    | [] => src
    | (s, t) :: ps' =>
        match nth_error src (Z.to_nat s), nth_error tgt (Z.to_nat t) with
        | Some y, Some x => accum tgt (set_nth src (Z.to_nat s) (add y x)) ps'
        | _, _ => accum tgt src ps'
        end
    end.

  Lemma accum_app : forall tgt ps ps' src, accum tgt src (ps ++ ps') = accum tgt (accum tgt src ps) ps'.
  Proof.
    induction ps as [|[s t] ps IH]; intros; simpl; auto.
    destruct (nth_error src (Z.to_nat s)), (nth_error tgt (Z.to_nat t)); auto.
  Qed.

  Lemma accum_length : forall tgt ps src, length (accum tgt src ps) = length src.
  Proof.
    induction ps as [|[s t] ps IH]; intros; simpl; auto.
    destruct (nth_error src (Z.to_nat s)), (nth_error tgt (Z.to_nat t)); auto. rewrite IH. apply set_nth_length.
  Qed.

  Lemma add_at_accum : forall tgt ls lt src xs, length ls = length lt ->
      take tgt (map Z.to_nat lt) = Ok xs ->
      add_at_all add src (map Z.to_nat ls) xs = accum tgt src (combine ls lt).
  Proof.
    induction ls as [|s ls IH]; intros lt src xs HL H; [reflexivity|].
    destruct lt as [|t lt]; [discriminate|]. simpl in H.
    destruct (nth_error tgt (Z.to_nat t)) as [x|] eqn:X; [|discriminate].
    destruct (take tgt (map Z.to_nat lt)) as [ys|] eqn:T; [|discriminate]. simpl in H. injection H as <-.
    simpl. rewrite X. destruct (nth_error src (Z.to_nat s)); apply IH; auto.
  Qed.

  Lemma take_set_other : forall (v : list A) l i x, ~ In i l -> (i < length v)%nat -> take (set_nth v i x) l = take v l.
  Proof.
    induction l as [|j l IH]; intros i x H Hi; simpl; auto.
    rewrite nth_error_set_nth by assumption. destruct (Nat.eqb j i) eqn:E.
    - apply Nat.eqb_eq in E; subst. exfalso; apply H; simpl; auto.
    - rewrite IH; auto. intro; apply H; simpl; auto.
  Qed.

  Lemma put_accum : forall tgt ls lt src xs old, length ls = length lt -> NoDup (map Z.to_nat ls) ->
      Forall (fun i => (i < length src)%nat) (map Z.to_nat ls) ->
      take tgt (map Z.to_nat lt) = Ok xs -> take src (map Z.to_nat ls) = Ok old ->
      put_all src (map Z.to_nat ls) (zip_add add old xs) = accum tgt src (combine ls lt).
  Proof.
    induction ls as [|s ls IH]; intros lt src xs old HL N F H H'; [reflexivity|].
    destruct lt as [|t lt]; [discriminate|]. simpl in H, H'.
    destruct (nth_error tgt (Z.to_nat t)) as [x|] eqn:X; [|discriminate].
    destruct (take tgt (map Z.to_nat lt)) as [ys|] eqn:T; [|discriminate]. simpl in H. injection H as <-.
    destruct (nth_error src (Z.to_nat s)) as [y|] eqn:Y; [|discriminate].
    destruct (take src (map Z.to_nat ls)) as [os|] eqn:O; [|discriminate]. simpl in H'. injection H' as <-.
    simpl in N, F. inversion N; inversion F; subst. simpl. rewrite X, Y. apply IH; auto.
    - rewrite set_nth_length. assumption.
    - rewrite take_set_other; auto.
  Qed.

  Lemma rev_one_ok : forall s c src tgt, scden false s c -> legal_one (length src) (length tgt) c ->
      rev_one add tgt src s = Ok (accum tgt src (combine (fst c) (snd c))).
  Proof.
    intros [[ss ts] u] [ls lt] src tgt (D1 & D2 & L & U) [F1 F2]. simpl in *. unfold len.
    rewrite (den_resolve _ _ _ D2 F2). simpl.
    destruct (take_ok tgt (map Z.to_nat lt) (in_range_nat _ _ F2)) as (xs & E & LX & _). rewrite E. simpl.
    rewrite (den_resolve _ _ _ D1 F1). simpl. unfold broadcast.
    rewrite LX, !map_length, L, Nat.eqb_refl. simpl.
    destruct u.
    - destruct (take_ok src (map Z.to_nat ls) (in_range_nat _ _ F1)) as (old & O & _ & _). rewrite O. simpl. f_equal.
      apply put_accum; auto.
      + eapply nodup_map_nat; eauto.
      + now apply in_range_nat.
    - f_equal. apply add_at_accum; auto.
  Qed.

  Lemma transfer_rev_pairs : forall sc pl src tgt, Forall2 (scden false) sc pl ->
      Forall (legal_one (length src) (length tgt)) pl ->
      transfer_rev add sc src tgt = Ok (accum tgt src (entries pl)).
  Proof.
    intros sc pl src tgt F. revert src. induction F as [|s c sc pl D F IH]; intros src H; [reflexivity|].
    inversion H; subst. unfold transfer_rev. simpl. rewrite (rev_one_ok s c src tgt D H2). simpl.
    fold (transfer_rev add sc (accum tgt src (combine (fst c) (snd c))) tgt).
    rewrite IH by (now rewrite accum_length). rewrite accum_app. reflexivity.
  Qed.
End Rev.

Section RingProofs.
  Context {R : Type} (r0 r1 : R) (radd rmul rsub : R -> R -> R) (ropp : R -> R).
  Hypothesis RT : ring_theory r0 r1 radd rmul rsub ropp (@eq R).
  Add Ring Rring : RT.
  Notation "a + b" := (radd a b).
  Notation "a * b" := (rmul a b).
  Notation dot := (dot r0 radd rmul).
  Notation entry := (entry r0).

  Lemma dot_set_left : forall v p i x, length v = length p -> (i < length v)%nat ->
      dot (set_nth v i x) p = dot v p + rsub x (nth i v r0) * nth i p r0.
  Proof.
    induction v as [|y v IH]; intros [|q p] i x HL Hi; simpl in *; try discriminate; [lia|].
    destruct i as [|i]; simpl; [ring|]. rewrite IH by lia. ring.
  Qed.

  Lemma dot_set_right : forall v p i x, length v = length p -> (i < length v)%nat ->
      dot v (set_nth p i x) = dot v p + nth i v r0 * rsub x (nth i p r0).
  Proof.
    induction v as [|y v IH]; intros [|q p] i x HL Hi; simpl in *; try discriminate; [lia|].
    destruct i as [|i]; simpl; [ring|]. rewrite IH by lia. ring.
  Qed.

  Definition bilin (u p : list R) (ps : list (Z * Z)) : R :=
    sum r0 radd (map (fun st => entry u (fst st) * entry p (snd st)) ps).

  Lemma dot_apply : forall u p ps v, length v = length p ->
      Forall (fun q => in_range (length u) (fst q) /\ in_range (length v) (snd q)) ps ->
      NoDup (map snd ps) -> (forall q, In q ps -> entry v (snd q) = r0) ->
      dot (apply_pairs u v ps) p = dot v p + bilin u p ps.
  Proof.
    unfold bilin. induction ps as [|[s t] ps IH]; intros v HL F N Z0; [simpl; ring|].
    inversion F; inversion N; subst. simpl in *. destruct H1 as [H1 H1'].
    destruct (nth_error u (Z.to_nat s)) as [x|] eqn:X.
    2: { apply nth_error_None in X. unfold in_range in *. lia. }
    rewrite IH.
    - rewrite dot_set_left by (unfold in_range in *; lia).
      rewrite (Z0 (s, t) (or_introl eq_refl) : nth (Z.to_nat t) v r0 = r0).
      replace (entry u s) with x by (symmetry; apply nth_error_nth; exact X).
      change (nth (Z.to_nat t) p r0) with (entry p t). ring.
    - now rewrite set_nth_length.
    - now rewrite set_nth_length.
    - assumption.
    - intros q Q. unfold TransferSpec.entry. apply nth_error_nth.
      rewrite nth_error_set_nth by (unfold in_range in *; lia).
      rewrite Forall_forall in H2. destruct (H2 q Q) as [_ H7].
      destruct (Nat.eqb (Z.to_nat (snd q)) (Z.to_nat t)) eqn:E.
      + exfalso. apply Nat.eqb_eq in E. unfold in_range in *. assert (snd q = t) by lia. subst. apply H5. now apply in_map.
      + pose proof (Z0 q (or_intror Q)) as E0. unfold TransferSpec.entry in E0.
        rewrite <- E0. apply nth_error_nth'. unfold in_range in *. lia.
  Qed.

  Lemma dot_accum : forall u p ps x, length x = length u ->
      Forall (fun q => in_range (length x) (fst q) /\ in_range (length p) (snd q)) ps ->
      dot u (accum radd p x ps) = dot u x + bilin u p ps.
  Proof.
    unfold bilin. induction ps as [|[s t] ps IH]; intros x HL F; [simpl; ring|].
    inversion F; subst. simpl in *. destruct H1 as [H1 H1'].
    destruct (nth_error x (Z.to_nat s)) as [y|] eqn:Y.
    2: { apply nth_error_None in Y. unfold in_range in *. lia. }
    destruct (nth_error p (Z.to_nat t)) as [q|] eqn:Q.
    2: { apply nth_error_None in Q. unfold in_range in *. lia. }
    rewrite IH by (now rewrite set_nth_length).
    rewrite dot_set_right by (unfold in_range in *; lia).
    rewrite (nth_error_nth _ _ r0 Y). unfold TransferSpec.entry. rewrite (nth_error_nth _ _ r0 Q). ring.
  Qed.

  Lemma dot_zeros_l : forall n p, dot (zeros r0 n) p = r0.
  Proof. induction n; intros [|q p]; simpl; auto. rewrite IHn. ring. Qed.
  Lemma dot_zeros_r : forall n u, dot u (zeros r0 n) = r0.
  Proof. induction n; intros [|q u]; simpl; auto. rewrite IHn. ring. Qed.

  Lemma bilin_perm : forall u p ps ps', Permutation ps ps' -> bilin u p ps = bilin u p ps'.
  Proof. unfold bilin. induction 1; simpl; try congruence. ring. Qed.

  Lemma adjoint : forall conns u p, legal_conns (length u) (length p) conns -> targets_distinct conns ->
      exists scf scr fu rp,
        make_scatters true (map fst conns) (map snd conns) = Ok scf /\
        make_scatters false (map fst conns) (map snd conns) = Ok scr /\
        transfer_fwd scf u (zeros r0 (length p)) = Ok fu /\
        transfer_rev radd scr (zeros r0 (length u)) p = Ok rp /\
        dot fu p = dot u rp.
  Proof.
    intros conns u p L N. destruct (legal_split _ _ _ L) as [L1 L2].
    destruct (make_scatters_den true conns L1) as (scf & plf & MF & DF & PF).
    destruct (make_scatters_den false conns L1) as (scr & plr & MR & DR & PR).
    assert (ZP : length (zeros r0 (length p)) = length p) by apply repeat_length.
    assert (ZU : length (zeros r0 (length u)) = length u) by apply repeat_length.
    assert (EF : Forall (fun q => in_range (length u) (fst q) /\ in_range (length p) (snd q)) (entries plf))
      by (eapply Permutation_Forall; [apply Permutation_sym, PF|exact L2]).
    assert (ER : Forall (fun q => in_range (length u) (fst q) /\ in_range (length p) (snd q)) (entries plr))
      by (eapply Permutation_Forall; [apply Permutation_sym, PR|exact L2]).
    exists scf, scr, (apply_pairs u (zeros r0 (length p)) (entries plf)), (accum radd p (zeros r0 (length u)) (entries plr)).
    split; auto. split; auto. split; [|split].
    - eapply transfer_fwd_pairs; [exact DF|]. rewrite ZP. eapply den_pl_legal; eauto.
    - apply transfer_rev_pairs with (pl := plr); [exact DR|]. rewrite ZU. eapply den_pl_legal; eauto.
    - rewrite dot_apply.
      + rewrite dot_accum.
        * rewrite dot_zeros_l, dot_zeros_r. f_equal. apply bilin_perm. now rewrite PF, PR.
        * assumption.
        * now rewrite ZU.
      + assumption.
      + now rewrite ZP.
      + eapply Permutation_NoDup; [|exact N]. apply Permutation_map, Permutation_sym, PF.
      + intros q _. unfold TransferSpec.entry, zeros. destruct (nth_in_or_default (Z.to_nat (snd q)) (repeat r0 (length p)) r0) as [I| ->]; auto.
        now apply repeat_spec in I.
  Qed.

  (** what the reverse transfer adds to a source entry *)
  Lemma accum_nth : forall p ps x j, (j < length x)%nat ->
      Forall (fun q => in_range (length x) (fst q) /\ in_range (length p) (snd q)) ps ->
      nth j (accum radd p x ps) r0
      = nth j x r0 + sum r0 radd (map (fun q => entry p (snd q)) (filter (fun q => Z.eqb (fst q) (Z.of_nat j)) ps)).
  Proof.
    induction ps as [|[s t] ps IH]; intros x j Hj F; [simpl; ring|]. inversion F; subst. simpl in *.
    destruct H1 as [H1 H1'].
    destruct (nth_error x (Z.to_nat s)) as [y|] eqn:Y.
    2: { apply nth_error_None in Y. unfold in_range in *. lia. }
    destruct (nth_error p (Z.to_nat t)) as [q|] eqn:Q.
    2: { apply nth_error_None in Q. unfold in_range in *. lia. }
    rewrite IH by (rewrite set_nth_length; auto).
    assert (S : nth j (set_nth x (Z.to_nat s) (y + q)) r0 = if Nat.eqb j (Z.to_nat s) then y + q else nth j x r0).
    { destruct (nth_error (set_nth x (Z.to_nat s) (y + q)) j) as [w|] eqn:W.
      - rewrite (nth_error_nth _ _ r0 W). rewrite nth_error_set_nth in W by (unfold in_range in *; lia).
        destruct (Nat.eqb j (Z.to_nat s)); [congruence|]. symmetry. now apply nth_error_nth.
      - apply nth_error_None in W. rewrite set_nth_length in W. lia. }
    rewrite S. destruct (Z.eqb s (Z.of_nat j)) eqn:E.
    - apply Z.eqb_eq in E. subst s. rewrite Nat2Z.id in *. rewrite Nat.eqb_refl. simpl.
      rewrite (nth_error_nth _ _ r0 Y). unfold TransferSpec.entry. rewrite (nth_error_nth _ _ r0 Q). ring.
    - apply Z.eqb_neq in E. destruct (Nat.eqb j (Z.to_nat s)) eqn:E2; auto.
      apply Nat.eqb_eq in E2. unfold in_range in *. lia.
  Qed.

  Lemma reverse_correct : forall conns x p, legal_conns (length x) (length p) conns ->
      exists sc x', make_scatters false (map fst conns) (map snd conns) = Ok sc /\
        transfer_rev radd sc x p = Ok x' /\ length x' = length x /\
        forall j, (j < length x)%nat ->
          nth j x' r0 = nth j x r0 + sum r0 radd (map (fun q => entry p (snd q))
                                                   (filter (fun q => Z.eqb (fst q) (Z.of_nat j)) (entries conns))).
  Proof.
    intros conns x p L. destruct (legal_split _ _ _ L) as [L1 L2].
    destruct (make_scatters_den false conns L1) as (sc & pl & M & D & P).
    assert (E : Forall (fun q => in_range (length x) (fst q) /\ in_range (length p) (snd q)) (entries pl))
      by (eapply Permutation_Forall; [apply Permutation_sym, P|exact L2]).
    exists sc, (accum radd p x (entries pl)). split; auto. split; [|split].
    - apply transfer_rev_pairs with (pl := pl); auto. eapply den_pl_legal; eauto.
    - apply accum_length.
    - intros j Hj. rewrite accum_nth by assumption. f_equal.
      assert (PP : Permutation (filter (fun q => Z.eqb (fst q) (Z.of_nat j)) (entries pl))
                     (filter (fun q => Z.eqb (fst q) (Z.of_nat j)) (entries conns))).
      { clear - P. induction P; simpl; auto.
        - destruct (Z.eqb (fst x) (Z.of_nat j)); auto.
        - destruct (Z.eqb (fst x) (Z.of_nat j)), (Z.eqb (fst y) (Z.of_nat j)); auto. apply perm_swap.
        - now rewrite IHP1. }
      clear - PP RT. induction PP; simpl; try congruence. ring.
  Qed.
End RingProofs.

Lemma empty_fails : forall fwd conns, (exists c, In c conns /\ fst c = [] /\ snd c = []) ->
    make_scatters fwd (map fst conns) (map snd conns) = Err IndexError.
Proof.
  intros fwd conns (c & I & E1 & E2). unfold make_scatters.
  assert (C : combine (map fst conns) (map snd conns) = conns).
  { clear. induction conns as [|[a b] l IH]; simpl; auto. now rewrite IH. }
  rewrite C. assert (W : with_keys fwd conns = Err IndexError).
  { clear C. induction conns as [|d l IH]; [destruct I|]. simpl. destruct I as [->|I].
    - unfold keyfunc. rewrite E1, E2. destruct fwd; reflexivity.
    - rewrite (IH I). unfold keyfunc. destruct (if fwd then fst d else snd d); reflexivity. }
  now rewrite W.
Qed.

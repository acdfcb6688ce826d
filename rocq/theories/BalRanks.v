(** The ranks of the processes of the groups. *)
From Verif Require Import Base TransferModel TransferSpec TransferProofs BalModel.
Local Open Scope nat_scope.

Fixpoint offs (start : nat) (sizes : list nat) : list nat := match sizes with [] => [] | s :: r => start :: offs (start + s) r end.
Lemma offs_len : forall l s, length (offs s l) = length l.
Proof. induction l as [|x l IH]; intros s; [reflexivity|]. cbn. rewrite IH. reflexivity. Qed.
Lemma offs_of_Z : forall l s, (0 <= s)%Z -> Forall (fun x => 0 <= x)%Z l -> map Z.to_nat (offsets_from s l) = offs (Z.to_nat s) (map Z.to_nat l).
Proof. intros l s Hs H. revert s Hs. induction H as [|x l Hx H IH]; intros s Hs; [reflexivity|]. cbn. rewrite IH by lia. f_equal. f_equal. lia. Qed.
Lemma offs_of_Z1 : forall l s, (0 <= s)%Z -> Forall (fun x => 0 <= x)%Z l -> map (fun o => Z.to_nat (o + 1)) (offsets_from s l) = offs (S (Z.to_nat s)) (map Z.to_nat l).
Proof. intros l s Hs H. revert s Hs. induction H as [|x l Hx H IH]; intros s Hs; [reflexivity|]. cbn. rewrite IH by lia. f_equal; [lia|]. f_equal. lia. Qed.
Lemma distrib_nat : forall n size s o, 1 <= n -> evenly_distrib_idxs (Z.of_nat n) (Z.of_nat size) = Ok (s, o) ->
    length s = n /\ Forall (fun x => 0 <= x)%Z s /\ o = offsets_from 0 s /\ list_sum (map Z.to_nat s) = size /\ (n <= size -> Forall (fun x => 1 <= x)%Z s).
Proof.
  intros n size s o Hn H. destruct (distrib_total (Z.of_nat n) (Z.of_nat size)) as (s' & o' & E & L & _); [lia|]. rewrite H in E. injection E as <- <-. rewrite Nat2Z.id in L. split; [exact L|].
  unfold evenly_distrib_idxs in H. destruct (Z.of_nat n =? 0)%Z eqn:Z0; [apply Z.eqb_eq in Z0; lia|]. injection H as Hs Ho. rewrite Nat2Z.id in Hs, Ho.
  set (b := (Z.of_nat size / Z.of_nat n)%Z) in *. set (m := (Z.of_nat size mod Z.of_nat n)%Z) in *. assert (B : (0 <= b)%Z) by (apply Z.div_pos; lia). assert (M : (0 <= m < Z.of_nat n)%Z) by (apply Z.mod_pos_bound; lia). assert (E : Z.of_nat size = (Z.of_nat n * b + m)%Z) by (apply Z.div_mod; lia).
  split; [rewrite <- Hs; apply Forall_map; apply Forall_forall; intros k _; destruct (Z.of_nat k <? m)%Z; lia|]. split; [rewrite <- Ho, <- Hs; reflexivity|]. split.
  - assert (K : forall i c, list_sum (map Z.to_nat (map (fun k => if (Z.of_nat k <? m)%Z then (b + 1)%Z else b) (seq i c))) = c * Z.to_nat b + (Nat.min (i + c) (Z.to_nat m) - Nat.min i (Z.to_nat m))).
    { intros i c. revert i. induction c as [|c IH]; intros i; [cbn; lia|]. cbn [seq map]. change (Z.to_nat (if (Z.of_nat i <? m)%Z then (b + 1)%Z else b) + list_sum (map Z.to_nat (map (fun k => if (Z.of_nat k <? m)%Z then (b + 1)%Z else b) (seq (S i) c))) = S c * Z.to_nat b + (Nat.min (i + S c) (Z.to_nat m) - Nat.min i (Z.to_nat m))). rewrite IH. destruct (Z.ltb_spec (Z.of_nat i) m); lia. }
    rewrite <- Hs, K. apply Nat2Z.inj. rewrite E. cbn [Nat.add]. rewrite Nat.min_0_l, Nat.sub_0_r, Nat.min_r by lia. nia.
  - intros HS. assert (1 <= b)%Z by (apply Z.div_le_lower_bound; lia). rewrite <- Hs. apply Forall_map. apply Forall_forall. intros k _. destruct (Z.of_nat k <? m)%Z; lia.
Qed.

Fixpoint colors_from (k : nat) (sizes : list nat) : list nat := match sizes with [] => [] | s :: r => repeat k s ++ colors_from (S k) r end.
Lemma colors_eq : forall sizes, colors sizes = colors_from 0 sizes.
Proof. intros sizes. unfold colors. generalize 0. induction sizes as [|s r IH]; intros k; [reflexivity|]. cbn. rewrite IH. reflexivity. Qed.
Lemma colors_len : forall sizes k, length (colors_from k sizes) = list_sum sizes.
Proof. induction sizes as [|s r IH]; intros k; [reflexivity|]. cbn. rewrite app_length, repeat_length, IH. reflexivity. Qed.
Lemma colors_nth : forall sizes k g s o0 o j, nth_error sizes g = Some s -> nth_error (offs o0 sizes) g = Some o -> j < s -> o0 <= o /\ nth_error (colors_from k sizes) (o - o0 + j) = Some (k + g).
Proof.
  induction sizes as [|x r IH]; intros k g s o0 o j H1 H2 L; [destruct g; discriminate|]. destruct g as [|g]; cbn in H1, H2.
  - injection H1 as ->. injection H2 as ->. split; [lia|]. rewrite Nat.sub_diag. cbn. rewrite nth_error_app1 by (rewrite repeat_length; exact L). rewrite Nat.add_0_r. clear -L. revert j L. induction s as [|s IH]; intros j L; [lia|]. destruct j; [reflexivity|]. cbn. apply IH. lia.
  - destruct (IH (S k) g s (o0 + x) o j H1 H2 L) as (K1 & K2). split; [lia|]. cbn. rewrite nth_error_app2 by (rewrite repeat_length; lia). rewrite repeat_length. replace (o - o0 + j - x) with (o - (o0 + x) + j) by lia. rewrite K2. f_equal. lia.
Qed.

Lemma get_put : forall d k v x, get (put d k v) x = if k =? x then Some v else get d x.
Proof.
  intros d k v x. unfold get, put. cbn. destruct (k =? x) eqn:E; [reflexivity|]. f_equal. induction d as [|[a b] d IH]; [reflexivity|]. cbn. destruct (a =? k) eqn:A; cbn.
  - rewrite IH. apply Nat.eqb_eq in A. subst a. rewrite E. reflexivity.
  - destruct (a =? x); [reflexivity|exact IH].
Qed.
Lemma put_range : forall n o v d x, get (fold_left (fun d i => put d (i + o) v) (seq 0 n) d) x = if (o <=? x) && (x <? o + n) then Some v else get d x.
Proof.
  intros n o v d x. induction n as [|n IH]; [rewrite Nat.add_0_r; cbn [seq fold_left]; destruct (Nat.leb_spec o x), (Nat.ltb_spec x o); cbn; try reflexivity; lia|].
  rewrite seq_S, fold_left_app. cbn [fold_left Nat.add]. rewrite get_put, IH.
  destruct (Nat.eqb_spec (n + o) x), (Nat.leb_spec o x), (Nat.ltb_spec x (o + n)), (Nat.ltb_spec x (o + S n)); cbn; try reflexivity; lia.
Qed.
Definition ids_from (k : nat) (sizes : list nat) (o0 : nat) (d : list (nat * nat)) : list (nat * nat) :=
  fold_left (fun d e => fold_left (fun d i => put d (i + snd (snd e)) (fst e)) (seq 0 (fst (snd e))) d) (combine (seq k (length sizes)) (combine sizes (offs o0 sizes))) d.
Lemma ids_cons : forall s r k o0 d, ids_from k (s :: r) o0 d = ids_from (S k) r (o0 + s) (fold_left (fun d i => put d (i + o0) k) (seq 0 s) d).
Proof. reflexivity. Qed.
Lemma ids_before : forall sizes k o0 d x, x < o0 -> get (ids_from k sizes o0 d) x = get d x.
Proof.
  induction sizes as [|s r IH]; intros k o0 d x L; [reflexivity|]. unfold ids_from in *. cbn. rewrite IH by lia. rewrite put_range. replace (o0 <=? x) with false by (symmetry; apply Nat.leb_gt; lia). reflexivity.
Qed.
Lemma ids_get : forall sizes k o0 d g s o j, nth_error sizes g = Some s -> nth_error (offs o0 sizes) g = Some o -> j < s -> get (ids_from k sizes o0 d) (o + j) = Some (k + g).
Proof.
  induction sizes as [|x r IH]; intros k o0 d g s o j H1 H2 L; [destruct g; discriminate|]. destruct g as [|g]; cbn in H1, H2.
  - injection H1 as ->. injection H2 as ->. rewrite ids_cons. rewrite ids_before by lia. rewrite put_range. replace (o <=? o + j) with true by (symmetry; apply Nat.leb_le; lia). replace (o + j <? o + s) with true by (symmetry; apply Nat.ltb_lt; lia). cbn. f_equal. lia.
  - rewrite ids_cons. rewrite (IH (S k) (o0 + x) _ g s o j H1 H2 L). f_equal. lia.
Qed.

Lemma layout_offs : forall lb ndoe nprocs sizes offsets, 2 <= ndoe -> 1 <= nprocs -> layout lb ndoe nprocs = Ok (sizes, offsets) ->
    length sizes = ndoe /\ offsets = offs 0 sizes /\ list_sum sizes = nprocs /\ (ndoe <= nprocs -> Forall (fun s => 1 <= s) sizes) /\ (lb = true -> exists r, sizes = 1 :: r).
Proof.
  intros lb ndoe nprocs sizes offsets Hn Hp H. unfold layout in H. destruct lb.
  - replace (Z.of_nat ndoe - 1)%Z with (Z.of_nat (ndoe - 1)) in H by lia. replace (Z.of_nat nprocs - 1)%Z with (Z.of_nat (nprocs - 1)) in H by lia. destruct (evenly_distrib_idxs (Z.of_nat (ndoe - 1)) (Z.of_nat (nprocs - 1))) as [[s o]|] eqn:E; [|discriminate]. cbn in H. injection H as <- <-.
    destruct (distrib_nat (ndoe - 1) (nprocs - 1) s o ltac:(lia) E) as (L & P & -> & T & M). split; [cbn; rewrite map_length; lia|]. split; [cbn; f_equal; apply (offs_of_Z1 s 0); [lia|exact P]|]. split; [unfold list_sum in *; cbn [fold_right]; lia|]. split; [|intros _; eexists; reflexivity].
    intros HS. constructor; [lia|]. apply Forall_map. eapply Forall_impl; [|apply M; lia]. cbn. intros x Hx. lia.
  - destruct (evenly_distrib_idxs (Z.of_nat ndoe) (Z.of_nat nprocs)) as [[s o]|] eqn:E; [|discriminate]. cbn in H. injection H as <- <-.
    destruct (distrib_nat ndoe nprocs s o ltac:(lia) E) as (L & P & -> & T & M). split; [rewrite map_length; exact L|]. split; [apply (offs_of_Z s 0); [lia|exact P]|]. split; [exact T|]. split; [|discriminate].
    intros HS. apply Forall_map. eapply Forall_impl; [|apply M; exact HS]. cbn. intros x Hx. lia.
Qed.
Lemma layout_ranks : forall lb ndoe nprocs sizes offsets, 2 <= ndoe -> 1 <= nprocs -> layout lb ndoe nprocs = Ok (sizes, offsets) ->
    forall g s o j, nth_error sizes g = Some s -> nth_error offsets g = Some o -> j < s -> nth_error (colors sizes) (o + j) = Some g /\ get (doe_ids (id_map sizes offsets)) (o + j) = Some g.
Proof.
  intros lb ndoe nprocs sizes offsets Hn Hp H g s o j H1 H2 L. destruct (layout_offs _ _ _ _ _ Hn Hp H) as (_ & -> & _). split.
  - rewrite colors_eq. destruct (colors_nth sizes 0 g s 0 o j H1 H2 L) as (_ & K). rewrite Nat.sub_0_r in K. exact K.
  - exact (ids_get sizes 0 0 [] g s o j H1 H2 L).
Qed.
Lemma offs_cover : forall sizes o0 x, o0 <= x < o0 + list_sum sizes -> exists g s o, nth_error sizes g = Some s /\ nth_error (offs o0 sizes) g = Some o /\ o <= x < o + s.
Proof.
  induction sizes as [|s r IH]; intros o0 x H; [cbn in H; lia|]. change (list_sum (s :: r)) with (s + list_sum r) in H. destruct (lt_dec x (o0 + s)) as [L|L]; [exists 0, s, o0; cbn; split; [reflexivity|split; [reflexivity|lia]]|].
  destruct (IH (o0 + s) x) as (g & s' & o & H1 & H2 & H3); [lia|]. exists (S g), s', o. auto.
Qed.
Lemma layout_cover : forall lb ndoe nprocs sizes offsets, 2 <= ndoe -> 1 <= nprocs -> layout lb ndoe nprocs = Ok (sizes, offsets) ->
    length (colors sizes) = nprocs /\ forall x, x < nprocs -> exists g s o, nth_error sizes g = Some s /\ nth_error offsets g = Some o /\ o <= x < o + s.
Proof.
  intros lb ndoe nprocs sizes offsets Hn Hp H. destruct (layout_offs _ _ _ _ _ Hn Hp H) as (_ & -> & T & _). split; [rewrite colors_eq, colors_len; exact T|]. intros x Hx. apply offs_cover. lia.
Qed.

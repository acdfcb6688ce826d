(** Lemmas about data transfer between processes. *)
From Coq Require Import Permutation.
From Verif Require Import Base DtrModel DtrSpec.
Local Open Scope string_scope.
Local Open Scope nat_scope.
Local Open Scope list_scope.

(** ** sums of sizes *)
Definition pre (l : list nat) (a : nat) : nat := list_sum (firstn a l).
Lemma pre_S : forall l a, pre l (S a) = pre l a + nth a l 0.
Proof.
  induction l as [|x l IH]; intros a; [destruct a; reflexivity|]. destruct a as [|a]; [cbn; lia|]. change (pre (x :: l) (S (S a))) with (x + pre l (S a)). change (pre (x :: l) (S a)) with (x + pre l a). cbn [nth]. rewrite IH. lia.
Qed.
Lemma pre_mono : forall l a b, a <= b -> pre l a <= pre l b.
Proof. intros l a b H. induction H as [|b H IH]; [lia|]. rewrite pre_S. lia. Qed.
Lemma pre_all : forall l a, pre l a <= list_sum l.
Proof. intros l a. unfold pre. rewrite <- (firstn_skipn a l) at 2. rewrite list_sum_app. lia. Qed.
Lemma pre_inj : forall l a b j k, j < nth a l 0 -> k < nth b l 0 -> pre l a + j = pre l b + k -> a = b /\ j = k.
Proof.
  intros l a b j k Hj Hk E. destruct (Nat.lt_trichotomy a b) as [L|[->|L]]; [|split; [reflexivity|lia]|].
  - pose proof (pre_mono l (S a) b L) as M. rewrite pre_S in M. lia.
  - pose proof (pre_mono l (S b) a L) as M. rewrite pre_S in M. lia.
Qed.
Lemma pre_find : forall l k, k < list_sum l -> exists a, a < length l /\ pre l a <= k < pre l a + nth a l 0.
Proof.
  induction l as [|x l IH]; intros k H; [cbn in H; lia|]. change (list_sum (x :: l)) with (x + list_sum l) in H.
  destruct (Nat.lt_ge_cases k x) as [L|L]; [exists 0; cbn; lia|]. destruct (IH (k - x)) as (a & La & R); [lia|]. exists (S a). split; [cbn; lia|].
  unfold pre in *. cbn [firstn nth]. change (list_sum (x :: firstn a l)) with (x + list_sum (firstn a l)). lia.
Qed.

Lemma nth_map_in : forall {A B : Type} (f : A -> B) l n d d', n < length l -> nth n (map f l) d = f (nth n l d').
Proof. intros A B f l n d d' H. rewrite (nth_indep (map f l) d (f d')) by (rewrite map_length; exact H). apply map_nth. Qed.
Lemma row_out : forall S r, length S <= r -> row S r = [].
Proof. intros S r H. apply nth_overflow. exact H. Qed.
Lemma cell_in : forall S r i, 0 < cell S r i -> r < length S /\ i < length (row S r).
Proof.
  intros S r i H. destruct (Nat.lt_ge_cases r (length S)) as [L|L]; [|unfold cell in H; rewrite row_out in H by exact L; destruct i; cbn in H; lia].
  split; [exact L|]. destruct (Nat.lt_ge_cases i (length (row S r))) as [L'|L']; [exact L'|]. unfold cell in H. rewrite nth_overflow in H by exact L'. lia.
Qed.
Lemma nth_sums : forall S r, nth r (map (fun l => list_sum l) S) 0 = list_sum (row S r).
Proof.
  intros S r. destruct (Nat.lt_ge_cases r (length S)) as [L|L]; [apply (nth_map_in (fun l => list_sum l) S r 0 []); exact L|]. rewrite row_out by exact L. rewrite nth_overflow by (rewrite map_length; exact L). reflexivity.
Qed.
Lemma offset_pre : forall S r i, offset S r i = pre (map (fun l => list_sum l) S) r + pre (row S r) i.
Proof. intros. unfold offset, pre. rewrite firstn_map. reflexivity. Qed.
Lemma cell_fits : forall S r i j, j < cell S r i -> pre (row S r) i + j < list_sum (row S r).
Proof. intros S r i j H. pose proof (pre_all (row S r) (Datatypes.S i)) as M. rewrite pre_S in M. unfold cell in H. lia. Qed.
Lemma offset_inj : forall S r i j r' i' j', j < cell S r i -> j' < cell S r' i' -> offset S r i + j = offset S r' i' + j' -> r = r' /\ i = i' /\ j = j'.
Proof.
  intros S r i j r' i' j' H H' E. rewrite !offset_pre in E. destruct (pre_inj (map (fun l => list_sum l) S) r r' (pre (row S r) i + j) (pre (row S r') i' + j')) as [-> E1].
  - rewrite nth_sums. apply cell_fits; exact H.
  - rewrite nth_sums. apply cell_fits; exact H'.
  - lia.
  - split; [reflexivity|]. exact (pre_inj _ _ _ _ _ H H' E1).
Qed.
Definition col (S : list (list nat)) (i : nat) : list nat := map (fun l => nth i l 0) S.
Lemma start_pre : forall S r i, start S r i = pre (col S i) r.
Proof. intros. unfold start, pre, col. rewrite firstn_map. reflexivity. Qed.
Lemma cell_col : forall S r i, cell S r i = nth r (col S i) 0.
Proof.
  intros S r i. unfold cell, col. destruct (Nat.lt_ge_cases r (length S)) as [L|L]; [symmetry; apply (nth_map_in (fun l => nth i l 0) S r 0 []); exact L|]. rewrite row_out by exact L. rewrite (nth_overflow (map _ S)) by (rewrite map_length; exact L). destruct i; reflexivity.
Qed.

Lemma new_index_at : forall S i junk k r, start S r i <= k < start S r i + cell S r i -> new_index S i junk k = k - start S r i + offset S r i.
Proof.
  intros S i junk k r H. unfold new_index.
  assert (R : r < length S) by (apply (cell_in S r i); lia).
  assert (G : forall l acc, (In r l \/ acc = k - start S r i + offset S r i) ->
    fold_left (fun acc r0 => if (start S r0 i <=? k) && (k <? start S r0 i + cell S r0 i) then k - start S r0 i + offset S r0 i else acc) l acc = k - start S r i + offset S r i).
  { induction l as [|x l IH]; intros acc [I|I]; cbn [fold_left]; [destruct I|exact I| |].
    - destruct I as [->|I].
      + replace (start S r i <=? k) with true by (symmetry; apply Nat.leb_le; lia). replace (k <? start S r i + cell S r i) with true by (symmetry; apply Nat.ltb_lt; lia). apply IH. right. reflexivity.
      + apply IH. left. exact I.
    - apply IH. right. destruct ((start S x i <=? k) && (k <? start S x i + cell S x i)) eqn:E; [|exact I]. apply andb_true_iff in E. destruct E as [E1 E2]. apply Nat.leb_le in E1. apply Nat.ltb_lt in E2.
      pose proof H as H'. rewrite (start_pre S r i), (cell_col S r i) in H'. rewrite (start_pre S x i) in E1. rewrite (start_pre S x i), (cell_col S x i) in E2.
      destruct (pre_inj (col S i) x r (k - pre (col S i) x) (k - pre (col S i) r)) as [-> _]; try lia. }
  apply G. left. apply in_seq. lia.
Qed.

(** ** vectors *)
Section Vectors.
  Context {A : Type}.
  Variable d : A.
  Lemma nth_concat : forall (v : list (list A)) r m, m < length (nth r v []) -> nth (pre (map (fun x : list A => length x) v) r + m) (concat v) d = nth m (nth r v []) d.
  Proof.
    induction v as [|x v IH]; intros [|r] m H; cbn [nth] in H; try (cbn in H; lia).
    - cbn [concat pre firstn list_sum nth]. unfold pre. cbn. apply app_nth1. exact H.
    - unfold pre. cbn [map firstn concat nth]. change (list_sum (length x :: firstn r (map (fun y : list A => length y) v))) with (length x + pre (map (fun y : list A => length y) v) r).
      rewrite <- Nat.add_assoc. rewrite app_nth2_plus. apply IH. exact H.
  Qed.
  Lemma nth_skip : forall (l : list A) a j, nth j (skipn a l) d = nth (a + j) l d.
  Proof. induction l as [|x l IH]; intros [|a] j; cbn [skipn Nat.add nth]; try reflexivity; [destruct j; reflexivity|apply IH]. Qed.
  Lemma nth_first : forall (l : list A) n j, j < n -> nth j (firstn n l) d = nth j l d.
  Proof. induction l as [|x l IH]; intros [|n] [|j] H; cbn; try reflexivity; try lia. apply IH. lia. Qed.
  Lemma shaped_row : forall S (v : list (list A)) r, shaped S v -> length (nth r v []) = list_sum (row S r).
  Proof.
    intros S v r H. rewrite <- nth_sums. unfold shaped in H. rewrite <- H. destruct (Nat.lt_ge_cases r (length v)) as [L|L]; [symmetry; apply (nth_map_in (fun x : list A => length x) v r 0 []); exact L|].
    rewrite !nth_overflow; [reflexivity|rewrite map_length; exact L|exact L].
  Qed.
  Lemma value_at : forall S v r i j, shaped S v -> j < cell S r i -> nth (offset S r i + j) (concat v) d = nth j (value S v r i) d.
  Proof.
    intros S v r i j Sh H. rewrite offset_pre. rewrite <- Nat.add_assoc. pose proof (cell_fits S r i j H) as F. unfold shaped in Sh.
    replace (map (fun l => list_sum l) S) with (map (fun x : list A => length x) v) by exact Sh. rewrite nth_concat by (rewrite (shaped_row S v r Sh); exact F).
    unfold value. rewrite nth_first by exact H. rewrite nth_skip. reflexivity.
  Qed.
  Lemma value_length : forall S (v : list (list A)) r i, shaped S v -> length (value S v r i) = cell S r i.
  Proof.
    intros S v r i Sh. unfold value. rewrite firstn_length, skipn_length, (shaped_row S v r Sh). pose proof (pre_all (row S r) (Datatypes.S i)) as M. rewrite pre_S in M. unfold pre in M. unfold cell. lia.
  Qed.
  Lemma offset_bound : forall S (v : list (list A)) r i j, shaped S v -> j < cell S r i -> offset S r i + j < length (concat v).
  Proof.
    intros S v r i j Sh H. rewrite offset_pre. pose proof (cell_fits S r i j H) as F.
    pose proof (pre_all (map (fun l => list_sum l) S) (Datatypes.S r)) as M. rewrite pre_S, nth_sums in M.
    replace (length (concat v)) with (list_sum (map (fun l => list_sum l) S)); [lia|]. rewrite <- Sh. clear. induction v as [|x v IH]; [reflexivity|]. cbn [map concat]. rewrite app_length, <- IH. reflexivity.
  Qed.
  Lemma split_concat : forall ns (g : list A), length g = list_sum ns -> concat (split ns g) = g /\ map (fun x : list A => length x) (split ns g) = ns.
  Proof.
    induction ns as [|n ns IH]; intros g H; [destruct g; [split; reflexivity|discriminate]|]. change (list_sum (n :: ns)) with (n + list_sum ns) in H. cbn [split concat map].
    destruct (IH (skipn n g)) as [A1 A2]; [rewrite skipn_length; lia|]. rewrite A1, A2, firstn_skipn. split; [reflexivity|]. f_equal. rewrite firstn_length. lia.
  Qed.
  Lemma concat_length : forall v : list (list A), length (concat v) = list_sum (map (fun x : list A => length x) v).
  Proof. induction v as [|x v IH]; [reflexivity|]. cbn [concat map]. rewrite app_length, IH. reflexivity. Qed.
  Lemma put_length : forall n x (l : list A), length (put_at n x l) = length l.
  Proof. induction n as [|n IH]; intros x [|y l]; cbn; auto. Qed.
  Lemma put_nth : forall n x (l : list A) m, n < length l -> nth m (put_at n x l) d = if m =? n then x else nth m l d.
  Proof. induction n as [|n IH]; intros x [|y l] m H; cbn in H; try lia; [destruct m; reflexivity|]. destruct m as [|m]; [reflexivity|]. cbn [put_at nth Nat.eqb]. apply IH. lia. Qed.
  Lemma put_out : forall n x (l : list A), length l <= n -> put_at n x l = l.
  Proof. induction n as [|n IH]; intros x [|y l] H; cbn in H |- *; try reflexivity; [lia|]. f_equal. apply IH. lia. Qed.
  Lemma copy_length : forall l (x y : list A), length (copy_pairs d l x y) = length y.
  Proof. unfold copy_pairs. induction l as [|p l IH]; intros x y; cbn [fold_left]; [reflexivity|]. rewrite IH. apply put_length. Qed.
  Lemma copy_other : forall l (x y : list A) t, (forall s, ~ In (s, t) l) -> nth t (copy_pairs d l x y) d = nth t y d.
  Proof.
    unfold copy_pairs. induction l as [|[s0 t0] l IH]; intros x y t H; cbn [fold_left]; [reflexivity|]. rewrite IH by (intros s I; apply (H s); right; exact I). cbn [fst snd].
    destruct (Nat.lt_ge_cases t0 (length y)) as [L|L]; [|rewrite put_out by exact L; reflexivity]. rewrite put_nth by exact L. destruct (Nat.eqb_spec t t0) as [->|_]; [exfalso; apply (H s0); left; reflexivity|reflexivity].
  Qed.
  Lemma copy_at : forall l (x y : list A) s t, In (s, t) l -> (forall s', In (s', t) l -> s' = s) -> t < length y -> nth t (copy_pairs d l x y) d = nth s x d.
  Proof.
    unfold copy_pairs. induction l as [|[s0 t0] l IH]; intros x y s t I F L; [destruct I|]. cbn [fold_left fst snd].
    destruct (in_dec (fun a b : nat * nat => ltac:(decide equality; apply Nat.eq_dec)) (s, t) l) as [I'|N].
    - apply IH; [exact I'|intros s' K; apply F; right; exact K|rewrite put_length; exact L].
    - destruct I as [E|I]; [|contradiction]. injection E as -> ->. fold (copy_pairs d l x (put_at t (nth s x d) y)). rewrite copy_other; [rewrite put_nth by exact L; rewrite Nat.eqb_refl; reflexivity|]. intros s' K. rewrite (F s' (or_intror K)) in K. contradiction.
  Qed.
End Vectors.

Section Sums.
  Context {A : Type}.
  Variable zero : A.
  Variable add : A -> A -> A.
  Hypothesis add_comm : forall a b, add a b = add b a.
  Hypothesis add_assoc : forall a b c, add a (add b c) = add (add a b) c.
  Hypothesis add_zero : forall a, add zero a = a.
  Notation total := (total zero add).
  Lemma zero_add : forall a, add a zero = a.
  Proof. intros. rewrite add_comm. apply add_zero. Qed.
  Lemma total_cons : forall x l, total (x :: l) = add x (total l).
  Proof. reflexivity. Qed.
  Lemma total_app : forall a b, total (a ++ b) = add (total a) (total b).
  Proof. induction a as [|x a IH]; intros b; cbn [app]; [symmetry; apply add_zero|]. rewrite !total_cons, IH. apply add_assoc. Qed.
  Lemma total_perm : forall a b, Permutation a b -> total a = total b.
  Proof. induction 1; rewrite ?total_cons; [reflexivity|congruence|rewrite !add_assoc, (add_comm y x); reflexivity|congruence]. Qed.
  Lemma total_zeros : forall {B : Type} (f : B -> A) l, (forall x, In x l -> f x = zero) -> total (map f l) = zero.
  Proof. induction l as [|x l IH]; intros H; [reflexivity|]. cbn [map]. rewrite total_cons, (H x (or_introl eq_refl)), add_zero. apply IH. intros y I. apply H. right. exact I. Qed.
  Lemma total_add : forall {B : Type} (f g : B -> A) l, total (map (fun x => add (f x) (g x)) l) = add (total (map f l)) (total (map g l)).
  Proof.
    induction l as [|x l IH]; [symmetry; apply add_zero|]. cbn [map]. rewrite !total_cons, IH. rewrite <- !add_assoc. f_equal. rewrite !add_assoc. f_equal. apply add_comm.
  Qed.
  Lemma total_swap : forall {B C : Type} (f : B -> C -> A) (l : list B) (m : list C), total (map (fun x => total (map (f x) m)) l) = total (map (fun y => total (map (fun x => f x y) l)) m).
  Proof.
    induction l as [|x l IH]; intros m; cbn [map].
    - symmetry. apply total_zeros. reflexivity.
    - rewrite total_cons, IH. rewrite <- total_add. reflexivity.
  Qed.
  Lemma total_filter : forall {B : Type} (f : B -> A) (t : B -> bool) l, total (map (fun x => if t x then f x else zero) l) = total (map f (filter t l)).
  Proof. induction l as [|x l IH]; [reflexivity|]. cbn [map filter]. rewrite total_cons, IH. destruct (t x); cbn [map]; [reflexivity|apply add_zero]. Qed.
  Lemma total_one : forall (f : nat -> A) o a n, a <= o < a + n -> total (map (fun x => if x =? o then f x else zero) (seq a n)) = f o.
  Proof.
    intros f o a n. revert a. induction n as [|n IH]; intros a H; [lia|]. cbn [seq map]. rewrite total_cons.
    destruct (Nat.eqb_spec a o) as [->|N]; [|rewrite add_zero; apply IH; lia]. rewrite total_zeros; [apply zero_add|]. intros x I. apply in_seq in I. destruct (Nat.eqb_spec x o); [lia|reflexivity].
  Qed.
  Lemma adds_length : forall l (x y : list A), length (add_pairs zero add l x y) = length x.
  Proof. unfold add_pairs. induction l as [|p l IH]; intros x y; cbn [fold_left]; [reflexivity|]. rewrite IH. apply put_length. Qed.
  Lemma adds_at : forall l (x y : list A) g, g < length x ->
      nth g (add_pairs zero add l x y) zero = add (nth g x zero) (total (map (fun p => nth (snd p) y zero) (filter (fun p => fst p =? g) l))).
  Proof.
    unfold add_pairs. induction l as [|[s t] l IH]; intros x y g L; cbn [fold_left filter map]; [symmetry; apply zero_add|]. cbn [fst snd]. rewrite IH by (rewrite put_length; exact L).
    destruct (Nat.lt_ge_cases s (length x)) as [Ls|Ls].
    - rewrite put_nth by exact Ls. rewrite (Nat.eqb_sym g s). destruct (Nat.eqb_spec s g) as [->|N]; [|reflexivity]. cbn [map snd]. rewrite total_cons, <- add_assoc. reflexivity.
    - rewrite put_out by exact Ls. destruct (Nat.eqb_spec s g) as [->|N]; [lia|reflexivity].
  Qed.
End Sums.

(** ** where the entries of an unknown are *)
Section World.
  Variable w : world.
  Notation us := (u_sizes w).
  Notation ps := (p_sizes w).
  Lemma us_cell : forall r u, cell us r u = if u_local (U w r u) then u_size (U w r u) else 0.
  Proof.
    intros r u. unfold cell, row, u_sizes, U. destruct (Nat.lt_ge_cases r (length (w_u w))) as [Lr|Lr].
    - rewrite (nth_map_in _ (w_u w) r [] []) by exact Lr.
      destruct (Nat.lt_ge_cases u (length (nth r (w_u w) []))) as [L|L]; [apply (nth_map_in (fun m => if u_local m then u_size m else 0)); exact L|]. rewrite !nth_overflow by (try rewrite map_length; exact L). reflexivity.
    - rewrite (nth_overflow (map _ (w_u w))) by (rewrite map_length; exact Lr). rewrite (nth_overflow (w_u w)) by exact Lr. destruct u; reflexivity.
  Qed.
  Lemma ps_cell : forall r p, cell ps r p = if p_local (P w r p) then p_size (P w r p) else 0.
  Proof.
    intros r p. unfold cell, row, p_sizes, P. destruct (Nat.lt_ge_cases r (length (w_p w))) as [Lr|Lr].
    - rewrite (nth_map_in _ (w_p w) r [] []) by exact Lr.
      destruct (Nat.lt_ge_cases p (length (nth r (w_p w) []))) as [L|L]; [apply (nth_map_in (fun m => if p_local m then p_size m else 0)); exact L|]. rewrite !nth_overflow by (try rewrite map_length; exact L). reflexivity.
    - rewrite (nth_overflow (map _ (w_p w))) by (rewrite map_length; exact Lr). rewrite (nth_overflow (w_p w)) by exact Lr. destruct p; reflexivity.
  Qed.
  Lemma us_length : length us = nranks w.
  Proof. unfold u_sizes. apply map_length. Qed.
  Lemma find_seq : forall (f : nat -> bool) n r, find f (seq 0 n) = Some r -> f r = true /\ r < n /\ forall q, q < r -> f q = false.
  Proof.
    intros f n. assert (G : forall a r, find f (seq a n) = Some r -> f r = true /\ a <= r < a + n /\ forall q, a <= q < r -> f q = false).
    { induction n as [|n IH]; intros a r E; [discriminate|]. cbn [seq find] in E. destruct (f a) eqn:Fa.
      - injection E as <-. split; [exact Fa|]. split; [lia|]. intros q H. lia.
      - destruct (IH _ _ E) as (A & B & C). split; [exact A|]. split; [lia|]. intros q H. destruct (Nat.eq_dec q a) as [->|N]; [exact Fa|]. apply C. lia. }
    intros r E. destruct (G 0 r E) as (A & B & C). split; [exact A|]. split; [lia|]. intros q H. apply C. lia.
  Qed.
  (** the local entry [j] in the process [r] is the entry [k] of the whole *)
  Definition home (u k r j : nat) : Prop := r < nranks w /\ j < cell us r u /\ if spread w u then k = start us r u + j else u_owner w u = Some r /\ k = j.
  Lemma home_exists : forall u k, k < whole_size w u -> exists r j, home u k r j.
  Proof.
    intros u k H. unfold whole_size in H. unfold home. destruct (spread w u).
    - destruct (pre_find (col us u) k) as (r & L & B).
      + replace (list_sum (col us u)) with (list_sum (map (fun r => cell us r u) (seq 0 (nranks w)))); [exact H|]. f_equal. rewrite <- us_length. unfold col, cell, row. clear. induction us as [|l m IH]; [reflexivity|]. cbn [length seq map nth]. f_equal. rewrite <- seq_shift, map_map. exact IH.
      + exists r, (k - start us r u). unfold col in L. rewrite map_length, us_length in L. rewrite start_pre, cell_col. lia.
    - destruct (u_owner w u) as [r|] eqn:E; [|lia]. exists r, k. destruct (find_seq _ _ _ E) as (A & B & _). split; [exact B|]. rewrite us_cell, A. auto.
  Qed.
  Lemma home_new : forall u k r j junk, home u k r j -> new_index us u junk k = offset us r u + j.
  Proof.
    intros u k r j junk (L & B & H). assert (E : k = start us r u + j).
    { destruct (spread w u); [exact H|]. destruct H as [O ->]. destruct (find_seq _ _ _ O) as (_ & _ & F). assert (start us r u = 0) as ->; [|reflexivity].
      rewrite start_pre. assert (Z : forall q, q <= r -> pre (col us u) q = 0); [|apply Z; lia]. induction q as [|q IH]; intros Q; [reflexivity|]. rewrite pre_S, IH by lia. rewrite <- cell_col, us_cell, F by lia. reflexivity. }
    rewrite (new_index_at us u junk k r) by lia. lia.
  Qed.
  (** the position of an entry of the whole in the distributed vector *)
  Definition he (u k : nat) : nat := if spread w u then new_index us u 0 k else match u_owner w u with Some r => k + offset us r u | None => 0 end.
  Lemma he_home : forall u k r j, home u k r j -> he u k = offset us r u + j.
  Proof.
    intros u k r j H. unfold he. pose proof (home_new u k r j 0 H) as E. destruct H as (L & B & H). destruct (spread w u); [exact E|]. destruct H as [-> ->]. lia.
  Qed.
  Lemma home_pos : forall u k r j, home u k r j -> k = position w r u j.
  Proof. intros u k r j (_ & _ & H). unfold position. destruct (spread w u); [exact H|apply H]. Qed.
  Lemma home_whole : forall {A : Type} (d : A) vu u k r j, shaped us vu -> home u k r j -> nth k (whole w vu u) d = nth j (value us vu r u) d.
  Proof.
    intros A d vu u k r j Sh (L & B & H). unfold whole. destruct (spread w u) eqn:Sp.
    - subst k. rewrite flat_map_concat_map.
      assert (E : map (fun x : list A => length x) (map (fun r0 => value us vu r0 u) (seq 0 (nranks w))) = col us u).
      { rewrite map_map. rewrite (map_ext _ (fun q => cell us q u)) by (intros q; apply value_length; exact Sh). rewrite <- us_length. unfold col, cell, row. clear. induction us as [|l m IH]; [reflexivity|]. cbn [length seq map nth]. f_equal. rewrite <- seq_shift, map_map. exact IH. }
      assert (N : nth r (map (fun r0 => value us vu r0 u) (seq 0 (nranks w))) [] = value us vu r u) by (rewrite (nth_map_in _ (seq 0 (nranks w)) r [] 0) by (rewrite seq_length; exact L); rewrite seq_nth by exact L; reflexivity).
      rewrite start_pre, <- E. rewrite nth_concat by (rewrite N, value_length by exact Sh; exact B). rewrite N. reflexivity.
    - destruct H as [-> ->]. reflexivity.
  Qed.

  Lemma combine_maps : forall {B C D E : Type} (f : B -> D) (g : C -> E) l m, combine (map f l) (map g m) = map (fun p => (f (fst p), g (snd p))) (combine l m).
  Proof. induction l as [|x l IH]; intros [|y m]; cbn; [reflexivity|reflexivity|reflexivity|]. f_equal. apply IH. Qed.

  (** ** forward *)
  Lemma fwd_idxs : forall junk c r, fwd_ok w c -> r < nranks w -> p_local (P w r (c_p c)) = true ->
      global_idxs w junk Fwd r (c_u c) (c_p c) = Ok (map (he (c_u c)) (taken w r (c_p c)), map (fun j => offset ps r (c_p c) + j) (seq 0 (p_size (P w r (c_p c))))).
  Proof.
    intros junk c r (O & C & F) Lr Lp. destruct (F r Lr Lp) as (Ud & Len & In_). unfold global_idxs. rewrite Lp, Ud. cbn [negb bind]. fold (taken w r (c_p c)). rewrite Len.
    destruct (spread w (c_u c) || is_some (p_idx (P w r (c_p c)))) eqn:E.
    - cbn [bind]. rewrite Nat.eqb_refl, andb_false_r. f_equal. f_equal. apply map_ext_in. intros k I. destruct (home_exists (c_u c) k (In_ k I)) as (q & j & H). rewrite (home_new _ _ _ _ junk H), (he_home _ _ _ _ H). reflexivity.
    - apply orb_false_iff in E. destruct E as [E _]. destruct (u_owner w (c_u c)) as [q|] eqn:Eo; [|contradiction]. cbn [bind owning]. f_equal. f_equal. apply map_ext. intros k. unfold he. rewrite E, Eo. reflexivity.
  Qed.
  Lemma fwd_idxs_remote : forall junk c r, p_local (P w r (c_p c)) = false -> global_idxs w junk Fwd r (c_u c) (c_p c) = Ok ([], []).
  Proof. intros junk c r H. unfold global_idxs. rewrite H. reflexivity. Qed.
  Lemma rank_in : forall junk r cs, r < nranks w -> (forall c, In c cs -> fwd_ok w c) -> exists l, rank_pairs w junk Fwd r cs = Ok l /\
      forall s t, In (s, t) l <-> exists c j, In c cs /\ p_local (P w r (c_p c)) = true /\ j < p_size (P w r (c_p c)) /\ s = he (c_u c) (nth j (taken w r (c_p c)) 0) /\ t = offset ps r (c_p c) + j.
  Proof.
    intros junk r cs Lr. induction cs as [|c cs IH]; intros F; [exists []; split; [reflexivity|intros s t; split; [intros []|intros (c & j & [] & _)]]|].
    destruct (IH (fun c' I => F c' (or_intror I))) as (l & E & M). pose proof (F c (or_introl eq_refl)) as Fc.
    cbn [rank_pairs]. destruct (p_local (P w r (c_p c))) eqn:Lp.
    - rewrite (fwd_idxs junk c r Fc Lr Lp). cbn [bind fst snd]. rewrite E. cbn [bind]. eexists. split; [reflexivity|]. intros s t. rewrite in_app_iff, M, combine_maps, in_map_iff. split.
      + intros [([k j] & Q & I)|(c' & j & I & R)]; [|exists c', j; split; [right; exact I|exact R]]. cbn [fst snd] in Q. injection Q as <- <-. apply (In_nth _ _ (0, 0)) in I. destruct I as (n & Ln & Nn).
        destruct Fc as (_ & _ & Fc). destruct (Fc r Lr Lp) as (_ & Len & _). rewrite combine_length, seq_length, Len, Nat.min_id in Ln. rewrite combine_nth in Nn by (rewrite seq_length; exact Len). rewrite seq_nth in Nn by exact Ln. injection Nn as <- <-. exists c, n. repeat split; auto. left. reflexivity.
      + intros (c' & j & [<-|I] & Lp' & Lj & -> & ->); [left|right; exists c', j; auto]. exists (nth j (taken w r (c_p c)) 0, j). split; [reflexivity|].
        destruct Fc as (_ & _ & Fc). destruct (Fc r Lr Lp) as (_ & Len & _).
        replace (nth j (taken w r (c_p c)) 0, j) with (nth j (combine (taken w r (c_p c)) (seq 0 (p_size (P w r (c_p c))))) (0, 0)) by (rewrite combine_nth by (rewrite seq_length; exact Len); rewrite seq_nth by exact Lj; reflexivity).
        apply nth_In. rewrite combine_length, seq_length, Len. lia.
    - rewrite (fwd_idxs_remote junk c r Lp). cbn [bind fst snd]. rewrite E. cbn [bind combine app]. exists l. split; [reflexivity|]. intros s t. rewrite M. split.
      + intros (c' & j & I & R). exists c', j. split; [right; exact I|exact R].
      + intros (c' & j & [<-|I] & Lp' & R); [congruence|]. exists c', j. auto.
  Qed.
  Lemma pairs_in : forall junk cs ranks, (forall r, In r ranks -> r < nranks w) -> (forall c, In c cs -> fwd_ok w c) -> exists l, pairs_from w junk Fwd cs ranks = Ok l /\
      forall s t, In (s, t) l <-> exists r c j, In r ranks /\ In c cs /\ p_local (P w r (c_p c)) = true /\ j < p_size (P w r (c_p c)) /\ s = he (c_u c) (nth j (taken w r (c_p c)) 0) /\ t = offset ps r (c_p c) + j.
  Proof.
    intros junk cs. induction ranks as [|r ranks IH]; intros R F; [exists []; split; [reflexivity|intros s t; split; [intros []|intros (r & c & j & [] & _)]]|].
    destruct (rank_in junk r cs (R r (or_introl eq_refl)) F) as (a & Ea & Ma). destruct (IH (fun q I => R q (or_intror I)) F) as (b & Eb & Mb).
    exists (a ++ b). cbn [pairs_from]. rewrite Ea, Eb. split; [reflexivity|]. intros s t. rewrite in_app_iff, Ma, Mb. split.
    - intros [(c & j & I)|(q & c & j & I & K)]; [exists r, c, j; split; [left; reflexivity|exact I]|exists q, c, j; split; [right; exact I|exact K]].
    - intros (q & c & j & [<-|I] & K); [left; exists c, j; exact K|right; exists q, c, j; auto].
  Qed.
End World.

(** ** the connections of a transfer *)
Lemma keys_in : forall l seen x, In x l -> In x (keys seen l) \/ In x seen.
Proof.
  induction l as [|y l IH]; intros seen x I; [destruct I|]. cbn [keys]. destruct (existsb (String.eqb y) seen) eqn:E.
  - destruct I as [->|I]; [right|apply IH; exact I]. apply existsb_exists in E. destruct E as (z & Iz & Ez). apply String.eqb_eq in Ez. subst z. exact Iz.
  - destruct I as [->|I]; [left; left; reflexivity|]. destruct (IH (y :: seen) x I) as [K|[->|K]]; [left; right; exact K|left; left; reflexivity|right; exact K].
Qed.
Lemma keys_fresh : forall l seen x, In x (keys seen l) -> In x l /\ ~ In x seen.
Proof.
  induction l as [|y l IH]; intros seen x I; [destruct I|]. cbn [keys] in I. destruct (existsb (String.eqb y) seen) eqn:E.
  - destruct (IH _ _ I). split; [right|]; assumption.
  - destruct I as [<-|I]; [split; [left; reflexivity|]; intros K; assert (existsb (String.eqb y) seen = true) by (apply existsb_exists; exists y; split; [exact K|apply String.eqb_refl]); congruence|].
    destruct (IH _ _ I) as [A B]. split; [right; exact A|]. intros K. apply B. right. exact K.
Qed.
Lemma keys_nodup : forall l seen, NoDup (keys seen l).
Proof.
  induction l as [|y l IH]; intros seen; cbn [keys]; [constructor|]. destruct (existsb (String.eqb y) seen); [apply IH|]. constructor; [|apply IH]. intros I. destruct (keys_fresh _ _ _ I) as [_ N]. apply N. left. reflexivity.
Qed.
Lemma xfer_in : forall md name conns c, In c (xfer md name conns) <-> In c conns /\ (name = "" \/ sys_of md c = name).
Proof.
  intros md name conns c. unfold xfer. destruct (String.eqb_spec name "") as [->|N].
  - rewrite in_flat_map. split.
    + intros (s & _ & I). apply filter_In in I. tauto.
    + intros (I & _). exists (sys_of md c). split; [|apply filter_In; split; [exact I|apply String.eqb_refl]]. destruct (keys_in (map (sys_of md) conns) [] (sys_of md c)) as [K|[]]; [apply in_map; exact I|exact K].
  - rewrite filter_In, String.eqb_eq. split; [intros [A B]; auto|intros [A [B|B]]; [contradiction|auto]].
Qed.

Lemma fwd_main : forall {A : Type} (d : A) add w junk order name conns vu vp, shaped (u_sizes w) vu -> shaped (p_sizes w) vp -> NoDup (map c_p conns) ->
    (forall c, In c (xfer Fwd name conns) -> fwd_ok w c) -> (forall l, Permutation (order l) l) ->
    exists vp', transfer d add w junk order Fwd name conns vu vp = Ok (vu, vp') /\ shaped (p_sizes w) vp' /\
      (forall c r, In c (xfer Fwd name conns) -> r < nranks w -> p_local (P w r (c_p c)) = true ->
         value (p_sizes w) vp' r (c_p c) = map (fun k => nth k (whole w vu (c_u c)) d) (taken w r (c_p c))) /\
      (forall r p, ~ In p (map c_p (xfer Fwd name conns)) -> value (p_sizes w) vp' r p = value (p_sizes w) vp r p).
Proof.
  intros A d add w junk order name conns vu vp Su Sp ND F Or. unfold transfer. set (cs := xfer Fwd name conns) in *.
  destruct (pairs_in w junk cs (seq 0 (nranks w))) as (l & El & M); [intros r I; apply in_seq in I; lia|exact F|]. rewrite El. cbn [bind].
  assert (Hs : forall c r k, In c cs -> r < nranks w -> p_local (P w r (c_p c)) = true -> In k (taken w r (c_p c)) -> exists q j, home w (c_u c) k q j).
  { intros c r k Ic Lr Lp Ik. destruct (F c Ic) as (_ & _ & Fc). destruct (Fc r Lr Lp) as (_ & _ & B). apply home_exists. apply B. exact Ik. }
  replace (forallb _ l) with true.
  2:{ symmetry. apply forallb_forall. intros [s t] I. apply M in I. destruct I as (r & c & j & Ir & Ic & Lp & Lj & -> & ->). apply in_seq in Ir. cbn [fst snd]. apply andb_true_iff. split; apply Nat.ltb_lt.
      - destruct (F c Ic) as (_ & _ & Fc). destruct (Fc r ltac:(lia) Lp) as (_ & Len & _).
        destruct (Hs c r (nth j (taken w r (c_p c)) 0) Ic ltac:(lia) Lp) as (q & jj & H); [apply nth_In; rewrite Len; exact Lj|]. rewrite (he_home w _ _ _ _ H). apply offset_bound; [exact Su|apply H].
      - apply offset_bound; [exact Sp|]. rewrite ps_cell, Lp. exact Lj. }
  set (g := copy_pairs d (order l) (concat vu) (concat vp)). set (vp' := split (map (fun v : list A => length v) vp) g).
  assert (G : length g = list_sum (map (fun v : list A => length v) vp)) by (unfold g; rewrite copy_length; apply concat_length).
  destruct (split_concat _ g G) as [C1 C2]. fold vp' in C1, C2. assert (Sp' : shaped (p_sizes w) vp') by (unfold shaped; rewrite C2; exact Sp).
  exists vp'. split; [reflexivity|]. split; [exact Sp'|].
  assert (Inj : forall s t c r j, In c cs -> r < nranks w -> p_local (P w r (c_p c)) = true -> j < p_size (P w r (c_p c)) -> t = offset (p_sizes w) r (c_p c) + j -> In (s, t) l -> s = he w (c_u c) (nth j (taken w r (c_p c)) 0)).
  { intros s t c r j Ic Lr Lp Lj Et I. apply M in I. destruct I as (r' & c' & j' & Ir & Ic' & Lp' & Lj' & -> & Et'). rewrite Et in Et'.
    apply offset_inj in Et'; [|rewrite ps_cell, Lp; exact Lj|rewrite ps_cell, Lp'; exact Lj']. destruct Et' as (<- & Ep & <-).
    assert (c = c') as ->; [|reflexivity]. apply xfer_in in Ic, Ic'. destruct Ic as [Ic _], Ic' as [Ic' _]. revert ND Ic Ic' Ep. clear. induction conns as [|x cs IH]; intros ND Ic Ic' E; [destruct Ic|].
    cbn [map] in ND. inversion ND as [|? ? N ND']; subst. destruct Ic as [->|Ic], Ic' as [->|Ic']; [reflexivity|exfalso; apply N; rewrite E; apply in_map; exact Ic'|exfalso; apply N; rewrite <- E; apply in_map; exact Ic|exact (IH ND' Ic Ic' E)]. }
  split.
  - intros c r Ic Lr Lp. pose proof (F c Ic) as (_ & _ & Fc). destruct (Fc r Lr Lp) as (_ & Len & _).
    apply (nth_ext _ _ d (nth 0 (whole w vu (c_u c)) d)); [rewrite value_length by exact Sp'; rewrite map_length, ps_cell, Lp, Len; reflexivity|].
    intros j Lj. rewrite value_length in Lj by exact Sp'. pose proof Lj as Lj'. rewrite ps_cell, Lp in Lj'.
    rewrite (map_nth (fun k => nth k (whole w vu (c_u c)) d)). destruct (Hs c r (nth j (taken w r (c_p c)) 0) Ic Lr Lp) as (q & jj & H); [apply nth_In; rewrite Len; exact Lj'|].
    rewrite (home_whole w d vu _ _ _ _ Su H). rewrite <- (value_at d _ _ _ _ _ Sp' Lj), C1. rewrite <- (value_at d _ _ _ _ _ Su) by apply H. rewrite <- (he_home w _ _ _ _ H).
    unfold g. apply copy_at.
    + apply (Permutation_in _ (Permutation_sym (Or l))). apply M. exists r, c, j. repeat split; auto. apply in_seq. lia.
    + intros s' I. apply (Permutation_in _ (Or l)) in I. apply (Inj s' _ c r j Ic Lr Lp Lj' eq_refl I).
    + apply offset_bound; [exact Sp|exact Lj].
  - intros r p N. apply (nth_ext _ _ d d); [rewrite !value_length by assumption; reflexivity|]. intros j Lj. rewrite value_length in Lj by exact Sp'.
    rewrite <- (value_at d _ _ _ _ _ Sp' Lj), C1. rewrite <- (value_at d _ _ _ _ _ Sp Lj). unfold g. apply copy_other. intros s I. apply (Permutation_in _ (Or l)) in I. apply M in I. destruct I as (r' & c & j' & Ir & Ic & Lp & Lj' & _ & Et).
    apply offset_inj in Et; [|exact Lj|rewrite ps_cell, Lp; exact Lj']. destruct Et as (_ & -> & _). apply N. apply in_map. exact Ic.
Qed.

(** ** backward *)
Section Back.
  Context {A : Type}.
  Variable zero : A.
  Variable add : A -> A -> A.
  Hypothesis add_comm : forall a b, add a b = add b a.
  Hypothesis add_assoc : forall a b c, add a (add b c) = add (add a b) c.
  Hypothesis add_zero : forall a, add zero a = a.
  Notation total := (total zero add).
  Variable w : world.
  Notation us := (u_sizes w).
  Notation ps := (p_sizes w).
  (** the pairs of a connection in a process *)
  Definition back (given : bool) (c : conn) (r : nat) : list (nat * nat) :=
    if given then if p_local (P w r (c_p c)) then combine (map (he w (c_u c)) (taken w r (c_p c))) (map (fun j => offset ps r (c_p c) + j) (seq 0 (length (taken w r (c_p c))))) else []
    else match p_owner w (c_p c) with
         | Some q => if spread w (c_u c) then if r =? q then combine (map (he w (c_u c)) (taken w q (c_p c))) (map (fun j => offset ps q (c_p c) + j) (seq 0 (length (taken w q (c_p c))))) else []
                     else if u_local (U w r (c_u c)) then combine (map (fun k => k + offset us r (c_u c)) (taken w q (c_p c))) (map (fun j => offset ps q (c_p c) + j) (seq 0 (length (taken w q (c_p c))))) else []
         | None => []
         end.
  Lemma rev_idxs : forall junk c given r, rev_ok w c given -> r < nranks w -> exists ss ts, global_idxs w junk Rev r (c_u c) (c_p c) = Ok (ss, ts) /\ combine ss ts = back given c r.
  Proof.
    intros junk c given r (Ou & Op & C & G & D & T & N & K & M) Lr. unfold global_idxs, back. rewrite (G r Lr), (D r Lr). destruct (p_owner w (c_p c)) as [q|] eqn:Eo; [|contradiction]. clear Op.
    destruct (find_seq _ _ _ Eo) as (Lq & Lqn & Min).
    assert (HE : forall junk k, k < whole_size w (c_u c) -> new_index us (c_u c) junk k = he w (c_u c) k).
    { intros jk k B. destruct (home_exists w (c_u c) k B) as (x & j & H). rewrite (home_new w _ _ _ _ jk H), (he_home w _ _ _ _ H). reflexivity. }
    destruct given.
    - rewrite andb_false_l, andb_false_r, orb_true_r. cbn [negb bind]. fold (taken w r (c_p c)). destruct (p_local (P w r (c_p c))) eqn:Lp; cbn [bind].
      + rewrite Nat.eqb_refl. cbn [negb andb]. eexists _, _. split; [reflexivity|]. f_equal. apply map_ext_in. intros k I. apply HE. apply (proj2 (T r Lr Lp)). exact I.
      + cbn [owning bind]. destruct (Nat.eqb_spec q r) as [->|Ne]; [congruence|]. eexists _, _. split; reflexivity.
    - specialize (N eq_refl). specialize (K eq_refl). assert (Ti : forall x, x < nranks w -> taken w x (c_p c) = seq 0 (whole_size w (c_u c))).
      { intros x Lx. unfold taken. specialize (G x Lx). rewrite (N x Lx). destruct (p_idx (P w x (c_p c))); [discriminate|reflexivity]. }
      rewrite (Ti q Lqn). cbn [negb andb]. rewrite andb_true_r, orb_false_r. fold (taken w r (c_p c)). rewrite (Ti r Lr). destruct (u_local (U w r (c_u c))) eqn:Lu; cbn [negb].
      + destruct (spread w (c_u c)) eqn:Sp; cbn [owning bind].
        * destruct (Nat.eqb_spec r q) as [->|Ne]; cbn [negb]; [|eexists _, _; split; reflexivity]. rewrite Lq. cbn [bind]. eexists _, _. split; [reflexivity|]. f_equal. apply map_ext_in. intros k I. apply in_seq in I. apply HE. lia.
        * eexists _, _. split; reflexivity.
      + destruct (spread w (c_u c)) eqn:Sp; cbn [bind]; [|eexists _, _; split; reflexivity]. destruct (Nat.eqb_spec r q) as [->|Ne]; [|eexists _, _; split; reflexivity]. exfalso. specialize (K eq_refl q eq_refl). congruence.
  Qed.
  Lemma comb : forall (f : nat -> nat) (V : nat -> A) (y : list A) ks G pos off a, (forall k, In k ks -> (f k =? G) = (k =? pos)) -> (forall j, a <= j < a + length ks -> nth (off + j) y zero = V j) ->
      total (map (fun p => nth (snd p) y zero) (filter (fun p => fst p =? G) (combine (map f ks) (map (fun j => off + j) (seq a (length ks)))))) =
      total (map (fun jk => V (fst jk)) (filter (fun jk => snd jk =? pos) (combine (seq a (length ks)) ks))).
  Proof.
    intros f V y. induction ks as [|k ks IH]; intros G pos off a Hf Hv; [reflexivity|]. cbn [map length seq combine filter fst snd]. rewrite (Hf k (or_introl eq_refl)).
    assert (E := IH G pos off (S a) (fun k' I => Hf k' (or_intror I)) ltac:(intros j H; apply Hv; cbn [length]; lia)).
    destruct (k =? pos); cbn [map fst snd]; rewrite ?total_cons; rewrite E; [|reflexivity]. f_equal. apply Hv. cbn [length]. lia.
  Qed.
  Lemma comb0 : forall (f : nat -> nat) (y : list A) ks G ts, (forall k, In k ks -> f k <> G) -> total (map (fun p => nth (snd p) y zero) (filter (fun p => fst p =? G) (combine (map f ks) ts))) = zero.
  Proof.
    intros f y. induction ks as [|k ks IH]; intros G ts H; [reflexivity|]. destruct ts as [|t ts]; [reflexivity|]. cbn [map combine filter fst]. destruct (Nat.eqb_spec (f k) G) as [E|_]; [exfalso; exact (H k (or_introl eq_refl) E)|]. apply IH. intros k' I. apply H. right. exact I.
  Qed.
  Definition hit (y : list A) (given : bool) (c : conn) (G r : nat) : A := total (map (fun p => nth (snd p) y zero) (filter (fun p => fst p =? G) (back given c r))).

  Lemma taken_all : forall c given, rev_ok w c given -> given = false -> forall x, x < nranks w -> taken w x (c_p c) = seq 0 (whole_size w (c_u c)).
  Proof.
    intros c given (Ou & Op & C & G & D & T & N & K & M) -> x Lx. unfold taken. specialize (G x Lx). rewrite (N eq_refl x Lx). destruct (p_idx (P w x (c_p c))); [discriminate|reflexivity].
  Qed.
  Lemma copy_size : forall c given r, rev_ok w c given -> spread w (c_u c) = false -> r < nranks w -> u_local (U w r (c_u c)) = true -> cell us r (c_u c) = whole_size w (c_u c).
  Proof.
    intros c given r (Ou & Op & C & _) Sp Lr Lu. destruct (C Sp) as (n & Cn). rewrite us_cell, Lu, (Cn r Lr Lu). unfold whole_size. rewrite Sp. destruct (u_owner w (c_u c)) as [q|] eqn:E; [|contradiction]. destruct (find_seq _ _ _ E) as (A1 & A2 & _). symmetry. apply Cn; assumption.
  Qed.
  Lemma hit_other : forall y given c r0 u0 k r, rev_ok w c given -> r < nranks w -> c_u c <> u0 -> k < cell us r0 u0 -> hit y given c (offset us r0 u0 + k) r = zero.
  Proof.
    intros y given c r0 u0 k r Ok_ Lr Nu Lk. pose proof Ok_ as (Ou & Op & C & G & D & T & N & K & M). unfold hit, back.
    assert (HE : forall ks, (forall x, In x ks -> x < whole_size w (c_u c)) -> forall x, In x ks -> he w (c_u c) x <> offset us r0 u0 + k).
    { intros ks B x I E. destruct (home_exists w (c_u c) x (B x I)) as (q & j & H). rewrite (he_home w _ _ _ _ H) in E. apply offset_inj in E; [|apply H|exact Lk]. tauto. }
    destruct given.
    - destruct (p_local (P w r (c_p c))) eqn:Lp; [|reflexivity]. apply comb0. apply HE. apply (T r Lr Lp).
    - destruct (p_owner w (c_p c)) as [q|] eqn:Eo; [|reflexivity]. destruct (find_seq _ _ _ Eo) as (Lq & Lqn & _).
      destruct (spread w (c_u c)) eqn:Sp.
      + destruct (r =? q); [|reflexivity]. apply comb0. apply HE. apply (T q Lqn Lq).
      + destruct (u_local (U w r (c_u c))) eqn:Lu; [|reflexivity]. apply comb0. intros x I E. rewrite Nat.add_comm in E. apply offset_inj in E; [tauto| |exact Lk]. rewrite (copy_size c false r Ok_ Sp Lr Lu). apply (T q Lqn Lq). exact I.
  Qed.
  (** the entries that come from a slot are those taken from its position *)
  Lemma he_slot : forall u r k x, (spread w u = false -> u_owner w u = Some r) -> r < nranks w -> k < cell us r u -> x < whole_size w u -> (he w u x =? offset us r u + k) = (x =? position w r u k).
  Proof.
    intros u r k x Ow Lr Lk Lx. destruct (home_exists w u x Lx) as (q & j & H). rewrite (he_home w _ _ _ _ H).
    assert (Hr : home w u (position w r u k) r k). { unfold home, position. split; [exact Lr|]. split; [exact Lk|]. destruct (spread w u); [reflexivity|]. auto. }
    destruct (Nat.eqb_spec x (position w r u k)) as [->|Nx].
    - apply Nat.eqb_eq. rewrite <- (he_home w _ _ _ _ H), <- (he_home w _ _ _ _ Hr). reflexivity.
    - apply Nat.eqb_neq. intros E. apply offset_inj in E; [|apply H|exact Lk]. destruct E as (-> & _ & ->). apply Nx. apply home_pos. exact H.
  Qed.
  Lemma hits : forall vp given c r0 k, rev_ok w c given -> shaped ps vp -> r0 < nranks w -> u_local (U w r0 (c_u c)) = true -> k < cell us r0 (c_u c) ->
      total (map (hit (concat vp) given c (offset us r0 (c_u c) + k)) (seq 0 (nranks w))) = share zero add w given vp c r0 k.
  Proof.
    intros vp given c r0 k Ok_ Sh L0 Lu Lk. pose proof Ok_ as (Ou & Op & C & G & D & T & N & K & M). unfold share.
    assert (Cp : forall q, p_local (P w q (c_p c)) = true -> q < nranks w -> forall j, 0 <= j < 0 + length (taken w q (c_p c)) -> nth (offset ps q (c_p c) + j) (concat vp) zero = nth j (value ps vp q (c_p c)) zero).
    { intros q Lp Lq j H. apply value_at; [exact Sh|]. rewrite ps_cell, Lp. rewrite (proj1 (T q Lq Lp)) in H. lia. }
    destruct given.
    - rewrite <- (total_filter zero add add_zero). f_equal. apply map_ext_in. intros q Iq. apply in_seq in Iq. unfold hit, back. destruct (p_local (P w q (c_p c))) eqn:Lp; [|reflexivity].
      apply (comb _ (fun j => nth j (value ps vp q (c_p c)) zero)); [|apply Cp; [exact Lp|lia]]. intros x I. apply he_slot; [|exact L0|exact Lk|apply (proj2 (T q ltac:(lia) Lp)); exact I]. intros Sp. exact (M eq_refl Sp r0 L0 Lu).
    - destruct (p_owner w (c_p c)) as [q|] eqn:Eo; [|contradiction]. destruct (find_seq _ _ _ Eo) as (Lq & Lqn & _).
      destruct (spread w (c_u c)) eqn:Sp.
      + transitivity (total (map (fun r => if r =? q then hit (concat vp) false c (offset us r0 (c_u c) + k) r else zero) (seq 0 (nranks w)))).
        * f_equal. apply map_ext. intros r. unfold hit, back. rewrite Eo, Sp. destruct (r =? q); reflexivity.
        * rewrite (total_one zero add add_comm add_zero) by lia. unfold hit, back. rewrite Eo, Sp, Nat.eqb_refl. apply (comb _ (fun j => nth j (value ps vp q (c_p c)) zero)); [|apply Cp; assumption]. intros x I. apply he_slot; [congruence|exact L0|exact Lk|apply (proj2 (T q Lqn Lq)); exact I].
      + transitivity (total (map (fun r => if r =? r0 then hit (concat vp) false c (offset us r0 (c_u c) + k) r else zero) (seq 0 (nranks w)))).
        * f_equal. apply map_ext_in. intros r Ir. apply in_seq in Ir. destruct (Nat.eqb_spec r r0) as [->|Ne]; [reflexivity|]. unfold hit, back. rewrite Eo, Sp. destruct (u_local (U w r (c_u c))) eqn:Lr; [|reflexivity]. apply comb0. intros x I E. rewrite Nat.add_comm in E. apply offset_inj in E; [tauto| |exact Lk]. rewrite (copy_size c false r Ok_ Sp ltac:(lia) Lr). apply (proj2 (T q Lqn Lq)). exact I.
        * rewrite (total_one zero add add_comm add_zero) by lia. unfold hit, back. rewrite Eo, Sp, Lu. apply (comb _ (fun j => nth j (value ps vp q (c_p c)) zero)); [|apply Cp; assumption]. intros x I. unfold position. rewrite Sp. destruct (Nat.eqb_spec x k) as [->|Nx]; [apply Nat.eqb_eq; lia|apply Nat.eqb_neq; lia].
  Qed.

  Variable given : conn -> bool.
  Lemma back_rank : forall junk r cs, r < nranks w -> (forall c, In c cs -> rev_ok w c (given c)) -> rank_pairs w junk Rev r cs = Ok (flat_map (fun c => back (given c) c r) cs).
  Proof.
    intros junk r cs Lr. induction cs as [|c cs IH]; intros F; [reflexivity|]. cbn [rank_pairs flat_map]. destruct (rev_idxs junk c (given c) r (F c (or_introl eq_refl)) Lr) as (ss & ts & E & B). rewrite E. cbn [bind fst snd]. rewrite IH by (intros c' I; apply F; right; exact I). cbn [bind]. rewrite B. reflexivity.
  Qed.
  Lemma back_pairs : forall junk cs ranks, (forall r, In r ranks -> r < nranks w) -> (forall c, In c cs -> rev_ok w c (given c)) -> pairs_from w junk Rev cs ranks = Ok (flat_map (fun r => flat_map (fun c => back (given c) c r) cs) ranks).
  Proof.
    intros junk cs. induction ranks as [|r ranks IH]; intros R F; [reflexivity|]. cbn [pairs_from flat_map]. rewrite (back_rank junk r cs (R r (or_introl eq_refl)) F). cbn [bind]. rewrite IH by (try exact F; intros q I; apply R; right; exact I). reflexivity.
  Qed.
  Lemma filter_flat : forall {B C : Type} (t : C -> bool) (f : B -> list C) l, filter t (flat_map f l) = flat_map (fun x => filter t (f x)) l.
  Proof. induction l as [|x l IH]; [reflexivity|]. cbn [flat_map]. rewrite filter_app, IH. reflexivity. Qed.
  Lemma total_flat : forall {B C : Type} (h : C -> A) (f : B -> list C) l, total (map h (flat_map f l)) = total (map (fun x => total (map h (f x))) l).
  Proof. induction l as [|x l IH]; [reflexivity|]. cbn [flat_map map]. rewrite map_app, (total_app zero add add_assoc add_zero), total_cons, IH. reflexivity. Qed.
  Lemma back_bounds : forall c r s t (vu vp : list (list A)), rev_ok w c (given c) -> r < nranks w -> shaped us vu -> shaped ps vp -> In (s, t) (back (given c) c r) -> s < length (concat vu) /\ t < length (concat vp).
  Proof.
    intros c r s t vu vp Ok_ Lr Su Sp I. pose proof Ok_ as (Ou & Op & C & G & D & T & N & K & M). unfold back in I.
    assert (HE : forall q, q < nranks w -> p_local (P w q (c_p c)) = true -> In (s, t) (combine (map (he w (c_u c)) (taken w q (c_p c))) (map (fun j => offset ps q (c_p c) + j) (seq 0 (length (taken w q (c_p c)))))) -> s < length (concat vu) /\ t < length (concat vp)).
    { intros q Lq Lp J. pose proof (in_combine_l _ _ _ _ J) as J1. pose proof (in_combine_r _ _ _ _ J) as J2. apply in_map_iff in J1, J2. destruct J1 as (x & <- & Ix). destruct J2 as (j & <- & Ij). apply in_seq in Ij. destruct (T q Lq Lp) as [Len B]. split.
      - destruct (home_exists w (c_u c) x (B x Ix)) as (a & b & H). rewrite (he_home w _ _ _ _ H). apply offset_bound; [exact Su|apply H].
      - apply offset_bound; [exact Sp|]. rewrite ps_cell, Lp. lia. }
    destruct (given c).
    - destruct (p_local (P w r (c_p c))) eqn:Lp; [|destruct I]. exact (HE r Lr Lp I).
    - destruct (p_owner w (c_p c)) as [q|] eqn:Eo; [|destruct I]. destruct (find_seq _ _ _ Eo) as (Lq & Lqn & _). destruct (spread w (c_u c)) eqn:Sd.
      + destruct (r =? q); [|destruct I]. exact (HE q Lqn Lq I).
      + destruct (u_local (U w r (c_u c))) eqn:Lu; [|destruct I]. pose proof (in_combine_l _ _ _ _ I) as J1. pose proof (in_combine_r _ _ _ _ I) as J2. apply in_map_iff in J1, J2. destruct J1 as (x & <- & Ix). destruct J2 as (j & <- & Ij). apply in_seq in Ij. destruct (T q Lqn Lq) as [Len B]. split.
        * rewrite Nat.add_comm. apply offset_bound; [exact Su|]. rewrite (copy_size c false r Ok_ Sd Lr Lu). apply B. exact Ix.
        * apply offset_bound; [exact Sp|]. rewrite ps_cell, Lq. lia.
  Qed.
  Lemma perm_filter : forall {B : Type} (t : B -> bool) a b, Permutation a b -> Permutation (filter t a) (filter t b).
  Proof. induction 1; cbn [filter]; [constructor|destruct (t x); [constructor|]; assumption|destruct (t x), (t y); try apply Permutation_refl; apply perm_swap|eapply perm_trans; eassumption]. Qed.

  Lemma rev_main : forall junk order name conns vu vp, shaped us vu -> shaped ps vp -> (forall c, In c (xfer Rev name conns) -> rev_ok w c (given c)) -> (forall l, Permutation (order l) l) ->
      exists vu', transfer zero add w junk order Rev name conns vu vp = Ok (vu', vp) /\ shaped us vu' /\
        forall r u k, r < nranks w -> k < cell us r u ->
          nth k (value us vu' r u) zero = add (nth k (value us vu r u) zero) (total (map (fun c => share zero add w (given c) vp c r k) (filter (fun c => c_u c =? u) (xfer Rev name conns)))).
  Proof.
    intros junk order name conns vu vp Su Sp F Or. unfold transfer. set (cs := xfer Rev name conns) in *.
    rewrite back_pairs; [|intros r I; apply in_seq in I; lia|exact F]. cbn [bind]. set (l := flat_map _ (seq 0 (nranks w))).
    replace (forallb _ l) with true.
    2:{ symmetry. apply forallb_forall. intros [s t] I. unfold l in I. apply in_flat_map in I. destruct I as (r & Ir & I). apply in_seq in Ir. apply in_flat_map in I. destruct I as (c & Ic & I).
        destruct (back_bounds c r s t vu vp (F c Ic) ltac:(lia) Su Sp I) as [B1 B2]. cbn [fst snd]. apply andb_true_iff. split; apply Nat.ltb_lt; assumption. }
    set (g := add_pairs zero add (order l) (concat vu) (concat vp)). set (vu' := split (map (fun v : list A => length v) vu) g).
    assert (G : length g = list_sum (map (fun v : list A => length v) vu)) by (unfold g; rewrite adds_length; apply concat_length).
    destruct (split_concat _ g G) as [C1 C2]. fold vu' in C1, C2. assert (Su' : shaped us vu') by (unfold shaped; rewrite C2; exact Su).
    exists vu'. split; [reflexivity|]. split; [exact Su'|]. intros r u k Lr Lk.
    rewrite <- (value_at zero _ _ _ _ _ Su' Lk), C1. rewrite <- (value_at zero _ _ _ _ _ Su Lk). unfold g. rewrite (adds_at zero add add_comm add_assoc add_zero) by (apply offset_bound; assumption). f_equal.
    rewrite (total_perm zero add add_comm add_assoc _ _ (Permutation_map _ (perm_filter _ _ _ (Or l)))).
    unfold l. rewrite filter_flat, total_flat. rewrite (map_ext _ (fun r' => total (map (fun c => hit (concat vp) (given c) c (offset us r u + k) r') cs))) by (intros r'; rewrite filter_flat, total_flat; reflexivity).
    rewrite (total_swap zero add add_comm add_assoc add_zero (fun r' c => hit (concat vp) (given c) c (offset us r u + k) r')).
    rewrite <- (total_filter zero add add_zero). f_equal. apply map_ext_in. intros c Ic. destruct (Nat.eqb_spec (c_u c) u) as [<-|Ne].
    - apply hits; [exact (F c Ic)|exact Sp|exact Lr| |exact Lk]. rewrite us_cell in Lk. destruct (u_local (U w r (c_u c))); [reflexivity|lia].
    - apply (total_zeros zero add add_zero). intros r' Ir. apply in_seq in Ir. apply hit_other; [exact (F c Ic)|lia|exact Ne|exact Lk].
  Qed.
End Back.

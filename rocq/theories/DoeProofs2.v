(** Latin hypercubes. *)
From Coq Require Import Permutation Lqa Qfield Qabs.
From Verif Require Import Base DoeModel DoeSpec DoeProofs.
Local Open Scope nat_scope.

(** ** random designs *)
Lemma rand_lhc_latin : forall n shuffles, (forall i row, Permutation (shuffles i row) row) ->
    forall k i row, Permutation row (seq 0 n) -> latin n (rand_lhc k shuffles i row) /\ length (rand_lhc k shuffles i row) = k.
Proof.
  intros n sh H. induction k as [|k IH]; intros i row Hr; [split; [constructor|reflexivity]|].
  assert (P : Permutation (sh i row) (seq 0 n)) by (etransitivity; [apply H|exact Hr]).
  destruct (IH (S i) _ P) as [I1 I2]. cbn [rand_lhc length]. split; [constructor; assumption|congruence].
Qed.

(** ** exchanges *)
Lemma set_at_length : forall A (l : list A) i x, length (set_at l i x) = length l.
Proof. induction l as [|a l IH]; intros [|i] x; cbn; try reflexivity. rewrite IH. reflexivity. Qed.
Lemma set_at_same : forall A (l : list A) i x d, i < length l -> nth i (set_at l i x) d = x.
Proof. induction l as [|a l IH]; intros [|i] x d H; cbn in *; try lia; [reflexivity|]. apply IH. lia. Qed.
Lemma set_at_other : forall A (l : list A) i j x d, i <> j -> nth j (set_at l i x) d = nth j l d.
Proof.
  induction l as [|a l IH]; intros [|i] [|j] x d H; cbn; try reflexivity; try congruence. apply IH. congruence.
Qed.

Definition hit (a b : nat) : nat := if Nat.eq_dec a b then 1 else 0.
Lemma count_set_at : forall l i x v, i < length l ->
    count_occ Nat.eq_dec (set_at l i x) v + hit (nth i l 0) v = count_occ Nat.eq_dec l v + hit x v.
Proof.
  induction l as [|a l IH]; intros [|i] x v H; cbn [length] in H; try lia.
  - cbn [set_at count_occ nth]. unfold hit. destruct (Nat.eq_dec x v), (Nat.eq_dec a v); lia.
  - cbn [set_at count_occ nth]. specialize (IH i x v ltac:(lia)). destruct (Nat.eq_dec a v); lia.
Qed.

Lemma swap_perm : forall l i j, i <> j -> i < length l -> j < length l ->
    Permutation (set_at (set_at l i (nth j l 0)) j (nth i l 0)) l.
Proof.
  intros l i j Hij Hi Hj. apply (Permutation_count_occ Nat.eq_dec). intros v.
  pose proof (count_set_at (set_at l i (nth j l 0)) j (nth i l 0) v ltac:(rewrite set_at_length; exact Hj)) as A.
  pose proof (count_set_at l i (nth j l 0) v Hi) as B.
  rewrite set_at_other in A by exact Hij. lia.
Qed.

Lemma latin_set : forall n d j c, latin n d -> Permutation c (seq 0 n) -> latin n (set_at d j c).
Proof.
  intros n d j c H Hc. revert j. induction H as [|x d Hx H IH]; intros [|j]; cbn; try constructor; auto. apply IH.
Qed.
Lemma latin_col : forall n d j, latin n d -> j < length d -> Permutation (nth j d []) (seq 0 n).
Proof. intros n d j H Hj. unfold latin in H. rewrite Forall_forall in H. apply H. apply nth_In. exact Hj. Qed.

Lemma other_diff : forall el1 l x, other el1 l = Some x -> x <> el1 /\ In x l.
Proof.
  intros el1. induction l as [|y l IH]; intros x H; [discriminate|]. cbn in H. destruct (Nat.eqb_spec y el1).
  - destruct (IH _ H). split; [assumption|right; assumption].
  - injection H as <-. split; [assumption|left; reflexivity].
Qed.

Lemma cell_other : forall d i j x i' j', (j, i) <> (j', i') -> cell (set_cell d i j x) i' j' = cell d i' j'.
Proof.
  intros d i j x i' j' H. unfold cell, set_cell. destruct (Nat.eq_dec j j') as [->|Hj].
  - destruct (Nat.lt_ge_cases j' (length d)) as [Hl|Hl].
    + rewrite set_at_same by exact Hl. apply set_at_other. congruence.
    + rewrite (nth_overflow (set_at d j' _)) by (rewrite set_at_length; exact Hl). rewrite (nth_overflow d) by exact Hl. reflexivity.
  - rewrite set_at_other by exact Hj. reflexivity.
Qed.

Lemma set_cell_length : forall d i j x, length (set_cell d i j x) = length d.
Proof. intros. apply set_at_length. Qed.

Lemma swap_latin : forall n d i1 i2 j, latin n d -> j < length d -> i1 <> i2 -> i1 < n -> i2 < n ->
    latin n (set_cell (set_cell d i1 j (cell d i2 j)) i2 j (cell d i1 j)).
Proof.
  intros n d i1 i2 j H Hj Hi H1 H2. pose proof (latin_col n d j H Hj) as P. pose proof (Permutation_length P) as L. rewrite seq_length in L.
  unfold set_cell at 1. unfold set_cell. rewrite set_at_same by exact Hj. unfold cell.
  assert (E : forall (c c' : list nat), set_at (set_at d j c) j c' = set_at d j c').
  { intros c c'. clear. revert j. induction d as [|x d IH]; intros [|j]; cbn; try reflexivity. rewrite IH. reflexivity. }
  rewrite E. apply latin_set; [exact H|]. etransitivity; [apply swap_perm; [exact Hi|lia|lia]|exact P].
Qed.

Lemma exchanges_latin : forall n k doe, length doe = k -> forall m draws new d',
    latin n new -> length new = k -> Forall (draw_ok n k) draws ->
    NoDup (concat (map touched (firstn m draws))) ->
    (forall i j, In (j, i) (concat (map touched (firstn m draws))) -> cell new i j = cell doe i j) ->
    exchanges m doe new draws = Some d' -> latin n d' /\ length d' = k.
Proof.
  intros n k doe Hd. induction m as [|m IH]; intros draws new d' HL Hk HD HN HC H.
  - cbn in H. injection H as <-. split; assumption.
  - destruct draws as [|[[col el1] el2s] rest]; [discriminate|]. cbn [exchanges] in H.
    inversion HD as [|? ? Hok HD']; subst. destruct Hok as (Hcol & H1 & H2).
    cbn [firstn map concat touched] in HN, HC. destruct (other el1 el2s) as [el2|] eqn:E; [|discriminate].
    destruct (other_diff _ _ _ E) as [Hne Hin]. rewrite Forall_forall in H2. specialize (H2 _ Hin).
    cbn [app] in HN, HC.
    rewrite <- (HC el2 col) in H by (right; left; reflexivity). rewrite <- (HC el1 col) in H by (left; reflexivity).
    inversion HN as [|? ? N1 HN1]; subst. inversion HN1 as [|? ? N2 HN2]; subst.
    apply IH in H; [exact H| |rewrite !set_cell_length; exact Hk|exact HD'|exact HN2|].
    + apply swap_latin; try assumption; [lia|congruence].
    + intros i j Hij. rewrite !cell_other.
      * apply HC. right. right. exact Hij.
      * intros Ec. apply N1. right. congruence.
      * intros Ec. apply N2. congruence.
Qed.

Lemma perturb_latin_l : forall n m doe draws d', latin n doe -> Forall (draw_ok n (length doe)) draws ->
    NoDup (concat (map touched (firstn m draws))) -> perturb m doe draws = Some d' -> latin n d' /\ length d' = length doe.
Proof.
  intros n m doe draws d' HL HD HN H. apply (exchanges_latin n (length doe) doe eq_refl m draws doe d'); auto.
Qed.

Lemma touched_nodup : forall d, NoDup (touched d).
Proof.
  intros [[col el1] el2s]. cbn [touched]. destruct (other el1 el2s) as [el2|] eqn:E.
  - destruct (other_diff _ _ _ E). constructor; [intros [K|[]]; congruence|constructor; [intros []|constructor]].
  - constructor; [intros []|constructor].
Qed.
Lemma one_exchange : forall m draws, m <= 1 -> NoDup (concat (map touched (firstn m draws))).
Proof.
  intros [|[|m]] [|d draws] H; try lia; cbn [firstn map concat]; try constructor. rewrite app_nil_r. apply touched_nodup.
Qed.

Lemma exchanges_none : forall k n m doe new draws, n <= 1 -> Forall (draw_ok n k) draws -> 0 < m -> exchanges m doe new draws = None.
Proof.
  intros k n [|m] doe new [|[[col el1] el2s] rest] Hn HD Hm; try lia; [reflexivity|]. cbn [exchanges].
  inversion HD as [|? ? Hok _]; subst. destruct Hok as (H0 & H1 & H2). destruct (other el1 el2s) as [x|] eqn:E; [|reflexivity].
  destruct (other_diff _ _ _ E) as [A B]. rewrite Forall_forall in H2. specialize (H2 _ B). lia.
Qed.

(** ** the search *)
Definition calm (n : nat) rnd (draws : nat -> nat -> list draw) (cols generations : nat) : Prop :=
  forall it k, NoDup (concat (map touched (firstn (mutations rnd cols generations it) (draws it k)))).

Section Latin.
  Variable better : design -> design -> bool.
  Variable rnd : Q -> Z.
  Variable draws : nat -> nat -> list draw.

  Lemma offspring_latin : forall n cols m it, (forall a b, Forall (draw_ok n cols) (draws a b)) ->
      (forall k, NoDup (concat (map touched (firstn m (draws it k))))) ->
      forall count k best improved d', latin n best -> length best = cols -> latin n improved -> length improved = cols ->
      offspring better draws m it k count best improved = Some d' -> latin n d' /\ length d' = cols.
  Proof.
    intros n cols m it HD HN. induction count as [|c IH]; intros k best improved d' HB Hb HI Hi H; cbn in H.
    - injection H as <-. split; assumption.
    - destruct (perturb m best (draws it k)) as [x|] eqn:E; [|discriminate].
      destruct (perturb_latin_l n m best _ x HB ltac:(rewrite Hb; apply HD) (HN k) E) as [X1 X2].
      apply IH in H; auto; destruct (better x improved); congruence.
  Qed.

  Lemma loop_latin : forall n cols population generations, (forall a b, Forall (draw_ok n cols) (draws a b)) ->
      calm n rnd draws cols generations ->
      forall count it best d', latin n best -> length best = cols ->
      generations_loop better rnd draws cols population generations it count best = Some d' -> latin n d' /\ length d' = cols.
  Proof.
    intros n cols population generations HD HN. induction count as [|c IH]; intros it best d' HB Hb H; cbn in H.
    - injection H as <-. split; assumption.
    - destruct (offspring better draws (mutations rnd cols generations it) it 0 population best best) as [x|] eqn:E; [|discriminate].
      destruct (offspring_latin n cols _ it HD (HN it) _ _ _ _ _ HB Hb HB Hb E) as [X1 X2].
      apply IH in H; auto; destruct (better x best); congruence.
  Qed.

  (** the criterion never gets worse *)
  Variable phi : design -> Q.
  Hypothesis better_phi : forall a b, better a b = true -> (phi a < phi b)%Q.
  Lemma offspring_phi : forall m it count k best improved d', (phi improved <= phi best)%Q ->
      offspring better draws m it k count best improved = Some d' -> (phi d' <= phi improved)%Q.
  Proof.
    intros m it. induction count as [|c IH]; intros k best improved d' HP H; cbn in H.
    - injection H as <-. apply Qle_refl.
    - destruct (perturb m best (draws it k)) as [x|] eqn:E; [|discriminate]. destruct (better x improved) eqn:B.
      + apply better_phi in B. apply IH in H; lra.
      + apply IH in H; lra.
  Qed.
  Lemma loop_phi : forall cols population generations count it best d',
      generations_loop better rnd draws cols population generations it count best = Some d' -> (phi d' <= phi best)%Q.
  Proof.
    intros cols population generations. induction count as [|c IH]; intros it best d' H; cbn in H.
    - injection H as <-. apply Qle_refl.
    - destruct (offspring better draws (mutations rnd cols generations it) it 0 population best best) as [x|] eqn:E; [|discriminate].
      apply IH in H. destruct (better x best) eqn:B; [apply better_phi in B; lra|exact H].
  Qed.
End Latin.

Lemma level_off_small : forall g, g <= 2 -> level_off g <= 1.
Proof. intros [|[|[|g]]] H; try lia; vm_compute; lia. Qed.

Lemma mutations_one : forall (rnd : Q -> Z) cols generations it,
    (forall q, Qabs (inject_Z (rnd q) - q) <= 1 # 2)%Q -> generations <= 2 \/ cols <= 2 ->
    mutations rnd cols generations it <= 1.
Proof.
  intros rnd cols g it HR H. unfold mutations. destruct (it <? level_off g) eqn:E1; cbn [andb]; [|lia].
  destruct (1 <? level_off g) eqn:E2; [|lia]. apply Nat.ltb_lt in E1, E2.
  destruct H as [H|H]; [apply level_off_small in H; lia|].
  match goal with |- Z.to_nat (rnd ?q) <= 1 => assert (HQ : (q <= 1)%Q); [|specialize (HR q); set (r := rnd q) in *] end.
  - assert (A : (0 <= inject_Z (Z.of_nat (level_off g - it)))%Q) by (change 0%Q with (inject_Z 0); rewrite <- Zle_Qle; lia).
    assert (B : (0 < inject_Z (Z.of_nat (level_off g - 1)))%Q) by (change 0%Q with (inject_Z 0); rewrite <- Zlt_Qlt; lia).
    assert (C : (inject_Z (Z.of_nat cols) <= 2)%Q) by (change 2%Q with (inject_Z 2); rewrite <- Zle_Qle; lia).
    set (a := inject_Z (Z.of_nat (level_off g - it))) in *. set (b := inject_Z (Z.of_nat (level_off g - 1))) in *. set (c := inject_Z (Z.of_nat cols)) in *.
    assert (D : (((1 # 2) * c - 1) * a / b <= 0)%Q).
    { apply Qle_shift_div_r; [exact B|]. nra. }
    lra.
  - apply Qabs_Qle_condition in HR. assert (K : (inject_Z r < 2)%Q) by lra. change 2%Q with (inject_Z 2) in K. rewrite <- Zlt_Qlt in K. lia.
Qed.

Lemma best_of_latin : forall better rnd draws n cols start population generations,
    (forall q a b, Forall (draw_ok n cols) (draws q a b)) -> (forall q, calm n rnd (draws q) cols generations) ->
    latin n start -> length start = cols ->
    forall qs best bq d', latin n best -> length best = cols ->
    best_of better rnd draws start population generations qs best bq = Some d' -> latin n d' /\ length d' = cols.
Proof.
  intros better rnd draws n cols start population generations HD HN HS Hs. induction qs as [|q qs IH]; intros best bq d' HB Hb H; cbn in H.
  - injection H as <-. split; assumption.
  - unfold mmlhs in H. destruct (generations_loop _ _ _ _ _ _ _ _ _) as [x|] eqn:E; [|discriminate]. rewrite Hs in E.
    destruct (loop_latin _ _ _ n cols population generations (HD q) (HN q) _ _ _ _ HS Hs E) as [X1 X2].
    destruct (better q bq x best); apply IH in H; auto.
Qed.

Lemma all_different_iff : forall l, all_different l = true <-> NoDup l.
Proof.
  induction l as [|x l IH]; [split; [constructor|reflexivity]|]. cbn. rewrite Bool.andb_true_iff, IH, Bool.negb_true_iff. split.
  - intros [H1 H2]. constructor; [|exact H2]. intros Hin. assert (K : existsb (Nat.eqb x) l = true).
    { apply existsb_exists. exists x. split; [exact Hin|apply Nat.eqb_refl]. } congruence.
  - intros H. inversion H as [|? ? H1 H2]; subst. split; [|exact H2]. destruct (existsb (Nat.eqb x) l) eqn:E; [|reflexivity].
    apply existsb_exists in E. destruct E as (y & Hy & Ey). apply Nat.eqb_eq in Ey. subst y. contradiction.
Qed.

Lemma is_latin_iff : forall n d, Forall (fun c => length c = n /\ Forall (fun x => x < n) c) d -> (is_latin_hypercube d = true <-> latin n d).
Proof.
  intros n d H. unfold is_latin_hypercube, latin. rewrite forallb_forall, Forall_forall. rewrite Forall_forall in H. split.
  - intros K c Hc. apply K in Hc as Hd. apply all_different_iff in Hd. destruct (H c Hc) as [L F]. apply NoDup_Permutation_bis; [exact Hd|rewrite seq_length; lia|].
    intros x Hx. rewrite Forall_forall in F. apply F in Hx. apply in_seq. lia.
  - intros K c Hc. apply all_different_iff. apply (Permutation_NoDup (l := seq 0 n)); [symmetry; apply K; exact Hc|apply seq_NoDup].
Qed.

(** ** buckets *)
Lemma removelast_nth : forall A (l : list A) i d, S i < length l -> nth i (removelast l) d = nth i l d.
Proof.
  induction l as [|a l IH]; intros i d H; cbn [length] in H; [lia|]. destruct l as [|b l]; [cbn in H; lia|].
  destruct i as [|i]; [reflexivity|]. change (removelast (a :: b :: l)) with (a :: removelast (b :: l)). cbn [nth]. apply (IH i d). lia.
Qed.
Lemma removelast_length : forall A (l : list A), length (removelast l) = length l - 1.
Proof.
  induction l as [|a l IH]; [reflexivity|]. destruct l as [|b l]; [reflexivity|].
  change (removelast (a :: b :: l)) with (a :: removelast (b :: l)). cbn [length] in *. lia.
Qed.

Lemma linspace_at : forall lo hi n k, k < n -> (nth k (linspace lo hi n) 0 == level n (lo, hi) k)%Q.
Proof.
  intros lo hi n k H. destruct (linspace_in lo hi n k H) as (x & Hx & He). rewrite (nth_error_nth _ _ 0%Q Hx). exact He.
Qed.

Lemma buckets_length : forall n lo hi, length (get_buckets n lo hi) = n.
Proof.
  intros. unfold get_buckets. rewrite combine_length, removelast_length. assert (T : forall A (l : list A), length (tl l) = length l - 1) by (intros A [|a l]; cbn; lia).
  rewrite T, linspace_length. lia.
Qed.

Lemma bucket_at : forall n lo hi l, l < n ->
    (fst (nth l (get_buckets n lo hi) (0, 0)) == level (S n) (lo, hi) l)%Q /\ (snd (nth l (get_buckets n lo hi) (0, 0)) == level (S n) (lo, hi) (S l))%Q.
Proof.
  intros n lo hi l H. unfold get_buckets. rewrite Nat.add_1_r.
  assert (T : forall A (w : list A) i d, nth i (tl w) d = nth (S i) w d) by (intros A [|a w] [|i] d; reflexivity).
  assert (T' : forall A (w : list A), length (tl w) = length w - 1) by (intros A [|a w]; cbn; lia).
  rewrite combine_nth by (rewrite removelast_length, T'; reflexivity). cbn [fst snd].
  rewrite removelast_nth by (rewrite linspace_length; lia). rewrite T. split; apply linspace_at; lia.
Qed.

Definition sel (n : nat) (bc : (Q * Q) * list nat) : list (Q * Q) :=
  map (fun i => nth (nth i (snd bc) 0) (get_buckets n (fst (fst bc)) (snd (fst bc))) (0, 0)%Q) (seq 0 n).

Lemma perm_lt : forall n c i, Permutation c (seq 0 n) -> i < n -> nth i c 0 < n.
Proof.
  intros n c i P Hi. pose proof (Permutation_length P) as L. rewrite seq_length in L.
  assert (K : In (nth i c 0) (seq 0 n)) by (apply (Permutation_in _ P); apply nth_In; lia). apply in_seq in K. lia.
Qed.

Lemma chosen_ok : forall n b c, Permutation c (seq 0 n) -> chosen n (get_buckets n (fst b) (snd b)) c = Ok (sel n (b, c)).
Proof.
  intros n b c P. unfold chosen, sel. apply map_res_ok. apply Forall_forall. intros i Hi. apply in_seq in Hi. cbn [fst snd].
  rewrite (nth_error_nth' _ (0, 0)%Q); [reflexivity|]. rewrite buckets_length. apply perm_lt; [exact P|lia].
Qed.

Lemma choose_ok : forall n bds cols, latin n cols -> length bds <= length cols ->
    choose_buckets n (map (fun b => get_buckets n (fst b) (snd b)) bds) cols = Ok (map (sel n) (combine bds cols), skipn (length bds) cols).
Proof.
  intros n. induction bds as [|b bds IH]; intros cols HL Hk; [reflexivity|]. destruct cols as [|c cols]; [cbn in Hk; lia|].
  inversion HL as [|? ? Hc HL']; subst. cbn [map choose_buckets length combine skipn].
  rewrite (chosen_ok n b c Hc), (IH cols HL') by (cbn in Hk; lia). reflexivity.
Qed.

Lemma latin_skip : forall n m d, latin n d -> latin n (skipn m d).
Proof. intros n m d H. unfold latin in *. rewrite Forall_forall in *. intros c Hc. apply H. rewrite <- (firstn_skipn m d). apply in_or_app. right. exact Hc. Qed.

Lemma combine_app_l : forall A B (a a' : list A) (b : list B), length a <= length b -> combine (a ++ a') b = combine a b ++ combine a' (skipn (length a) b).
Proof. induction a as [|x a IH]; intros a' b H; [reflexivity|]. destruct b as [|y b]; [cbn in H; lia|]. cbn. rewrite IH by (cbn in H; lia). reflexivity. Qed.

Lemma all_buckets_ok : forall n dvs cols, Forall dv_ok dvs -> latin n cols -> length (all_bounds dvs) <= length cols ->
    exists bs, all_buckets n dvs cols = Ok bs /\
      Forall2 (fun v (nb : string * list (list (Q * Q))) => fst nb = dv_name v /\ length (snd nb) = dv_size v) dvs bs /\
      flat_map snd bs = map (sel n) (combine (all_bounds dvs) cols).
Proof.
  intros n dvs cols HF. revert cols. induction HF as [|v dvs Hv HF IH]; intros cols HL Hk.
  - exists []. repeat split; constructor.
  - unfold all_bounds in *. cbn [flat_map] in *. rewrite app_length in Hk.
    destruct (IH (skipn (length (var_bounds v)) cols) (latin_skip _ _ _ HL) ltac:(rewrite skipn_length; lia)) as (bs & E & F & G).
    exists ((dv_name v, map (sel n) (combine (var_bounds v) cols)) :: bs). cbn [all_buckets].
    rewrite entries_all by exact Hv. cbn [bind]. rewrite choose_ok by (try exact HL; lia). cbn [bind fst snd]. rewrite E. split; [reflexivity|]. split.
    + constructor; [|exact F]. cbn [fst snd]. split; [reflexivity|]. rewrite map_length, combine_length. unfold var_bounds at 1. rewrite map_length, seq_length.
      unfold var_bounds in Hk. rewrite map_length, seq_length in Hk. lia.
    + cbn [flat_map snd]. rewrite G. rewrite <- map_app. rewrite combine_app_l by lia. reflexivity.
Qed.

Definition run_at (bs : list (string * list (list (Q * Q)))) (u : nat -> string -> nat -> Q) (i : nat) : case :=
  map (fun nb : string * list (list (Q * Q)) =>
         (fst nb, map (fun kb : nat * list (Q * Q) => uniform (nth i (snd kb) (0, 0)%Q) (u i (fst nb) (fst kb)))
                      (combine (seq 0 (length (snd nb))) (snd nb)))) bs.

Lemma run_values : forall bs u i, (forall i nm k, 0 <= u i nm k < 1)%Q ->
    Forall2 (fun s x => exists w, (0 <= w < 1)%Q /\ x = uniform (nth i s (0, 0)%Q) w) (flat_map snd bs) (values (run_at bs u i)).
Proof.
  intros bs u i HU. unfold values. induction bs as [|[nm l] bs IH]; [constructor|]. cbn [run_at map flat_map snd fst]. apply Forall2_app; [|exact IH].
  generalize 0 as a. induction l as [|s l IHl]; intros a; [constructor|]. cbn [length seq combine map fst snd]. constructor; [|apply IHl].
  exists (u i nm a). split; [apply HU|reflexivity].
Qed.

Lemma run_shaped : forall dvs bs u i,
    Forall2 (fun v (nb : string * list (list (Q * Q))) => fst nb = dv_name v /\ length (snd nb) = dv_size v) dvs bs -> shaped dvs (run_at bs u i).
Proof.
  intros dvs bs u i H. unfold shaped. induction H as [|v nb dvs bs [H1 H2] H IH]; [constructor|]. cbn [run_at map]. constructor; [|exact IH].
  cbn [fst snd]. split; [exact H1|]. rewrite map_length, combine_length, seq_length, H2. lia.
Qed.

Lemma F2_nth : forall A B (R : A -> B -> Prop) a b j da db, Forall2 R a b -> j < length a -> R (nth j a da) (nth j b db).
Proof. intros A B R a b j da db H. revert j. induction H as [|x y a b Hxy H IH]; intros [|j] Hj; cbn in *; try lia; [exact Hxy|]. apply IH. lia. Qed.

Lemma uniform_in : forall n b l w, (fst b < snd b)%Q -> l < n -> (0 <= w < 1)%Q ->
    in_bucket n b l (uniform (nth l (get_buckets n (fst b) (snd b)) (0, 0)%Q) w).
Proof.
  intros n b l w Hb Hl Hw. destruct (bucket_at n (fst b) (snd b) l Hl) as [E1 E2]. unfold in_bucket, uniform.
  set (p := nth l (get_buckets n (fst b) (snd b)) (0, 0)%Q) in *. clearbody p.
  pose proof (level_strict (S n) b l (S l) Hb ltac:(lia)) as L.
  assert (S1 : level (S n) (fst b, snd b) l = level (S n) b l) by (destruct b; reflexivity).
  assert (S2 : level (S n) (fst b, snd b) (S l) = level (S n) b (S l)) by (destruct b; reflexivity).
  rewrite S1 in E1. rewrite S2 in E2. rewrite <- E1, <- E2 in *. clear E1 E2 S1 S2. split; nra.
Qed.

Lemma bucket_unique : forall n b l l' x, (fst b < snd b)%Q -> l < n -> l' < n -> in_bucket n b l x -> in_bucket n b l' x -> l = l'.
Proof.
  assert (K : forall n b l l' x, (fst b < snd b)%Q -> l < l' -> l' < n -> in_bucket n b l x -> in_bucket n b l' x -> False).
  { intros n b l l' x Hb Hl Hl' [_ H1] [H2 _]. assert (L : (level (S n) b (S l) <= level (S n) b l')%Q).
    { destruct (Nat.eq_dec (S l) l') as [->|Hne]; [apply Qle_refl|]. apply Qlt_le_weak. apply level_strict; [exact Hb|lia]. }
    apply (Qlt_irrefl x). eapply Qlt_le_trans; [exact H1|]. eapply Qle_trans; [exact L|exact H2]. }
  intros n b l l' x Hb H1 H2 I1 I2. destruct (Nat.lt_trichotomy l l') as [H|[H|H]]; [|exact H|]; exfalso; eauto.
Qed.

Lemma runlist_spec : forall n dvs cols u, Forall dv_ok dvs -> latin n cols -> length cols = length (all_bounds dvs) ->
    Forall (fun b => fst b < snd b)%Q (all_bounds dvs) -> (forall i nm k, 0 <= u i nm k < 1)%Q ->
    exists runs, lhc_runlist n dvs cols u = Ok runs /\ length runs = n /\ Forall (shaped dvs) runs /\
      (forall i j, i < n -> j < length (all_bounds dvs) ->
          in_bucket n (nth j (all_bounds dvs) (0, 0)%Q) (nth i (nth j cols []) 0) (nth j (values (nth i runs [])) 0%Q)).
Proof.
  intros n dvs cols u HF HL Hk HB HU. destruct (all_buckets_ok n dvs cols HF HL ltac:(lia)) as (bs & E & F & G).
  exists (map (run_at bs u) (seq 0 n)). split; [unfold lhc_runlist; rewrite E; reflexivity|]. split; [rewrite map_length, seq_length; reflexivity|]. split.
  - apply Forall_map. apply Forall_forall. intros i _. apply run_shaped. exact F.
  - intros i j Hi Hj. rewrite (nth_indep _ [] (run_at bs u 0)) by (rewrite map_length, seq_length; exact Hi). rewrite map_nth, seq_nth by exact Hi. cbn [Nat.add].
    pose proof (run_values bs u i HU) as V. rewrite G in V.
    assert (Lj : j < length (map (sel n) (combine (all_bounds dvs) cols))) by (rewrite map_length, combine_length; lia).
    destruct (F2_nth _ _ _ _ _ j [] 0%Q V Lj) as (w & Hw & ->).
    rewrite (nth_indep _ [] (sel n ((0, 0)%Q, []))) by exact Lj. rewrite map_nth. rewrite combine_nth by (symmetry; exact Hk). unfold sel. cbn [fst snd].
    set (b := nth j (all_bounds dvs) (0, 0)%Q). set (c := nth j cols []).
    assert (Hc : Permutation c (seq 0 n)) by (apply latin_col; [exact HL|lia]).
    rewrite (nth_indep (map _ (seq 0 n)) (0, 0)%Q ((fun i0 => nth (nth i0 c 0) (get_buckets n (fst b) (snd b)) (0, 0)%Q) 0)) by (rewrite map_length, seq_length; exact Hi).
    rewrite (map_nth (fun i0 => nth (nth i0 c 0) (get_buckets n (fst b) (snd b)) (0, 0)%Q)). rewrite seq_nth by exact Hi. cbn [Nat.add].
    apply uniform_in; [|apply perm_lt; assumption|exact Hw]. rewrite Forall_forall in HB. apply HB. apply nth_In. exact Hj.
Qed.

Lemma one_per_bucket : forall n dvs cols u runs, Forall dv_ok dvs -> latin n cols -> length cols = length (all_bounds dvs) ->
    Forall (fun b => fst b < snd b)%Q (all_bounds dvs) -> (forall i nm k, 0 <= u i nm k < 1)%Q -> lhc_runlist n dvs cols u = Ok runs ->
    forall j l, j < length (all_bounds dvs) -> l < n ->
    exists! i, i < n /\ in_bucket n (nth j (all_bounds dvs) (0, 0)%Q) l (nth j (values (nth i runs [])) 0%Q).
Proof.
  intros n dvs cols u runs HF HL Hk HB HU HR j l Hj Hl. destruct (runlist_spec n dvs cols u HF HL Hk HB HU) as (runs' & E & _ & _ & K).
  rewrite HR in E. injection E as <-. assert (Hc : Permutation (nth j cols []) (seq 0 n)) by (apply latin_col; [exact HL|lia]).
  pose proof (Permutation_length Hc) as Lc. rewrite seq_length in Lc.
  assert (Hb : (fst (nth j (all_bounds dvs) (0, 0)) < snd (nth j (all_bounds dvs) (0, 0)))%Q) by (rewrite Forall_forall in HB; apply HB; apply nth_In; exact Hj).
  assert (Hin : In l (nth j cols [])) by (apply (Permutation_in _ (Permutation_sym Hc)); apply in_seq; lia).
  destruct (In_nth _ _ 0 Hin) as (i & Hi & He). exists i. split.
  - split; [lia|]. rewrite <- He. apply K; [lia|exact Hj].
  - intros i' [Hi' Hb']. pose proof (bucket_unique n _ _ _ _ Hb Hl ltac:(apply perm_lt; [exact Hc|exact Hi']) Hb' (K i' j Hi' Hj)) as U.
    apply (proj1 (NoDup_nth (nth j cols []) 0)); [|exact Hi|lia|congruence].
    apply (Permutation_NoDup (l := seq 0 n)); [symmetry; exact Hc|apply seq_NoDup].
Qed.

(** Theorems about full factorial designs (C46) and Latin hypercubes (C47). *)
From Coq Require Import Permutation Lqa Qabs Qround.
From Verif Require Import Base DoeModel DoeSpec DoeProofs DoeProofs2.
Local Open Scope string_scope.
Local Open Scope nat_scope.
Local Open Scope list_scope.

Definition x_dv : dv := mkDV "x" 2 (Scal 0) (Arr [1; 4]%Q).
Definition y_dv : dv := mkDV "y" 1 (Arr [10%Q]) (Scal 20).
Ltac dvok := repeat constructor; cbn; lia.

(** ** C46 *)
(** the driver succeeds, and every run gives each design variable, in order, an
    array of its size *)
Theorem factorial_runs : forall n dvs, Forall dv_ok dvs ->
    exists runs, full_factorial n dvs = Ok runs /\ Forall (shaped dvs) runs /\ length runs = n ^ length (all_bounds dvs).
Proof.
  intros n dvs H. eexists. split; [exact (full_factorial_ok n dvs H)|]. split.
  - apply Forall_forall. intros c Hc. exact (proj1 (factorial_sound n dvs _ c H (full_factorial_ok n dvs H) Hc)).
  - exact (factorial_count n dvs _ H (full_factorial_ok n dvs H)).
Qed.
Print Assumptions factorial_runs.

(** every combination of levels is run *)
Theorem factorial_covers : forall n dvs runs ks, Forall dv_ok dvs -> full_factorial n dvs = Ok runs ->
    length ks = length (all_bounds dvs) -> Forall (fun k => k < n) ks ->
    exists c, In c runs /\ same (values c) (levels_of n (all_bounds dvs) ks).
Proof. exact factorial_complete. Qed.
Print Assumptions factorial_covers.

(** nothing else is run *)
Theorem factorial_only_levels : forall n dvs runs c, Forall dv_ok dvs -> full_factorial n dvs = Ok runs -> In c runs ->
    exists ks, length ks = length (all_bounds dvs) /\ Forall (fun k => k < n) ks /\ same (values c) (levels_of n (all_bounds dvs) ks).
Proof. intros n dvs runs c HF H Hin. exact (proj2 (factorial_sound n dvs runs c HF H Hin)). Qed.
Print Assumptions factorial_only_levels.

(** no combination is run twice *)
Theorem factorial_once : forall n dvs runs, Forall dv_ok dvs -> full_factorial n dvs = Ok runs ->
    Forall (fun b => fst b < snd b)%Q (all_bounds dvs) -> ForallOrdPairs (fun a b => ~ same (values a) (values b)) runs.
Proof. exact factorial_distinct. Qed.
Print Assumptions factorial_once.

Theorem factorial_within_bounds : forall n dvs runs c, Forall dv_ok dvs -> full_factorial n dvs = Ok runs -> In c runs ->
    Forall (fun b => fst b <= snd b)%Q (all_bounds dvs) -> Forall2 (fun b x => fst b <= x <= snd b)%Q (all_bounds dvs) (values c).
Proof. exact factorial_bounds. Qed.
Print Assumptions factorial_within_bounds.

(** the bounds themselves are run when there are at least two levels *)
Theorem factorial_bounds_attained : forall n dvs runs, Forall dv_ok dvs -> full_factorial n dvs = Ok runs -> 2 <= n ->
    (exists c, In c runs /\ same (values c) (map fst (all_bounds dvs))) /\ (exists c, In c runs /\ same (values c) (map snd (all_bounds dvs))).
Proof. exact factorial_attained. Qed.
Print Assumptions factorial_bounds_attained.

(** levels are evenly spaced: the distance of neighbours does not depend on the level *)
Theorem levels_even : forall n b k, (level (S (S n)) b (S k) - level (S (S n)) b k == (snd b - fst b) / q_of (S n))%Q.
Proof.
  intros n b k. cbn [level]. rewrite q_of_S. field. pose proof (q_of_pos n) as P. intros E0. rewrite E0 in P. apply (Qlt_irrefl 0 P).
Qed.
Print Assumptions levels_even.

Example factorial_example : exists runs, full_factorial 3 [x_dv; y_dv] = Ok runs /\ length runs = 27 /\
    Forall dv_ok [x_dv; y_dv] /\ Forall (fun b => fst b < snd b)%Q (all_bounds [x_dv; y_dv]) /\
    nth_error runs 5 = Some [("x", [0 # 2; 4 # 2]); ("y", [20])]%Q.
Proof.
  eexists. split; [vm_compute; reflexivity|]. split; [reflexivity|]. split; [dvok|]. split; [repeat constructor|].
  vm_compute. reflexivity.
Qed.
Example factorial_short_array : full_factorial 3 [mkDV "x" 2 (Scal 0) (Arr [1%Q])] = Err IndexError.
Proof. reflexivity. Qed.

(** ** C47 *)
Theorem random_is_latin : forall n k shuffles, (forall i row, Permutation (shuffles i row) row) ->
    latin n (rand_latin_hypercube n k shuffles) /\ length (rand_latin_hypercube n k shuffles) = k.
Proof. intros n k sh H. apply (rand_lhc_latin n sh H). reflexivity. Qed.
Print Assumptions random_is_latin.
Example random_example : rand_latin_hypercube 3 2 (fun _ row => rev row) = [[2; 1; 0]; [0; 1; 2]].
Proof. reflexivity. Qed.

(** perturbing keeps a design Latin when no cell is exchanged twice ... *)
Theorem perturb_latin_partial : forall n m doe draws d', latin n doe -> Forall (draw_ok n (length doe)) draws ->
    NoDup (concat (map touched (firstn m draws))) -> perturb m doe draws = Some d' -> latin n d' /\ length d' = length doe.
Proof. exact perturb_latin_l. Qed.
Print Assumptions perturb_latin_partial.
(** ... in particular with a single exchange *)
Theorem perturb_once_latin : forall n doe draws d', latin n doe -> Forall (draw_ok n (length doe)) draws ->
    perturb 1 doe draws = Some d' -> latin n d' /\ length d' = length doe.
Proof. intros n doe draws d' HL HD H. apply (perturb_latin_l n 1 doe draws); auto. apply one_exchange. lia. Qed.
Print Assumptions perturb_once_latin.
Example perturb_example : perturb 2 [[0; 1; 2]; [2; 1; 0]] [(0, 1, [1; 2]); (1, 0, [1])] = Some [[0; 2; 1]; [1; 2; 0]].
Proof. reflexivity. Qed.

(** two exchanges in one column may repeat a level, since both read the original *)
Theorem perturb_latin_refuted : exists n doe draws d', latin n doe /\ Forall (draw_ok n (length doe)) draws /\
    perturb 2 doe draws = Some d' /\ ~ latin n d' /\ is_latin_hypercube d' = false.
Proof.
  exists 3, [[0; 1; 2]], [(0, 0, [1]); (0, 1, [2])], [[1; 2; 1]]. split; [repeat constructor|]. split; [repeat constructor|]. split; [reflexivity|]. split; [|reflexivity].
  intros H. inversion H as [|? ? P _]; subst. apply Permutation_sym in P. apply (Permutation_in 0) in P; [|left; reflexivity]. cbn in P. lia.
Qed.
Print Assumptions perturb_latin_refuted.

(** with one sample an exchange never finds two different points: whatever
    numbers are drawn, the loop asks for another one *)
Theorem single_sample_never_ends : forall k m doe draws, Forall (draw_ok 1 k) draws -> 0 < m -> perturb m doe draws = None.
Proof. intros k m doe draws H Hm. apply (exchanges_none k 1); auto. Qed.
Print Assumptions single_sample_never_ends.
Example single_sample_example : Forall (draw_ok 1 2) [(0, 0, [0; 0; 0]); (1, 0, [0])] /\ perturb 1 [[0]; [0]] [(0, 0, [0; 0; 0]); (1, 0, [0])] = None.
Proof. split; [repeat constructor; cbn; lia|reflexivity]. Qed.

Definition rounds (rnd : Q -> Z) : Prop := forall q, (Qabs (inject_Z (rnd q) - q) <= 1 # 2)%Q.

(** the optimized design is Latin for up to two generations (the default) or up
    to two dimensions, whatever the criterion and the random numbers are *)
Theorem optimized_is_latin_partial : forall better rnd draws n k population generations shuffles d',
    rounds rnd -> (forall i row, Permutation (shuffles i row) row) -> (forall q a b, Forall (draw_ok n k) (draws q a b)) ->
    generations <= 2 \/ k <= 2 ->
    optimized_lhc better rnd draws n k population generations shuffles = Some d' -> latin n d' /\ length d' = k.
Proof.
  intros better rnd draws n k population generations sh d' HR HS HD HG H. destruct (random_is_latin n k sh HS) as [L1 L2].
  unfold optimized_lhc in H. revert H. apply best_of_latin with (n := n) (cols := k); auto.
  intros q it j. apply one_exchange. apply mutations_one; assumption.
Qed.
Print Assumptions optimized_is_latin_partial.
(** and in general when no generation exchanges a cell twice *)
Theorem optimized_is_latin_calm_partial : forall better rnd draws n k population generations shuffles d',
    (forall i row, Permutation (shuffles i row) row) -> (forall q a b, Forall (draw_ok n k) (draws q a b)) ->
    (forall q it j, NoDup (concat (map touched (firstn (mutations rnd k generations it) (draws q it j))))) ->
    optimized_lhc better rnd draws n k population generations shuffles = Some d' -> latin n d' /\ length d' = k.
Proof.
  intros better rnd draws n k population generations sh d' HS HD HC H. destruct (random_is_latin n k sh HS) as [L1 L2].
  unfold optimized_lhc in H. revert H. apply best_of_latin with (n := n) (cols := k); auto.
Qed.
Print Assumptions optimized_is_latin_calm_partial.

(** the search never ends with a worse design than it started from *)
Theorem search_not_worse : forall (phi : design -> Q) (better : design -> design -> bool) rnd draws start population generations d',
    (forall a b, better a b = true -> (phi a < phi b)%Q) ->
    mmlhs better rnd draws start population generations = Some d' -> (phi d' <= phi start)%Q.
Proof. intros phi better rnd draws start population generations d' HB H. exact (loop_phi better rnd draws phi HB _ _ _ _ _ _ _ H). Qed.
Print Assumptions search_not_worse.

(** round half to even, on the numbers that occur: floor (q + 1/2) differs only at
    halves, and is used for the examples *)
Definition round_up (q : Q) : Z := Qfloor (q + (1 # 2)).
Lemma round_up_rounds : rounds round_up.
Proof.
  intros q. unfold round_up. apply Qabs_Qle_condition. pose proof (Qfloor_le (q + (1 # 2))) as A. pose proof (Qlt_floor (q + (1 # 2))) as B.
  rewrite inject_Z_plus in B. change (inject_Z 1) with 1%Q in B. split; lra.
Qed.
Definition mm_better (n : nat) (a b : design) : bool := negb (Qle_bool (mmphi1 n b) (mmphi1 n a)).

Example optimized_example : exists d', optimized_lhc (fun _ _ => mm_better 3) round_up (fun q it j => [(1, it, [it; S it])]) 3 3 1 2 (fun _ row => row) = Some d' /\
    d' <> rand_latin_hypercube 3 3 (fun _ row => row) /\ is_latin_hypercube d' = true.
Proof. eexists. split; [vm_compute; reflexivity|]. split; [discriminate|reflexivity]. Qed.

(** with three generations and three dimensions the driver can return a design
    that is not Latin, as the criterion (here with q = 1 and norm 1) prefers it *)
Theorem optimized_is_latin_refuted : exists rnd draws start d', rounds rnd /\ latin 3 start /\
    (forall a b, Forall (draw_ok 3 3) (draws a b)) /\
    mmlhs (mm_better 3) rnd draws start 1 3 = Some d' /\ is_latin_hypercube d' = false.
Proof.
  exists round_up, (fun it j => match it with 0 => [(2, 1, [2]); (2, 0, [1])] | _ => [(0, 0, [1]); (0, 0, [1])] end),
         [[0; 1; 2]; [0; 1; 2]; [0; 2; 1]]. eexists. split; [exact round_up_rounds|].
  split; [repeat constructor|]. split; [intros [|a] b; repeat constructor|]. split; [vm_compute; reflexivity|]. reflexivity.
Qed.
Print Assumptions optimized_is_latin_refuted.

(** the test for Latin designs is right for designs of numbers below n *)
Theorem is_latin_hypercube_correct : forall n d, Forall (fun c => length c = n /\ Forall (fun x => x < n) c) d ->
    (is_latin_hypercube d = true <-> latin n d).
Proof. exact is_latin_iff. Qed.
Print Assumptions is_latin_hypercube_correct.
Example is_latin_example : is_latin_hypercube [[1; 0; 2]; [2; 1; 0]] = true /\ is_latin_hypercube [[1; 0; 1]] = false.
Proof. split; reflexivity. Qed.

(** from a Latin design, every sample lies in its bucket ... *)
Theorem samples_in_buckets : forall n dvs cols u, Forall dv_ok dvs -> latin n cols -> length cols = length (all_bounds dvs) ->
    Forall (fun b => fst b < snd b)%Q (all_bounds dvs) -> (forall i nm k, 0 <= u i nm k < 1)%Q ->
    exists runs, lhc_runlist n dvs cols u = Ok runs /\ length runs = n /\ Forall (shaped dvs) runs /\
      (forall i j, i < n -> j < length (all_bounds dvs) ->
          in_bucket n (nth j (all_bounds dvs) (0, 0)%Q) (nth i (nth j cols []) 0) (nth j (values (nth i runs [])) 0%Q)).
Proof. exact runlist_spec. Qed.
Print Assumptions samples_in_buckets.
(** ... and every bucket of every entry contains exactly one of the samples *)
Theorem one_sample_per_bucket : forall n dvs cols u runs, Forall dv_ok dvs -> latin n cols -> length cols = length (all_bounds dvs) ->
    Forall (fun b => fst b < snd b)%Q (all_bounds dvs) -> (forall i nm k, 0 <= u i nm k < 1)%Q -> lhc_runlist n dvs cols u = Ok runs ->
    forall j l, j < length (all_bounds dvs) -> l < n ->
    exists! i, i < n /\ in_bucket n (nth j (all_bounds dvs) (0, 0)%Q) l (nth j (values (nth i runs [])) 0%Q).
Proof. exact one_per_bucket. Qed.
Print Assumptions one_sample_per_bucket.
(** the buckets of an entry divide the interval between its bounds *)
Theorem buckets_cover : forall n b l, (fst b < snd b)%Q -> l < S n ->
    (level (S (S n)) b 0 == fst b)%Q /\ (level (S (S n)) b (S n) == snd b)%Q /\ (level (S (S n)) b l < level (S (S n)) b (S l))%Q.
Proof.
  intros n b l Hb Hl. split; [apply level_first|]. split; [|apply level_strict; [exact Hb|lia]].
  pose proof (level_last (S (S n)) b ltac:(lia)) as K. replace (S (S n) - 1) with (S n) in K by lia. exact K.
Qed.
Print Assumptions buckets_cover.
Example samples_example : exists runs, lhc_runlist 2 [x_dv; y_dv] [[1; 0]; [0; 1]; [1; 0]] (fun _ _ _ => 1 # 2)%Q = Ok runs /\
    Forall2 same (map values runs) [[3 # 4; 1; 35 # 2]; [1 # 4; 3; 25 # 2]]%Q /\ latin 2 [[1; 0]; [0; 1]; [1; 0]].
Proof.
  eexists. split; [vm_compute; reflexivity|]. split; [|unfold latin; cbn; repeat constructor; apply perm_swap].
  repeat constructor; vm_compute; reflexivity.
Qed.

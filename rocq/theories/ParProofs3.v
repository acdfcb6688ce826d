(** Lemmas about the distribution of the cases over the does. *)
From Coq Require Import Permutation.
From Verif Require Import Base TransferModel TransferProofs BalModel BalRanks EvalSpec EvalProofs ParModel ParSpec ParProofs ParProofs2.
Local Open Scope nat_scope.

Definition opt {X} (o : option X) : list X := match o with Some c => [c] | None => [] end.
Lemma nth_skipn : forall X (l : list X) a k, nth_error (skipn a l) k = nth_error l (a + k).
Proof. intros X l a. revert l. induction a as [|a IH]; intros l k; [reflexivity|]. destruct l as [|x l]; [destruct k; reflexivity|]. apply IH. Qed.
Lemma opt_seq : forall X (l : list X) k a, flat_map (fun g => opt (nth_error l (a + g))) (seq 0 k) = firstn k (skipn a l).
Proof.
  intros X l k. induction k as [|k IH]; intros a; [reflexivity|]. rewrite seq_S, flat_map_app, IH. cbn [flat_map plus]. rewrite app_nil_r.
  rewrite firstn_nth, nth_skipn. destruct (nth_error l (a + k)); cbn [opt]; rewrite ?app_nil_r; reflexivity.
Qed.
Lemma opt_all : forall X (l : list X) n, length l <= n -> flat_map (fun t => opt (nth_error l t)) (seq 0 n) = l.
Proof. intros X l n H. change (fun t => opt (nth_error l t)) with (fun t => opt (nth_error l (0 + t))). rewrite (opt_seq X l n 0). cbn [skipn]. apply firstn_all2. exact H. Qed.
Lemma perm_fm_app : forall X Y (f h : X -> list Y) l, Permutation (flat_map (fun x => f x ++ h x) l) (flat_map f l ++ flat_map h l).
Proof.
  intros X Y f h. induction l as [|x l IH]; [constructor|]. cbn. rewrite <- !app_assoc. apply Permutation_app_head. rewrite IH. rewrite !app_assoc. apply Permutation_app_tail. apply Permutation_app_comm.
Qed.
Lemma perm_swap_fm : forall X Y Z (f : X -> Y -> list Z) ys xs, Permutation (flat_map (fun x => flat_map (f x) ys) xs) (flat_map (fun y => flat_map (fun x => f x y) xs) ys).
Proof.
  intros X Y Z f ys. induction xs as [|x xs IH]; cbn; [induction ys; [constructor|exact IHys]|]. rewrite IH. symmetry. apply perm_fm_app.
Qed.
Lemma fm_ext : forall X Y (f h : X -> list Y) l, (forall x, In x l -> f x = h x) -> flat_map f l = flat_map h l.
Proof. intros X Y f h. induction l as [|x l IH]; intros H; [reflexivity|]. cbn. rewrite (H x (or_introl eq_refl)), IH; [reflexivity|]. intros y Hy. apply H. right. exact Hy. Qed.

Section Dist.
  Variable C : Type.
  (** lengths of the jobs of the does *)
  Definition fair (mine : nat -> list C) (G : nat) : Prop := forall g g', g <= g' -> g' < G -> length (mine g') <= length (mine g) <= S (length (mine g')).
  Lemma rounds_perm : forall (mine : nat -> list C) G n, (forall g, g < G -> length (mine g) <= n) -> Permutation (flat_map (round mine G) (seq 0 n)) (flat_map mine (seq 0 G)).
  Proof.
    intros mine G n H. unfold round. rewrite (perm_swap_fm _ _ _ (fun t g => match nth_error (mine g) t with Some c => [c] | None => [] end) (seq 0 G) (seq 0 n)).
    erewrite fm_ext; [reflexivity|]. intros g Hg. apply in_seq in Hg. apply (opt_all C (mine g) n). apply H. lia.
  Qed.
  Lemma fair_root : forall mine G t, fair mine G -> is_round mine G t -> nth_error (mine 0) t <> None.
  Proof. intros mine G t F (g & Hg & R). apply nth_error_Some in R. apply nth_error_Some. specialize (F 0 g). lia. Qed.
  Lemma fair_round : forall mine G t, 1 <= G -> fair mine G -> (is_round mine G t <-> t < length (mine 0)).
  Proof. intros mine G t HG F. split; [intros H; apply nth_error_Some; eapply fair_root; eassumption|]. intros H. exists 0. split; [lia|]. apply nth_error_Some. exact H. Qed.
  Lemma fair_full : forall mine G t, fair mine G -> is_round mine G (S t) -> full_round mine G t.
  Proof. intros mine G t F IR g Hg. assert (R := fair_root mine G (S t) F IR). apply nth_error_Some in R. apply nth_error_Some. specialize (F 0 g). lia. Qed.

  (** ** _distrib_build_runlist of PredeterminedRunsDriver *)
  Variable cases : list C.
  Variable G : nat.
  Hypothesis HG : 1 <= G.
  Lemma mod_S : forall k, S k mod G = if S (k mod G) =? G then 0 else S (k mod G).
  Proof.
    intros k. pose proof (Nat.mod_upper_bound k G). destruct (S (k mod G) =? G) eqn:E.
    - apply Nat.eqb_eq in E. symmetry. apply (Nat.mod_unique _ _ (S (k / G))); [lia|]. rewrite (Nat.div_mod k G) at 1 by lia. nia.
    - apply Nat.eqb_neq in E. symmetry. apply (Nat.mod_unique _ _ (k / G)); [lia|]. rewrite (Nat.div_mod k G) at 1 by lia. lia.
  Qed.
  Definition wait (k g : nat) : nat := if k mod G <=? g then g - k mod G else G + g - k mod G.
  Lemma every_nth : forall g, g < G -> forall (l : list C) k t, nth_error (every G k g l) t = nth_error l (wait k g + t * G).
  Proof.
    intros g Hg. induction l as [|c l IH]; intros k t; [cbn; destruct t, (wait k g + _ * G); reflexivity|]. cbn [every]. pose proof (Nat.mod_upper_bound k G) as U. pose proof (mod_S k) as MS. destruct (k mod G =? g) eqn:E.
    - apply Nat.eqb_eq in E. assert (W : wait k g = 0) by (unfold wait; rewrite E, Nat.leb_refl; lia). rewrite W. destruct t as [|t]; [reflexivity|]. cbn [nth_error]. rewrite IH. assert (W' : wait (S k) g = G - 1).
      { unfold wait. rewrite MS. destruct (S (k mod G) =? G) eqn:Q; [apply Nat.eqb_eq in Q|apply Nat.eqb_neq in Q]; [destruct (0 <=? g) eqn:Z; [lia|discriminate]|]. destruct (S (k mod G) <=? g) eqn:Z; [apply Nat.leb_le in Z; lia|lia]. }
      rewrite W'. replace (0 + S t * G) with (S (G - 1 + t * G)) by nia. reflexivity.
    - apply Nat.eqb_neq in E. rewrite IH. assert (W : wait k g = S (wait (S k) g)).
      { unfold wait. rewrite MS. destruct (S (k mod G) =? G) eqn:Q; [apply Nat.eqb_eq in Q|apply Nat.eqb_neq in Q]; destruct (k mod G <=? g) eqn:Z1; try apply Nat.leb_le in Z1; try apply Nat.leb_gt in Z1.
        - lia. - cbn [Nat.leb]. lia.
        - destruct (S (k mod G) <=? g) eqn:Z2; [apply Nat.leb_le in Z2|apply Nat.leb_gt in Z2]; lia.
        - destruct (S (k mod G) <=? g) eqn:Z2; [apply Nat.leb_le in Z2|apply Nat.leb_gt in Z2]; lia. }
      rewrite W. reflexivity.
  Qed.
  Lemma dealt_nth : forall g t, g < G -> nth_error (dealt cases G g) t = nth_error cases (t * G + g).
  Proof. intros g t Hg. unfold dealt. rewrite every_nth by exact Hg. f_equal. unfold wait. rewrite Nat.mod_0_l by lia. cbn [Nat.leb]. lia. Qed.
  Lemma dealt_len : forall g t, g < G -> (t < length (dealt cases G g) <-> t * G + g < length cases).
  Proof. intros g t Hg. rewrite <- !nth_error_Some, dealt_nth by exact Hg. reflexivity. Qed.
  Lemma dealt_fair : fair (dealt cases G) G.
  Proof.
    intros g g' L Hg'. split.
    - apply Nat.nlt_ge. intros K. apply dealt_len in K; [|lia]. assert (length (dealt cases G g) < length (dealt cases G g)); [|lia]. apply dealt_len; lia.
    - apply Nat.nlt_ge. intros K. apply dealt_len in K; [|lia]. assert (length (dealt cases G g') < length (dealt cases G g')); [|lia]. apply dealt_len; [lia|]. nia.
  Qed.
  Lemma dealt_round : forall t, round (dealt cases G) G t = firstn G (skipn (t * G) cases).
  Proof. intros t. rewrite <- opt_seq. unfold round. apply fm_ext. intros g Hg. apply in_seq in Hg. rewrite dealt_nth by lia. reflexivity. Qed.
  Lemma firstn_plus : forall X (l : list X) a b, firstn (a + b) l = firstn a l ++ firstn b (skipn a l).
  Proof. intros X l a. revert l. induction a as [|a IH]; intros l b; [reflexivity|]. destruct l as [|x l]; [cbn; rewrite firstn_nil; reflexivity|]. cbn. rewrite IH. reflexivity. Qed.
  Lemma dealt_rounds : forall n, flat_map (round (dealt cases G) G) (seq 0 n) = firstn (n * G) cases.
  Proof.
    induction n as [|n IH]; [reflexivity|]. rewrite seq_S, flat_map_app, IH. cbn [flat_map plus]. rewrite app_nil_r, dealt_round. rewrite <- firstn_plus. f_equal. lia.
  Qed.
  Lemma dealt_all : flat_map (round (dealt cases G) G) (seq 0 (length (dealt cases G 0))) = cases.
  Proof.
    rewrite dealt_rounds. apply firstn_all2. apply Nat.nlt_ge. intros K. assert (length (dealt cases G 0) < length (dealt cases G 0)); [|lia]. apply dealt_len; lia.
  Qed.
  Lemma dealt_perm : Permutation (flat_map (dealt cases G) (seq 0 G)) cases.
  Proof. rewrite <- dealt_all at 2. symmetry. apply rounds_perm. intros g Hg. apply (dealt_fair 0 g); lia. Qed.
  Lemma dealt_even : length cases mod G = 0 -> forall t, is_round (dealt cases G) G t -> full_round (dealt cases G) G t.
  Proof.
    intros E t IR g Hg. assert (R := fair_root _ _ _ dealt_fair IR). apply nth_error_Some in R. apply nth_error_Some. apply dealt_len in R; [|lia]. apply dealt_len; [exact Hg|].
    pose proof (Nat.div_mod (length cases) G ltac:(lia)) as D. rewrite E in D. assert (t < length cases / G) by (apply Nat.nle_gt; intros K; nia). nia.
  Qed.

  (** ** _distrib_build_runlist of LatinHypercubeDriver *)
  Definition slices (a : nat) (z : list nat) : list (list C) := map (fun os => firstn (snd os) (skipn (fst os) cases)) (combine (offs a z) z).
  Lemma skip_skip : forall X (l : list X) a b, skipn b (skipn a l) = skipn (a + b) l.
  Proof. intros X l a. revert l. induction a as [|a IH]; intros l b; [reflexivity|]. destruct l as [|x l]; [destruct b; reflexivity|]. apply IH. Qed.
  Lemma slices_concat : forall z a, concat (slices a z) = firstn (list_sum z) (skipn a cases).
  Proof.
    unfold slices. induction z as [|x z IH]; intros a; [reflexivity|]. cbn [offs combine map concat fst snd]. change (list_sum (x :: z)) with (x + list_sum z). rewrite firstn_plus, IH, skip_skip. reflexivity.
  Qed.
  Lemma slices_len : forall z a, a + list_sum z <= length cases -> map (@length C) (slices a z) = z.
  Proof.
    unfold slices. induction z as [|x z IH]; intros a H; [reflexivity|]. change (list_sum (x :: z)) with (x + list_sum z) in H. cbn [offs combine map fst snd]. rewrite firstn_length, skipn_length, Nat.min_l by lia. f_equal. apply IH. lia.
  Qed.
  Lemma combine_toZ : forall (o s : list Z), map (fun os => firstn (Z.to_nat (snd os)) (skipn (Z.to_nat (fst os)) cases)) (combine o s) = map (fun os => firstn (snd os) (skipn (fst os) cases)) (combine (map Z.to_nat o) (map Z.to_nat s)).
  Proof. induction o as [|x o IH]; intros [|y s]; try reflexivity. cbn. rewrite IH. reflexivity. Qed.
  Lemma jobs_eq : exists z, length z = G /\ list_sum z = length cases /\ jobs_of cases G = slices 0 z /\ forall g g', g <= g' -> g' < G -> nth g' z 0 <= nth g z 0 <= S (nth g' z 0).
  Proof.
    unfold jobs_of. destruct (distrib_total (Z.of_nat G) (Z.of_nat (length cases))) as (s & o & E & _); [lia|]. rewrite E. destruct (distrib_nat _ _ _ _ HG E) as (L & P & Eo & S & _). exists (map Z.to_nat s). rewrite map_length. repeat (split; [assumption|]). split.
    - rewrite combine_toZ. unfold slices. f_equal. f_equal. rewrite Eo. exact (offs_of_Z s 0 (Z.le_refl 0) P).
    - intros g g' H1 H2. assert (Ng : exists a, nth_error s g = Some a) by (destruct (nth_error s g) eqn:X; [eauto|apply nth_error_None in X; lia]). assert (Ng' : exists a, nth_error s g' = Some a) by (destruct (nth_error s g') eqn:X; [eauto|apply nth_error_None in X; lia]).
      destruct Ng as (a & Ea). destruct Ng' as (b & Eb). assert (K := distrib_even (Z.of_nat G) (Z.of_nat (length cases)) s o g g' a b ltac:(lia) ltac:(lia) E H1 Ea Eb).
      rewrite (nth_error_nth (map Z.to_nat s) g 0 (x := Z.to_nat a)) by (rewrite nth_error_map, Ea; reflexivity). rewrite (nth_error_nth (map Z.to_nat s) g' 0 (x := Z.to_nat b)) by (rewrite nth_error_map, Eb; reflexivity).
      rewrite Forall_forall in P. pose proof (P a (nth_error_In _ _ Ea)). pose proof (P b (nth_error_In _ _ Eb)). lia.
  Qed.
  Definition job (g : nat) : list C := nth g (jobs_of cases G) [].
  Lemma job_fair : fair job G.
  Proof.
    destruct jobs_eq as (z & L & S & E & F). intros g g' H1 H2. unfold job. rewrite E. rewrite <- !(map_nth (@length C)). rewrite slices_len by lia. apply F; assumption.
  Qed.
  Lemma fm_nth : forall X (l : list (list X)), flat_map (fun g => nth g l []) (seq 0 (length l)) = concat l.
  Proof.
    intros X l. rewrite flat_map_concat_map. f_equal. induction l as [|x l IH]; [reflexivity|]. cbn [length seq map]. f_equal. rewrite <- IH at 2. rewrite <- seq_shift, map_map. reflexivity.
  Qed.
  Lemma job_all : flat_map job (seq 0 G) = cases.
  Proof.
    destruct jobs_eq as (z & L & S & E & F). assert (LJ : length (jobs_of cases G) = G) by (rewrite E; rewrite <- L; rewrite <- (slices_len z 0) at 2 by lia; rewrite map_length; reflexivity).
    transitivity (flat_map (fun g => nth g (jobs_of cases G) []) (seq 0 (length (jobs_of cases G)))); [rewrite LJ; reflexivity|]. rewrite fm_nth, E, slices_concat. cbn [skipn]. apply firstn_all2. lia.
  Qed.
  Lemma job_even : length cases mod G = 0 -> forall t, is_round job G t -> full_round job G t.
  Proof.
    intros E t IR g Hg. assert (F := job_fair). assert (R := fair_root _ _ _ F IR). apply nth_error_Some in R. apply nth_error_Some. destruct (Nat.lt_ge_cases t (length (job g))) as [L|L]; [exact L|]. exfalso.
    assert (Lg : length (job g) = t) by (specialize (F 0 g); lia). assert (L0 : length (job 0) = S t) by (specialize (F 0 g); lia).
    assert (SUM : length cases = list_sum (map (fun g => length (job g)) (seq 0 G))).
    { rewrite <- job_all. generalize (seq 0 G). intros l. induction l as [|x l IH]; [reflexivity|]. cbn [flat_map map]. rewrite app_length, IH. reflexivity. }
    assert (B : forall l, (forall x, In x l -> x < G) -> list_sum (map (fun g => length (job g)) l) <= length l * S t /\ length l * t <= list_sum (map (fun g => length (job g)) l)).
    { induction l as [|x l IH]; intros H; [cbn; lia|]. cbn [map length]. change (list_sum (length (job x) :: map (fun g0 => length (job g0)) l)) with (length (job x) + list_sum (map (fun g0 => length (job g0)) l)). destruct IH as [I1 I2]; [intros; apply H; right; assumption|]. pose proof (H x (or_introl eq_refl)). assert (t <= length (job x) <= S t). { split; [destruct (Nat.le_ge_cases x g); [specialize (F x g)|specialize (F 0 x)]; lia|specialize (F 0 x); lia]. } lia. }
    assert (SP : seq 0 G = 0 :: seq 1 (g - 1) ++ g :: seq (S g) (G - S g)).
    { assert (g <> 0) by (intros ->; lia). replace G with (1 + ((g - 1) + S (G - S g))) at 1 by lia. rewrite seq_app. cbn [seq app plus]. f_equal. rewrite seq_app. f_equal. cbn [plus seq]. replace (S (g - 1)) with g by lia. reflexivity. }
    assert (g <> 0) by (intros ->; lia). rewrite SP in SUM. cbn [map] in SUM. rewrite map_app in SUM. cbn [map] in SUM. 
    assert (LS : forall a b x, list_sum (a ++ x :: b) = list_sum a + x + list_sum b) by (intros a b x; rewrite list_sum_app; change (list_sum (x :: b)) with (x + list_sum b); lia).
    change (list_sum (length (job 0) :: map (fun y => length (job y)) (seq 1 (g - 1)) ++ length (job g) :: map (fun y => length (job y)) (seq (S g) (G - S g)))) with (length (job 0) + list_sum (map (fun g0 => length (job g0)) (seq 1 (g - 1)) ++ length (job g) :: map (fun g0 => length (job g0)) (seq (S g) (G - S g)))) in SUM.
    rewrite LS, L0, Lg in SUM. destruct (B (seq 1 (g - 1))) as [B1 B2]; [intros x Hx; apply in_seq in Hx; lia|]. destruct (B (seq (S g) (G - S g))) as [B3 B4]; [intros x Hx; apply in_seq in Hx; lia|]. rewrite seq_length in B1, B2, B3, B4.
    pose proof (Nat.div_mod (length cases) G ltac:(lia)) as D. rewrite E in D. assert (G * t < length cases < G * S t) by nia. assert (t < length cases / G < S t) by nia. lia.
  Qed.
End Dist.

Section Start.
  Variable C : Type.
  Variable fatal : pid -> C -> bool.
  Variable recorders serial : bool.
  Variable nvars : nat.
  Variable cases : list C.
  Variable sizes : list nat.
  Hypothesis szs : Forall (fun n => 1 <= n) sizes.
  Hypothesis some : sizes <> [].
  Notation ndoe := (length sizes).
  Notation step := (step fatal recorders serial nvars cases ndoe).
  Lemma always_of_reach : forall s s' P, exec step s s' -> reaches step s' P -> always_ends step s P.
  Proof.
    intros s s' P E (f & Ef & T & Pf). destruct (diamond_ends step (fire_diamond C fatal recorders serial nvars cases ndoe) s f) as (B & H); [eapply exec_app; eassumption|exact T|]. split; [exact B|]. intros t Et Tt. rewrite (H t Et Tt). exact Pf.
  Qed.
  Lemma rec_0 : forall mine p, to_record mine ndoe recorders serial 0 p = @nil C.
  Proof. intros mine p. unfold to_record. destruct recorders, serial; cbn; try reflexivity. destruct ((fst p =? 0) && (snd p =? 0)); reflexivity. Qed.
  Lemma start_dealt : exec step (init cases ndoe sizes) (mkst C (pids sizes) (F0 C recorders serial sizes (dealt cases ndoe) 0)).
  Proof. unfold init. rewrite (mkst_ext C _ (F0 C recorders serial sizes (dealt cases ndoe) 0) (fun p => turn p (dealt cases ndoe (fst p)) [] [])); [constructor|]. intros p Hp. unfold F0. rewrite rec_0. reflexivity. Qed.
  Lemma find_job : forall (ids : list pid) (f : nat -> list C) p, In p ids -> find (fun x : pid * list C => (fst (fst x) =? fst p) && (snd (fst x) =? snd p)) (combine ids (map f (map fst ids))) = Some (p, f (fst p)).
  Proof.
    induction ids as [|q ids IH]; intros f p H; [destruct H|]. cbn [map combine find]. cbn [fst snd]. destruct ((fst q =? fst p) && (snd q =? snd p)) eqn:E.
    - apply andb_prop in E. destruct E as [A B]. apply Nat.eqb_eq in A, B. destruct q, p. cbn in *. subst. reflexivity.
    - destruct H as [-> |H]; [rewrite !Nat.eqb_refl in E; discriminate|]. apply IH. exact H.
  Qed.
  Lemma start_lhc : exec step (init_lhc sizes) (mkst C (pids sizes) (F0 C recorders serial sizes (job C cases ndoe) 0)).
  Proof.
    apply exec_cons with (mkst C (pids sizes) (fun _ => PScatter (map fst (pids sizes)))).
    - apply (fire_all C fatal recorders serial nvars cases ndoe (pids sizes) _ _ Full AllGather (fun p => VNat (fst p)) (fun p a => match a with RNats ids => PScatter ids | _ => PFail [] [] end)).
      + apply (full_ne sizes szs some). + reflexivity.
      + intros p Hp _. cbn [respond]. rewrite (full_eq sizes), map_map. reflexivity.
      + intros p Hp M. discriminate.
    - eapply exec_cons; [|constructor].
      apply (fire_all C fatal recorders serial nvars cases ndoe (pids sizes) _ _ Full Scatter (fun p => VJobs (if (fst p =? 0) && (snd p =? 0) then Some (job_list cases ndoe (map fst (pids sizes))) else None)) (fun p a => match a with RJob l => turn p l [] [] | _ => PFail [] [] end)).
      + apply (full_ne sizes szs some). + reflexivity.
      + intros p Hp _. unfold F0. rewrite rec_0. cbn [skipn firstn]. rewrite (full_eq sizes). cbn [respond]. destruct (pids_first sizes szs some) as (r & E). 
        assert (E0 : forall J : list (list C), map (fun q : pid => (q, VJobs (if (fst q =? 0) && (snd q =? 0) then Some J else None))) (pids sizes) = ((0, 0), VJobs (Some J)) :: map (fun q : pid => (q, VJobs (if (fst q =? 0) && (snd q =? 0) then Some J else None))) r) by (intros J; rewrite E; reflexivity).
        assert (E1 := E0 (job_list cases ndoe (map fst (pids sizes)))). clear E0.
        set (L := map (fun q : pid => (q, VJobs (if (fst q =? 0) && (snd q =? 0) then Some (job_list cases ndoe (map fst (pids sizes))) else None))) (pids sizes)) in *. assert (EL : map fst L = pids sizes) by (unfold L; rewrite map_map; cbn; apply map_id).
        clearbody L. rewrite E1 at 1. rewrite EL. match goal with |- context [find ?f ?l] => assert (FJ : find f l = Some (p, nth (fst p) (jobs_of cases ndoe) [])) by exact (find_job (pids sizes) (fun i => nth i (jobs_of cases ndoe) []) p Hp); rewrite FJ end. reflexivity.
      + intros p Hp M. discriminate.
  Qed.
End Start.

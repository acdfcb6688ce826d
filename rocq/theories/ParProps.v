(** C42: the parallel design of experiments without load balancing. *)
From Coq Require Import Permutation.
From Verif Require Import Base EvalSpec EvalProofs ParModel ParSpec ParProofs ParProofs2 ParProofs3.
Local Open Scope nat_scope.

(** Every case is run by exactly one doe, the number of cases of two does differs by at
    most one: _distrib_build_runlist of PredeterminedRunsDriver ... *)
Theorem par_assign : forall C (cases : list C) ndoe, 1 <= ndoe ->
    Permutation (flat_map (dealt cases ndoe) (seq 0 ndoe)) cases /\
    (forall i c, nth_error cases i = Some c -> nth_error (dealt cases ndoe (i mod ndoe)) (i / ndoe) = Some c) /\
    forall g g', g < ndoe -> g' < ndoe -> length (dealt cases ndoe g) <= S (length (dealt cases ndoe g')).
Proof.
  intros C cases ndoe H. split; [apply dealt_perm; exact H|]. split.
  - intros i c E. rewrite dealt_nth; [|exact H|apply Nat.mod_upper_bound; lia]. rewrite Nat.mul_comm, <- Nat.div_mod by lia. exact E.
  - intros g g' Hg Hg'. destruct (Nat.le_ge_cases g g') as [L|L]; [pose proof (dealt_fair C cases ndoe H g g' L Hg')|pose proof (dealt_fair C cases ndoe H g' g L Hg)]; lia.
Qed.
Print Assumptions par_assign.
(** ... and of LatinHypercubeDriver *)
Theorem par_assign_lhc : forall C (cases : list C) ndoe, 1 <= ndoe ->
    flat_map (fun g => nth g (jobs_of cases ndoe) []) (seq 0 ndoe) = cases /\
    forall g g', g < ndoe -> g' < ndoe -> length (nth g (jobs_of cases ndoe) []) <= S (length (nth g' (jobs_of cases ndoe) [])).
Proof.
  intros C cases ndoe H. split; [exact (job_all C cases ndoe H)|].
  intros g g' Hg Hg'. destruct (Nat.le_ge_cases g g') as [L|L]; [pose proof (job_fair C cases ndoe H g g' L Hg') as K|pose proof (job_fair C cases ndoe H g' g L Hg) as K]; unfold job in K; lia.
Qed.
Print Assumptions par_assign_lhc.

(** the start of an experiment and the cases of the does, for the two kinds of drivers *)
Definition start {C} (lhc : bool) (cases : list C) (sizes : list nat) : st C := if lhc then init_lhc sizes else init cases (length sizes) sizes.
Definition share {C} (lhc : bool) (cases : list C) (ndoe g : nat) : list C := if lhc then nth g (jobs_of cases ndoe) [] else dealt cases ndoe g.

Section Par.
  Variable C : Type.
  Variable fatal : pid -> C -> bool.
  Variable recorders serial lhc : bool.
  Variable nvars : nat.
  Variable cases : list C.
  Variable sizes : list nat.
  Notation ndoe := (length sizes).
  Notation step := (step fatal recorders serial nvars cases ndoe).
  Notation finished := (finished fatal recorders serial nvars cases ndoe).
  Notation mine := (share lhc cases ndoe).
  Notation rounds := (length (mine 0)).

  Lemma start_exec : Forall (fun n => 1 <= n) sizes -> sizes <> [] -> exec step (start lhc cases sizes) (mkst C (pids sizes) (F0 C recorders serial sizes mine 0)).
  Proof. intros H N. unfold start, share. destruct lhc; [apply start_lhc; assumption|apply start_dealt]. Qed.
  Lemma len1 : sizes <> [] -> 1 <= ndoe. Proof. destruct sizes; [congruence|cbn; lia]. Qed.
  Lemma share_fair : sizes <> [] -> fair C mine ndoe.
  Proof. intros N. unfold share. destruct lhc; [apply job_fair|apply dealt_fair]; apply len1; exact N. Qed.

  (** Without a fatal failure, and if either all does have the same number of cases or
      the does that have one case less have a single process and there are no recorders
      or a serial one: whatever the order of the collective operations, all processes
      return, each having run exactly the cases of its doe; a serial recorder in process 0
      has got every case, in the order of rounds. *)
  Theorem par_done : Forall (fun n => 1 <= n) sizes -> sizes <> [] ->
      (forall t, ~ fails_in mine fatal sizes t) ->
      (length cases mod ndoe = 0 \/ forall t, is_round mine ndoe t -> short_single mine sizes t /\ (recorders = true -> serial = true)) ->
      always_ends step (start lhc cases sizes) (all_done mine ndoe recorders serial rounds sizes).
  Proof.
    intros S N NF D. assert (F := share_fair N). eapply always_of_reach; [apply start_exec; assumption|]. apply rounds_done; try assumption.
    - intros t R. eapply fair_root; [apply share_fair; exact N|exact R].
    - intros R. apply (fair_round C mine ndoe) in R; [lia|apply len1; exact N|exact F].
    - intros t L. assert (IR : is_round mine ndoe t) by (apply (fair_round C mine ndoe); [apply len1; exact N|exact F|exact L]). split; [exact IR|]. split; [apply NF|]. destruct D as [D|D]; [left|right; apply D; exact IR].
      unfold share in *. destruct lhc; [apply job_even|apply dealt_even]; try assumption; apply len1; exact N.
  Qed.

  (** A fatal failure in a round in which every doe has a case (the first such failure):
      all processes raise an exception in that round. *)
  Theorem par_failed : forall n, Forall (fun n => 1 <= n) sizes -> sizes <> [] ->
      fails_in mine fatal sizes n -> full_round mine ndoe n -> (forall t, t < n -> ~ fails_in mine fatal sizes t) ->
      always_ends step (start lhc cases sizes) (all_failed mine ndoe recorders serial n sizes).
  Proof.
    intros n S N FN FR NF. eapply always_of_reach; [apply start_exec; assumption|]. apply rounds_failed; try assumption.
    - intros t R. eapply fair_root; [apply share_fair; exact N|exact R].
    - intros g g' Hg Hg'. assert (F := share_fair N). destruct (Nat.le_ge_cases g g') as [L|L]; [pose proof (F g g' L Hg')|pose proof (F g' g L Hg)]; lia.
  Qed.

  (** Otherwise it always hangs: (a) a doe with more than one process is out of cases in
      the last round: its processes other than the first do not take part in it *)
  Theorem par_short_refuted : forall n, Forall (fun n => 1 <= n) sizes -> sizes <> [] ->
      (forall t, t < n -> ~ fails_in mine fatal sizes t) -> is_round mine ndoe n -> ~ short_single mine sizes n ->
      always_ends step (start lhc cases sizes) (fun s => ~ finished s).
  Proof.
    intros n S N NF IR NS. assert (F := share_fair N). eapply always_of_reach; [apply start_exec; assumption|]. apply short_hangs with n; try assumption.
    - intros t R. eapply fair_root; [exact F|exact R].
    - intros t L. assert (IRt : is_round mine ndoe t). { apply (fair_round C mine ndoe); [apply len1; exact N|exact F|]. apply (fair_round C mine ndoe) in IR; [lia|apply len1; exact N|exact F]. }
      split; [exact IRt|]. split; [apply NF; exact L|]. left. apply (fair_full C); [exact F|]. apply (fair_round C mine ndoe); [apply len1; exact N|exact F|]. apply (fair_round C mine ndoe) in IR; [lia|apply len1; exact N|exact F].
  Qed.
  (** (b) the first fatal failure is in a round in which a doe has no case: the process of
      that doe ignores it and waits for the others *)
  Theorem par_fatal_refuted : forall n, Forall (fun n => 1 <= n) sizes -> sizes <> [] ->
      (forall t, t < n -> ~ fails_in mine fatal sizes t) -> fails_in mine fatal sizes n -> ~ full_round mine ndoe n ->
      always_ends step (start lhc cases sizes) (fun s => ~ finished s).
  Proof.
    intros n S N NF FN NFR. assert (F := share_fair N).
    assert (IR : is_round mine ndoe n) by (destruct FN as (p & c & Hp & R & _); exists (fst p); split; [apply (id_lt sizes); exact Hp|congruence]).
    assert (B : forall t, t < n -> is_round mine ndoe t /\ ~ fails_in mine fatal sizes t /\ (full_round mine ndoe t \/ (short_single mine sizes t /\ (recorders = true -> serial = true)))).
    { intros t L. assert (IRt : is_round mine ndoe (Datatypes.S t)). { apply (fair_round C mine ndoe); [apply len1; exact N|exact F|]. apply (fair_round C mine ndoe) in IR; [lia|apply len1; exact N|exact F]. }
      split; [apply (fair_round C mine ndoe); [apply len1; exact N|exact F|]; apply (fair_round C mine ndoe) in IRt; [lia|apply len1; exact N|exact F]|]. split; [apply NF; exact L|]. left. apply (fair_full C); assumption. }
    assert (RF : forall t, is_round mine ndoe t -> nth_error (mine 0) t <> None) by (intros t R; eapply fair_root; [exact F|exact R]).
    eapply always_of_reach; [apply start_exec; assumption|].
    assert (DEC : short_single mine sizes n \/ ~ short_single mine sizes n).
    { assert (D : forall gs, (forall g k, In g gs -> nth_error sizes g = Some k -> nth_error (mine g) n = None -> k = 1) \/ exists g k, nth_error sizes g = Some k /\ nth_error (mine g) n = None /\ k <> 1).
      { induction gs as [|g gs [IH|IH]]; [left; intros g k []| |right; exact IH]. destruct (nth_error sizes g) as [k|] eqn:E; [|left; intros x y [<- |I] E1 E2; [congruence|eapply IH; eassumption]]. destruct (nth_error (mine g) n) eqn:R; [left; intros x y [<- |I] E1 E2; [congruence|eapply IH; eassumption]|]. destruct (Nat.eq_dec k 1) as [-> |K]; [left; intros x y [<- |I] E1 E2; [congruence|eapply IH; eassumption]|]. right. exists g, k. auto. }
      destruct (D (seq 0 ndoe)) as [D1|(g & k & E & R & K)]; [left; intros g k E R; apply (D1 g k); [apply in_seq; split; [lia|]; apply nth_error_Some; congruence|exact E|exact R]|right]. intros SS. apply K. exact (SS g k E R). }
    destruct DEC as [SS|SS]; [apply fail_hangs with n|apply short_hangs with n]; assumption.
  Qed.
  (** (c) all recorders are parallel and a doe has no case in the last round: its process
      waits in the gather of the cases, the others do not *)
  Theorem par_recorder_refuted : forall n, Forall (fun n => 1 <= n) sizes -> sizes <> [] ->
      recorders = true -> serial = false -> (forall t, ~ fails_in mine fatal sizes t) -> is_round mine ndoe n -> ~ full_round mine ndoe n ->
      short_single mine sizes n -> always_ends step (start lhc cases sizes) (fun s => ~ finished s).
  Proof.
    intros n S N HR HS NF IR NFR SS. assert (F := share_fair N). eapply always_of_reach; [apply start_exec; assumption|]. apply parallel_hangs with n; try assumption.
    - intros t R. eapply fair_root; [exact F|exact R].
    - intros t L. assert (IRt : is_round mine ndoe (Datatypes.S t)). { apply (fair_round C mine ndoe); [apply len1; exact N|exact F|]. apply (fair_round C mine ndoe) in IR; [lia|apply len1; exact N|exact F]. }
      split; [apply (fair_round C mine ndoe); [apply len1; exact N|exact F|]; apply (fair_round C mine ndoe) in IRt; [lia|apply len1; exact N|exact F]|]. split; [apply NF|]. left. apply (fair_full C); assumption.
    - apply NF.
    - intros p Hp. destruct (nth_error (mine (fst p)) (Datatypes.S n)) eqn:R; [|reflexivity]. exfalso. apply NFR. apply (fair_full C); [exact F|]. exists (fst p). split; [apply (id_lt sizes); exact Hp|congruence].
  Qed.
End Par.
Print Assumptions par_done.
Print Assumptions par_failed.
Print Assumptions par_short_refuted.
Print Assumptions par_fatal_refuted.
Print Assumptions par_recorder_refuted.

(** With a serial recorder process 0 records every case exactly once, for a
    PredeterminedRunsDriver in the order of the cases. *)
Theorem par_recorded : forall C (cases : list C) lhc (sizes : list nat), sizes <> [] ->
    let mine := share lhc cases (length sizes) in
    Permutation (to_record mine (length sizes) true true (length (mine 0)) (0, 0)) cases /\
    (lhc = false -> to_record mine (length sizes) true true (length (mine 0)) (0, 0) = cases).
Proof.
  intros C cases lhc sizes N mine. assert (L := len1 sizes N). assert (F := share_fair C lhc cases sizes N). split.
  - unfold to_record. cbn [negb fst snd Nat.eqb andb]. rewrite rounds_perm; [|intros g Hg; apply (F 0 g); lia]. unfold mine, share. destruct lhc; [|apply dealt_perm; exact L]. assert (E := job_all C cases (length sizes) L). unfold job in E. rewrite E. reflexivity.
  - intros ->. unfold to_record, mine, share. cbn [negb fst snd Nat.eqb andb]. apply dealt_all. exact L.
Qed.
Print Assumptions par_recorded.

(** two does of two and one processes, three cases *)
Example par_three : forall fatal, (forall p c, fatal p c = false) ->
    always_ends (step fatal true true 2 [10; 11; 12] 2) (init [10; 11; 12] 2 [2; 1])
      (fun s => s = [((0, 0), PDone [10; 12] [10; 11; 12]); ((0, 1), PDone [10; 12] []); ((1, 0), PDone [11] [])]).
Proof.
  intros fatal NF. assert (H := par_done nat fatal true true false 2 [10; 11; 12] [2; 1]).
  apply H; [repeat constructor|discriminate|intros t (p & c & _ & _ & E); rewrite NF in E; discriminate|].
  right. intros t R. split; [|reflexivity]. intros g n E Q. apply (fair_round nat _ 2) in R; [|lia|apply (share_fair nat false [10; 11; 12] [2; 1]); discriminate]. cbn in R.
  destruct g as [|[|g]]; cbn in E; [|congruence|destruct g; discriminate].
  destruct t as [|[|t]]; [discriminate|discriminate|lia].
Qed.
(** the same three cases and two does of two processes hang *)
Example par_three_hangs : forall fatal, (forall p c, fatal p c = false) ->
    always_ends (step fatal true true 2 [10; 11; 12] 2) (init [10; 11; 12] 2 [2; 2]) (fun s => ~ finished fatal true true 2 [10; 11; 12] 2 s).
Proof.
  intros fatal NF. apply (par_short_refuted nat fatal true true false 2 [10; 11; 12] [2; 2] 1); [repeat constructor|discriminate|intros t _ (p & c & _ & _ & E); rewrite NF in E; discriminate| |].
  - exists 0. split; [cbn; lia|discriminate].
  - intros H. specialize (H 1 2 eq_refl eq_refl). discriminate.
Qed.
(** four cases; the second case of doe 1 fails fatally: all processes raise *)
Example par_four_fail : always_ends (step (fun p c => (fst p =? 1) && (c =? 13)) true false 1 [10; 11; 12; 13] 2) (init_lhc [1; 1])
    (fun s => s = [((0, 0), PFail [10; 11] [10]); ((1, 0), PFail [12; 13] [12])]).
Proof.
  apply (par_failed nat (fun p c => (fst p =? 1) && (c =? 13)) true false true 1 [10; 11; 12; 13] [1; 1] 1); [repeat constructor|discriminate| | |].
  - exists (1, 0), 13. split; [cbn; auto|]. split; reflexivity.
  - intros [|[|g]] L; cbn in L; [discriminate|discriminate|lia].
  - intros t L ([g j] & c & Hp & E & Fa). assert (t = 0) by lia. subst t. apply andb_prop in Fa. destruct Fa as [A B]. apply Nat.eqb_eq in A, B. cbn in A. subst g c. discriminate.
Qed.

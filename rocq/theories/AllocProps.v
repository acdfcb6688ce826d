(** Property theorems for processor allocation: C41. *)
From Coq Require Import Permutation.
From Verif Require Import Base AllocModel AllocSpec AllocProofs AllocProofs2.
Local Open Scope nat_scope.

(** the number reported by get_req_procs: the largest minimum of a subsystem *)
Theorem C41_reported : forall subs, fst (parallel_req subs) = Nat.max 1 (list_max (map fst subs)).
Proof. exact parallel_req_fst. Qed.
Print Assumptions C41_reported.

(** C41, enough processes for all minima together: allocation terminates, every
    subsystem has its own processes, at most its maximum; as many processes as the
    maxima allow are used and they are spread evenly.  Missing: the minimum is
    only guaranteed if length subs * minimum <= size (C41_minimum_refuted), and
    processes beyond the maxima stay unassigned (C41_unassigned_refuted) *)
Theorem C41_enough_partial : forall fuel size subs,
    subs <> [] -> Forall req_ok subs -> list_sum (map fst subs) <= size -> size <= fuel ->
    let used := usable size (capacity (map snd subs)) in
    exists bs, alloc fuel size subs = Alloc bs used /\ map snd bs = map (fun i => [i]) (seq 0 (length subs)) /\
      procs_total bs = used /\ balanced subs bs /\
      forall i mn mx, nth_error subs i = Some (mn, mx) ->
        exists p, runs_on bs i p /\ at_most p mx /\ (length subs * mn <= size -> mn <= p).
Proof. exact alloc_enough. Qed.
Print Assumptions C41_enough_partial.

(** not enough: subsystems share buckets; the allocation terminates exactly when
    the buckets can use all processes, then every process is assigned and every
    subsystem runs on at least its minimum.  Missing: termination
    (C41_hang_refuted) and the maximum of a subsystem (C41_maximum_refuted) *)
Theorem C41_short_partial : forall size subs,
    Forall req_ok subs -> size < list_sum (map fst subs) -> Forall (fun s => fst s <= size) subs ->
    exists bs0, each_once (length subs) bs0 /\ procs_total bs0 <= size /\
      let c := capacity (map (bucket_cap subs) bs0) in
      ((match c with Some k => size <= k | None => True end) ->
         forall fuel, size <= fuel -> exists bs, alloc fuel size subs = Alloc bs size /\ map snd bs = map snd bs0 /\ procs_total bs = size /\
           (forall b i, In b bs -> In i (snd b) -> min_of subs i <= fst b) /\
           (forall b, In b bs -> at_most (fst b) (bucket_cap subs b))) /\
      ((match c with Some k => k < size | None => False end) -> forall fuel, alloc fuel size subs = Running).
Proof. exact alloc_short. Qed.
Print Assumptions C41_short_partial.

(** with one subsystem without maximum it always terminates *)
Theorem C41_short_unlimited : forall size subs fuel, Forall req_ok subs -> size < list_sum (map fst subs) ->
    Forall (fun s => fst s <= size) subs -> In None (map snd subs) -> size <= fuel ->
    exists bs, alloc fuel size subs = Alloc bs size /\ each_once (length subs) bs /\ procs_total bs = size /\
      (forall i mn mx, nth_error subs i = Some (mn, mx) -> exists p, runs_on bs i p /\ mn <= p).
Proof. exact alloc_short_unlimited. Qed.
Print Assumptions C41_short_unlimited.

(** fewer processes than the largest minimum: refused *)
Theorem C41_too_small : forall fuel size subs, Forall req_ok subs -> Exists (fun s => size < fst s) subs ->
    alloc fuel size subs = Raises RuntimeError.
Proof. exact alloc_too_small. Qed.
Print Assumptions C41_too_small.

(** the list of colors has one entry per process, and each bucket its number *)
Theorem C41_colors : forall size bs assigned i, procs_total bs = assigned -> assigned <= size ->
    length (colors size bs assigned) = size /\
    count_occ opt_dec (colors size bs assigned) (Some i) = match nth_error bs i with Some b => fst b | None => 0 end.
Proof. intros size bs assigned i H1 H2. split; [exact (colors_length size bs assigned H1 H2)|exact (colors_count size bs assigned i)]. Qed.
Print Assumptions C41_colors.

(** the round robin ignores the minima *)
Theorem C41_minimum_refuted : exists size subs bs, Forall req_ok subs /\ list_sum (map fst subs) <= size /\
    (forall fuel, size <= fuel -> alloc fuel size subs = Alloc bs size) /\ nth_error subs 1 = Some (3, None) /\ runs_on bs 1 2.
Proof.
  exists 4, [(1, None); (3, None)], [(2, [0]); (2, [1])]. split; [repeat constructor|]. split; [cbn; lia|]. split.
  - intros fuel Hf. destruct (alloc_enough fuel 4 [(1, None); (3, None)]) as (bs & E & _); [discriminate|repeat constructor|cbn; lia|lia|].
    do 4 (destruct fuel as [|fuel]; [lia|]). destruct fuel; reflexivity.
  - split; [reflexivity|]. exists (2, [1]). repeat split. right; left; reflexivity. left; reflexivity.
Qed.
Print Assumptions C41_minimum_refuted.

(** the loop that gives away the rest never ends *)
Theorem C41_hang_refuted : exists size subs, Forall req_ok subs /\ fst (parallel_req subs) <= size /\
    forall fuel, alloc fuel size subs = Running.
Proof.
  exists 3, [(2, Some 2); (2, Some 2)]. split; [repeat constructor|]. split; [cbn; lia|].
  intros fuel. cbv [alloc]. cbn. induction fuel as [|fuel IH]; [reflexivity|]. cbn. exact IH.
Qed.
Print Assumptions C41_hang_refuted.

(** a subsystem in a shared bucket gets more than its maximum *)
Theorem C41_maximum_refuted : exists size subs bs, Forall req_ok subs /\ fst (parallel_req subs) <= size /\
    (forall fuel, alloc fuel size subs = Alloc bs size) /\ nth_error subs 0 = Some (1, Some 1) /\ runs_on bs 0 3.
Proof.
  exists 3, [(1, Some 1); (3, None)], [(3, [1; 0])]. split; [repeat constructor|]. split; [cbn; lia|].
  split; [intros [|fuel]; reflexivity|]. split; [reflexivity|]. exists (3, [1; 0]). repeat split; [left|right; left]; reflexivity.
Qed.
Print Assumptions C41_maximum_refuted.

(** more processes than the maxima: some are left without work *)
Theorem C41_unassigned_refuted : exists fuel size subs bs assigned, Forall req_ok subs /\ fst (parallel_req subs) <= size /\
    alloc fuel size subs = Alloc bs assigned /\ assigned < size /\ In None (colors size bs assigned).
Proof.
  exists 5, 5, [(1, Some 1); (1, Some 1)]. eexists _, _. split; [repeat constructor|]. split; [cbn; lia|].
  split; [reflexivity|]. split; [lia|]. cbn. auto.
Qed.
Print Assumptions C41_unassigned_refuted.

(** a parallel group without subsystems *)
Theorem C41_empty_refuted : forall fuel size, alloc fuel size [] = Raises NameError.
Proof. reflexivity. Qed.
Print Assumptions C41_empty_refuted.

Example C41_ex :
  alloc 9 9 [(2, Some 2); (1, None); (2, Some 4)] = Alloc [(2, [0]); (4, [1]); (3, [2])] 9 /\
  alloc 9 5 [(2, Some 4); (3, Some 3); (1, Some 2); (2, None)] = Alloc [(3, [1; 2]); (2, [3; 0])] 5 /\
  Forall req_ok [(2, Some 4); (3, Some 3); (1, Some 2); (2, None)].
Proof. split; [reflexivity|]. split; [reflexivity|]. repeat constructor. Qed.

(** The load balanced design of experiments (C43). *)
From Coq Require Import Permutation.
From Verif Require Import Base EvalSpec BalModel BalSpec BalProofs BalProofs2 BalProofs3 BalRanks.
Local Open Scope string_scope.
Local Open Scope nat_scope.
Local Open Scope list_scope.

(** For all cases, all groups of worker processes, and whatever running a case does:
    under every schedule all processes return.  Each case that was dealt out was run by
    every process of one group, once, and there were no other runs.  The cases of which
    no process had a fatal failure are recorded, each once and in the order in which
    they were completed, with values of that case only; the others are not.  If cases
    have not been dealt out, some case failed fatally. *)
Theorem lb_run : forall C V (ev : C -> nat * nat -> result V -> Prop) (vars : nat * nat -> list string),
  (forall c kj, exists r, ev c kj r) -> (forall c kj r, ev c kj r -> forall x, In x (map fst (rdata r)) <-> In x (vars kj)) ->
  forall cs sizes, Forall (fun n => 1 <= n) sizes -> sizes <> [] ->
  always_ends (step ev) (init cs sizes) (fun s =>
    finished s /\ exists dealt, Permutation cs (map case_of dealt ++ left s) /\
      Forall (ran_by_group ev sizes) dealt /\ Permutation (runs s) (flat_map runs_of dealt) /\
      Forall2 recorded_as (filter nonfatal dealt) (recorded s) /\
      (left s <> [] -> exists d, In d dealt /\ nonfatal d = false)).
Proof.
  intros C V ev vars T N cs sizes P NE. destruct (run_outcome C V ev vars N cs sizes P T) as [B F]. split; [exact B|]. intros t X NS. destruct (F t X NS) as (F1 & F2 & F3 & F4 & F5 & F6). split; [exact F1|]. exists (finished_cases t). split; [exact F2|]. split; [exact F3|]. split; [exact F4|]. split; [exact F5|]. intros L. exact (F6 L NE).
Qed.
Print Assumptions lb_run.

(** If no run fails fatally, all cases are run and recorded. *)
Theorem lb_all_recorded : forall C V (ev : C -> nat * nat -> result V -> Prop) (vars : nat * nat -> list string),
  (forall c kj, exists r, ev c kj r) -> (forall c kj r, ev c kj r -> forall x, In x (map fst (rdata r)) <-> In x (vars kj)) ->
  (forall c kj r, ev c kj r -> rterm r = 0) ->
  forall cs sizes, Forall (fun n => 1 <= n) sizes -> sizes <> [] ->
  always_ends (step ev) (init cs sizes) (fun s =>
    finished s /\ left s = [] /\ exists dealt, Permutation cs (map case_of dealt) /\
      Forall (ran_by_group ev sizes) dealt /\ Permutation (runs s) (flat_map runs_of dealt) /\ Forall2 recorded_as dealt (recorded s)).
Proof.
  intros C V ev vars T N NT cs sizes P NE. destruct (lb_run C V ev vars T N cs sizes P NE) as [B F]. split; [exact B|]. intros t X NS. destruct (F t X NS) as (F1 & d & F2 & F3 & F4 & F5 & F6).
  assert (NF : forall x, In x d -> nonfatal x = true). { intros [[c g] rs] Hx. rewrite Forall_forall in F3. destruct (F3 _ Hx) as (n & _ & _ & E). apply forallb_forall. intros [j r] Hj. cbn in *. apply Nat.eqb_eq. eapply NT. apply E. exact Hj. }
  assert (L : left t = []). { destruct (left t) as [|c l] eqn:E; [reflexivity|]. destruct F6 as (x & H1 & H2); [discriminate|]. rewrite (NF _ H1) in H2. discriminate. }
  rewrite L, app_nil_r in F2. split; [exact F1|]. split; [exact L|]. exists d. split; [exact F2|]. split; [exact F3|]. split; [exact F4|]. replace (filter nonfatal d) with d in F5; [exact F5|]. clear -NF. induction d as [|x d IH]; [reflexivity|]. cbn. rewrite (NF x (or_introl eq_refl)). f_equal. apply IH. intros y Hy. apply NF. right. exact Hy.
Qed.
Print Assumptions lb_all_recorded.

(** The processes of a group never work on different cases. *)
Theorem lb_same_case : forall C V (ev : C -> nat * nat -> result V -> Prop) (vars : nat * nat -> list string),
  (forall c kj r, ev c kj r -> forall x, In x (map fst (rdata r)) <-> In x (vars kj)) ->
  forall cs sizes, Forall (fun n => 1 <= n) sizes -> forall s, exec (step ev) (init cs sizes) s ->
  forall G w w' c c', In G (gs s) -> In w (procs G) -> In w' (procs G) -> wst w = Busy c -> wst w' = Busy c' -> c = c'.
Proof. exact same_case. Qed.
Print Assumptions lb_same_case.

(** For every number of parallel does and every communicator that is large enough (this
    is checked before): the master is alone, every group has a process, every rank
    belongs to a group, the processes of group g are the ranks that join the
    communicator of group g, and the master takes their messages for those of group g. *)
Theorem lb_ranks : forall ndoe nprocs sizes offsets, 2 <= ndoe -> ndoe <= nprocs -> layout true ndoe nprocs = Ok (sizes, offsets) ->
  (exists r, sizes = 1 :: r /\ r <> [] /\ Forall (fun n => 1 <= n) r) /\
  (forall x, x < nprocs -> exists g s o, nth_error sizes g = Some s /\ nth_error offsets g = Some o /\ o <= x < o + s) /\
  (forall g s o j, nth_error sizes g = Some s -> nth_error offsets g = Some o -> j < s -> nth_error (colors sizes) (o + j) = Some g /\ get (doe_ids (id_map sizes offsets)) (o + j) = Some g).
Proof.
  intros ndoe nprocs sizes offsets H1 H2 H. assert (H3 : 1 <= nprocs) by lia. destruct (layout_offs _ _ _ _ _ H1 H3 H) as (L & O & T & P & M). split; [|split].
  - destruct (M eq_refl) as (r & ->). exists r. split; [reflexivity|]. specialize (P H2). split; [|exact (Forall_inv_tail P)]. intros ->. cbn in L. lia.
  - exact (proj2 (layout_cover _ _ _ _ _ H1 H3 H)).
  - exact (layout_ranks _ _ _ _ _ H1 H3 H).
Qed.
Print Assumptions lb_ranks.
Example lb_ranks_used : layout true 3 6 = Ok ([1; 3; 2], [0; 1; 4]) /\ colors [1; 3; 2] = [0; 1; 1; 1; 2; 2].
Proof. split; reflexivity. Qed.

(** an evaluation: process j reports the case as its variable; case 9 fails fatally *)
Definition ex_var (j : nat) : string := if j =? 0 then "x" else "y".
Definition ex_res (c : nat) (j : nat) : result nat := mkRes (if c =? 9 then 1 else 0) true "" [(ex_var j, c)].
Definition ex_ev (c : nat) (kj : nat * nat) (r : result nat) : Prop := r = ex_res c (snd kj).
Example ex_ev_ok : (forall c kj, exists r, ex_ev c kj r) /\ (forall c kj r, ex_ev c kj r -> forall x, In x (map fst (rdata r)) <-> In x [ex_var (snd kj)]).
Proof. split; [intros; eexists; reflexivity|]. intros c kj r ->. reflexivity. Qed.

(** one group of two processes: both cases are run by both, and recorded *)
Example lb_run_used : exists s, exec (step ex_ev) (init [3; 4] [2]) s /\ finished s /\ recorded s = [mkE true "" [("y", 3); ("x", 3)]; mkE true "" [("y", 4); ("x", 4)]] /\ length (runs s) = 4.
Proof.
  eexists. split; [|split; [|split]].
  - unfold init. cbn. eapply exec_cons; [apply s_start; reflexivity|]. cbn.
    eapply exec_cons; [apply (s_take _ _ _ _ _ _ _ _ _ [] _ [] _ _ _ [_] [])|]; cbn. eapply exec_cons; [apply (s_take _ _ _ _ _ _ _ _ _ [] _ [_] _ _ _ [] [])|]; cbn.
    eapply exec_cons; [eapply (s_run _ _ _ _ _ _ _ _ _ [] _ [_] _ _ _ [] []); reflexivity|]; cbn. eapply exec_cons; [apply (s_recv _ _ _ _ _ _ _ _ [] _ [_] _ _ _ _ [] [])|]; cbn.
    eapply exec_cons; [eapply (s_run _ _ _ _ _ _ _ _ _ [] _ [] _ _ _ [_] []); reflexivity|]; cbn. eapply exec_cons; [apply (s_recv _ _ _ _ _ _ _ _ [] _ [] _ _ _ _ [_] [])|]; cbn.
    eapply exec_cons; [apply (s_take _ _ _ _ _ _ _ _ _ [] _ [] _ _ _ [_] [])|]; cbn. eapply exec_cons; [apply (s_take _ _ _ _ _ _ _ _ _ [] _ [_] _ _ _ [] [])|]; cbn.
    eapply exec_cons; [eapply (s_run _ _ _ _ _ _ _ _ _ [] _ [_] _ _ _ [] []); reflexivity|]; cbn. eapply exec_cons; [apply (s_recv _ _ _ _ _ _ _ _ [] _ [_] _ _ _ _ [] [])|]; cbn.
    eapply exec_cons; [eapply (s_run _ _ _ _ _ _ _ _ _ [] _ [] _ _ _ [_] []); reflexivity|]; cbn. eapply exec_cons; [apply (s_recv _ _ _ _ _ _ _ _ [] _ [] _ _ _ _ [_] [])|]; cbn.
    eapply exec_cons; [apply (s_exit _ _ _ _ _ _ _ _ _ [] _ [] _ _ [_] [])|]; cbn. eapply exec_cons; [apply (s_exit _ _ _ _ _ _ _ _ _ [] _ [_] _ _ [] [])|]; cbn.
    apply exec_nil.
  - split; [reflexivity|]. cbn. repeat constructor.
  - reflexivity.
  - reflexivity.
Qed.

(** A fatal failure: the run returns as if nothing had happened, the case that failed is
    not recorded, and the cases after it are not run. *)
Theorem lb_fatal_refuted : exists s, exec (step ex_ev) (init [9; 4] [1]) s /\ finished s /\ recorded s = [] /\ left s = [4].
Proof.
  eexists. split; [|split; [|split]].
  - unfold init. cbn. eapply exec_cons; [apply s_start; reflexivity|]. cbn.
    eapply exec_cons; [apply (s_take _ _ _ _ _ _ _ _ _ [] _ [] _ _ _ [] [])|]; cbn. eapply exec_cons; [eapply (s_run _ _ _ _ _ _ _ _ _ [] _ [] _ _ _ [] []); reflexivity|]; cbn.
    eapply exec_cons; [apply (s_recv _ _ _ _ _ _ _ _ [] _ [] _ _ _ _ [] [])|]; cbn. eapply exec_cons; [apply (s_exit _ _ _ _ _ _ _ _ _ [] _ [] _ _ [] [])|]; cbn. apply exec_nil.
  - split; [reflexivity|]. cbn. repeat constructor.
  - reflexivity.
  - reflexivity.
Qed.
Print Assumptions lb_fatal_refuted.

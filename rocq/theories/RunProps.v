(** Property theorems for running a model: C79, C80. *)
From Verif Require VecModel SolveModel.
From Verif Require Import Base RunModel RunSpec RunProofs RunProofs2 RunProofs3 RunProofs4 RunProofs5.
Local Open Scope string_scope.
Local Open Scope nat_scope.
Local Open Scope list_scope.

(** ** C79: one run solves a feed-forward model *)

(** after a run every parameter holds what its source delivers and every component
    has been run on its final parameters *)
Theorem C79_one_run_solves : forall V (vadd vsub : V -> V -> V) vopp (root : sys V) conns s s',
    restores vadd vsub vopp ->
    legal_model root conns -> parallel_independent conns root -> solvers_sweep root -> feed_forward root conns ->
    run_model vadd vsub vopp root conns s = Ok s' ->
    consistent conns s' /\ (forall c, In c (comps root) -> solved c s').
Proof. intros V vadd vsub vopp root conns s s' Hr. apply ff_run. exact Hr. Qed.
Print Assumptions C79_one_run_solves.

(** and such a run does not fail of itself *)
Theorem C79_run_completes : forall V (vadd vsub : V -> V -> V) vopp (root : sys V) conns s, legal_model root conns -> all_once root ->
    (forall c, In c (comps root) -> total c) -> exists s', run_model vadd vsub vopp root conns s = Ok s'.
Proof. exact run_total. Qed.
Print Assumptions C79_run_completes.

(** the inputs of the model are not changed *)
Theorem C79_inputs_kept : forall V (vadd vsub : V -> V -> V) vopp (root : sys V) conns s s',
    restores vadd vsub vopp ->
    legal_model root conns -> parallel_independent conns root -> solvers_sweep root ->
    run_model vadd vsub vopp root conns s = Ok s' ->
    (forall p, ~ In p (map k_tgt conns) -> pv s' p = pv s p) /\
    (forall u, ~ In u (flat_map c_unks (comps root)) -> uv s' u = uv s u) /\
    (forall c u, In c (comps root) -> indep c -> In u (c_unks c) -> uv s' u = uv s u).
Proof. intros V vadd vsub vopp root conns s s' Hr. apply inputs_kept. exact Hr. Qed.
Print Assumptions C79_inputs_kept.

(** the result depends on the inputs only: not on what was in the vectors before
    (so running again changes nothing), not on the order or nesting of the tree,
    not on which of the solvers each group uses *)
Theorem C79_result_determined : forall V (vadd vsub : V -> V -> V) vopp (root root' : sys V) conns s t s' t',
    restores vadd vsub vopp ->
    legal_model root conns -> legal_model root' conns ->
    parallel_independent conns root -> parallel_independent conns root' -> solvers_sweep root -> solvers_sweep root' ->
    feed_forward root conns -> feed_forward root' conns -> (forall c, In c (comps root) <-> In c (comps root')) ->
    (forall c, In c (comps root) -> explicit c \/ indep c) ->
    same_inputs root conns s t ->
    run_model vadd vsub vopp root conns s = Ok s' -> run_model vadd vsub vopp root' conns t = Ok t' -> same_values root s' t'.
Proof. intros V vadd vsub vopp root root' conns s t s' t' Hr. apply ff_order. exact Hr. Qed.
Print Assumptions C79_result_determined.

Theorem C79_run_again : forall V (vadd vsub : V -> V -> V) vopp (root : sys V) conns s s' s'',
    restores vadd vsub vopp ->
    legal_model root conns -> parallel_independent conns root -> solvers_sweep root -> feed_forward root conns ->
    (forall c, In c (comps root) -> explicit c \/ indep c) ->
    run_model vadd vsub vopp root conns s = Ok s' -> run_model vadd vsub vopp root conns s' = Ok s'' -> same_values root s' s''.
Proof.
  intros V vadd vsub vopp root conns s s' s'' Hr L Hp Hs Hf He H1 H2.
  apply (ff_history vadd vsub vopp Hr root conns s s'); try assumption.
  apply same_inputs_sym. apply (run_same_inputs vadd vsub vopp Hr); assumption.
Qed.
Print Assumptions C79_run_again.

(** RunOnce and NLGaussSeidel without Aitken relaxation are such solvers *)
Theorem C79_solvers : forall V names to_q of_q rnorm vnorm o mem, SolveModel.g_aitken o = false ->
    ends_with_sweep (@run_once V) /\ ends_with_sweep (@gs_solver V names to_q of_q rnorm vnorm o mem).
Proof. intros. split; [apply run_once_sweeps|apply gs_sweeps; assumption]. Qed.
Print Assumptions C79_solvers.

(** and Gauss-Seidel at the root of a feed-forward model converges in one sweep:
    it ends after one iteration, not failed, with zero residuals *)
Theorem C79_gauss_seidel_one_sweep : forall V (vadd vsub : V -> V -> V) vopp zero names to_q of_q rnorm vnorm o mem subs conns s s1 s2,
    let root := Grp false run_once subs in
    restores vadd vsub vopp -> (forall x, vadd (vopp x) x = zero) ->
    legal_model root conns -> serial root -> solvers_sweep root -> feed_forward root conns ->
    (forall c, In c (comps root) -> explicit c \/ indep c) -> (forall c, In c (comps root) -> c_resid c = None) ->
    (forall c u, In c (comps root) -> In u (c_unks c) -> c_scale c u zero = zero) ->
    (forall c u, In c (comps root) -> In u (c_unks c) -> c_states c = false -> rv s1 u = zero) ->
    (forall s : st V, (forall u, In u (flat_map c_unks (comps root)) -> rv s u = zero) -> rnorm s = VecModel.Fin 0) ->
    (0 <= SolveModel.g_atol o)%Q -> 1 < SolveModel.g_maxiter o ->
    run_model vadd vsub vopp root conns s = Ok s1 -> apply_model vadd vsub vopp root conns s1 = Ok s2 ->
    same_values root s1 s2 /\ (forall u, In u (flat_map c_unks (comps root)) -> rv s2 u = zero) /\
    exists hist, gs_model vadd vsub vopp names to_q of_q rnorm vnorm o mem subs conns s =
      Ok (SolveModel.mkR s2 mem 1 hist 1 [1], SolveModel.Reported false).
Proof. exact ff_gauss_seidel. Qed.
Print Assumptions C79_gauss_seidel_one_sweep.

(** *** a concrete model over Z: p.x -> a.x, b.x; a.y (tripled) -> b.y *)
Local Open Scope Z_scope.
Definition id_scale (_ : string) (v : Z) : Z := v.
Definition ex_p : comp Z := mkC "p" [] ["p.x"] false (fun _ u => Ok u) None id_scale.
Definition ex_a : comp Z := mkC "a" ["a.x"] ["a.y"] false (fun p _ => match p with [x] => Ok [2 * x] | _ => Err ValueError end) None id_scale.
Definition ex_b : comp Z :=
  mkC "b" ["b.x"; "b.y"; "b.k"] ["b.z"] true (fun p _ => match p with [x; y; k] => Ok [x + y * k] | _ => Err ValueError end) None id_scale.
Definition ex_conns : list (conn Z) :=
  [mkK "a.x" "p.x" (fun v => v); mkK "b.x" "p.x" (fun v => v); mkK "b.y" "a.y" (fun v => 3 * v)].
Definition ex_nested : sys Z := Grp false run_once [Comp ex_p; Grp false run_once [Comp ex_a; Comp ex_b]].
Definition ex_flat : sys Z := Grp false run_once [Comp ex_p; Comp ex_a; Comp ex_b].
(** b before a *)
Definition ex_wrong : sys Z := Grp false run_once [Comp ex_p; Comp ex_b; Comp ex_a].
Definition ex_start : st Z := mkS (fun v => if String.eqb v "b.k" then 10 else 77) (fun v => if String.eqb v "p.x" then 5 else 99) (fun _ => 0).
Definition zrun := run_model Z.add Z.sub Z.opp.
Definition zapply := apply_model Z.add Z.sub Z.opp.

Definition got (r : res (st Z)) : st Z := match r with Ok s => s | Err _ => ex_start end.
Lemma got_ok : forall r, (match r with Ok _ => true | Err _ => false end) = true -> r = Ok (got r).
Proof. intros [s|e] H; [reflexivity|discriminate]. Qed.
Ltac ok := apply got_ok; vm_compute; reflexivity.

Lemma z_restores : restores Z.add Z.sub Z.opp.
Proof. intros x y. lia. Qed.

Ltac fin := repeat constructor; simpl; intuition discriminate.
Ltac ends a b := exists a, b; simpl; repeat split; auto; discriminate.
Lemma ex_legal : forall root, comps root = [ex_p; ex_a; ex_b] \/ comps root = [ex_p; ex_b; ex_a] -> legal_model root ex_conns.
Proof.
  intros root [E|E]; split; rewrite ?E; try solve [fin]; intros k [<-|[<-|[<-|[]]]];
    solve [ends ex_p ex_a | ends ex_p ex_b | ends ex_a ex_b].
Qed.
Lemma ex_ff : forall root, comps root = [ex_p; ex_a; ex_b] -> feed_forward root ex_conns.
Proof.
  intros root E k [<-|[<-|[<-|[]]]].
  - exists ex_p, ex_a. split; [|simpl; auto]. exists [], [], [ex_b]. exact E.
  - exists ex_p, ex_b. split; [|simpl; auto]. exists [], [ex_a], []. exact E.
  - exists ex_a, ex_b. split; [|simpl; auto]. exists [ex_p], [], []. exact E.
Qed.
Lemma ex_explicit : forall c, In c [ex_p; ex_a; ex_b] -> explicit c \/ indep c.
Proof. intros c [<-|[<-|[<-|[]]]]; [right; intros p u; reflexivity|left; intros p u u'; reflexivity|left; intros p u u'; reflexivity]. Qed.
Lemma ex_once : all_once ex_nested /\ all_once ex_flat /\ serial ex_nested /\ serial ex_flat.
Proof. simpl. tauto. Qed.

Example C79_one_run_ex : exists s', zrun ex_nested ex_conns ex_start = Ok s' /\ uv s' "b.z" = 305 /\ pv s' "b.y" = 30 /\
    consistent ex_conns s' /\ (forall c, In c (comps ex_nested) -> solved c s').
Proof.
  exists (got (zrun ex_nested ex_conns ex_start)). split; [ok|]. split; [vm_compute; reflexivity|]. split; [vm_compute; reflexivity|].
  apply (C79_one_run_solves Z Z.add Z.sub Z.opp ex_nested ex_conns ex_start); [exact z_restores|apply ex_legal; left; reflexivity| | | |ok].
  - apply serial_independent. apply ex_once.
  - apply once_sweeps. apply ex_once.
  - apply ex_ff. reflexivity.
Qed.
(** a total version of the components, for every length of argument *)
Definition ex_q : comp Z := mkC "q" [] ["q.x"] false (fun _ u => Ok (firstn 1 (u ++ [0]))) None id_scale.
Definition ex_r : comp Z := mkC "r" ["r.x"] ["r.y"; "r.z"] false (fun p _ => Ok [fold_right Z.add 0 p; 1]) None id_scale.
Example C79_run_completes_ex :
    let root := Grp true run_once [Grp false run_once [Comp ex_q; Comp ex_r]] in let conns := [mkK "r.x" "q.x" Z.opp] in
    legal_model root conns /\ all_once root /\ (forall c, In c (comps root) -> total c) /\
    (let! s' := zrun root conns ex_start in Ok (uv s' "r.y")) = Ok (-99).
Proof.
  intros root conns. split; [split; try solve [fin]; intros k [<-|[]]; ends ex_q ex_r|]. split; [simpl; tauto|]. split; [|vm_compute; reflexivity].
  intros c [<-|[<-|[]]] p u; (eexists; split; [vm_compute; reflexivity|]); [|reflexivity]. destruct u; reflexivity.
Qed.

Example C79_result_determined_ex : exists s' t', zrun ex_nested ex_conns ex_start = Ok s' /\
    zrun ex_flat ex_conns (mkS (fun v => if String.eqb v "b.k" then 10 else -1) (fun v => if String.eqb v "p.x" then 5 else 0) (fun _ => 8)) = Ok t' /\
    same_values ex_nested s' t'.
Proof.
  eexists _, _. split; [ok|]. split; [ok|].
  apply (C79_result_determined Z Z.add Z.sub Z.opp ex_nested ex_flat ex_conns ex_start
    (mkS (fun v => if String.eqb v "b.k" then 10 else -1) (fun v => if String.eqb v "p.x" then 5 else 0) (fun _ => 8)));
    try solve [exact z_restores|apply ex_legal; left; reflexivity|apply serial_independent; apply ex_once
              |apply once_sweeps; apply ex_once|apply ex_ff; reflexivity|exact ex_explicit|ok].
  - intros c. reflexivity.
  - split.
    + intros p Hp Hn. simpl in Hp. destruct Hp as [<-|[<-|[<-|[<-|[]]]]]; try reflexivity; exfalso; apply Hn; simpl; tauto.
    + intros c u [<-|[<-|[<-|[]]]] Hi [<-|[]]; try reflexivity.
      * specialize (Hi [1] [7]). discriminate.
      * specialize (Hi [1; 1; 1] [7]). discriminate.
Qed.

Definition ex_opts : SolveModel.gsopts := SolveModel.mkG (1 # 1000)%Q (1 # 1000)%Q 0%Q 10%nat false false 1%Q 1%Q.
Definition ex_norm (s : st Z) : VecModel.fl := VecModel.Fin (inject_Z (Z.abs (rv s "p.x") + Z.abs (rv s "a.y") + Z.abs (rv s "b.z"))).
Example C79_gauss_seidel_ex : exists s1 s2 hist, zrun ex_flat ex_conns ex_start = Ok s1 /\ zapply ex_flat ex_conns s1 = Ok s2 /\
    uv s2 "b.z" = 305 /\
    gs_model Z.add Z.sub Z.opp ["p.x"; "a.y"; "b.z"] inject_Z Qnum ex_norm (fun _ => VecModel.Fin 0) ex_opts (SolveModel.mkA None 1%Q)
      [Comp ex_p; Comp ex_a; Comp ex_b] ex_conns ex_start =
    Ok (SolveModel.mkR s2 (SolveModel.mkA None 1%Q) 1 hist 1 [1%nat], SolveModel.Reported false).
Proof.
  set (s1 := got (zrun ex_flat ex_conns ex_start)). set (s2 := got (zapply ex_flat ex_conns s1)).
  assert (E1 : zrun ex_flat ex_conns ex_start = Ok s1) by ok. assert (E2 : zapply ex_flat ex_conns s1 = Ok s2) by ok.
  destruct (C79_gauss_seidel_one_sweep Z Z.add Z.sub Z.opp 0 ["p.x"; "a.y"; "b.z"] inject_Z Qnum ex_norm (fun _ => VecModel.Fin 0)
    ex_opts (SolveModel.mkA None 1%Q) [Comp ex_p; Comp ex_a; Comp ex_b] ex_conns ex_start s1 s2) as (Hv & Hz & hist & H);
    try solve [exact z_restores|apply ex_legal; left; reflexivity|apply ex_once|apply once_sweeps; apply ex_once|apply ex_ff; reflexivity
              |exact ex_explicit|exact E1|exact E2|discriminate|reflexivity].
  - intros x. lia.
  - intros c [<-|[<-|[<-|[]]]]; reflexivity.
  - intros c u [<-|[<-|[<-|[]]]] _; reflexivity.
  - intros s H. unfold ex_norm. rewrite !H; [reflexivity|simpl; tauto..].
  - simpl. lia.
  - exists s1, s2, hist. split; [exact E1|]. split; [exact E2|]. split; [vm_compute; reflexivity|exact H].
Qed.

(** a connection against the order of execution is not satisfied after one run *)
Theorem C79_order_needed : exists (root : sys Z) conns s s', legal_model root conns /\ serial root /\ all_once root /\
    (forall c, In c (comps root) -> explicit c \/ indep c) /\ zrun root conns s = Ok s' /\ ~ consistent conns s'.
Proof.
  exists ex_wrong, ex_conns, ex_start. eexists. split; [apply ex_legal; right; reflexivity|]. split; [simpl; tauto|]. split; [simpl; tauto|].
  split; [intros c Hc; apply ex_explicit; simpl in *; tauto|]. split; [ok|].
  intros H. specialize (H (mkK "b.y" "a.y" (fun v => 3 * v)) (or_intror (or_intror (or_introl eq_refl)))). vm_compute in H. discriminate.
Qed.
Print Assumptions C79_order_needed.

(** ** C80: residuals tell whether a model is solved *)

(** setup marks exactly the components run before one of their sources *)
Theorem C80_marked_exactly : forall V (root : sys V) conns, legal_model root conns ->
    exists m, get_ubc root conns = Ok m /\
      forall n, In n m <-> exists b k, In b (comps root) /\ c_name b = n /\ In k conns /\ In (k_tgt k) (c_params b) /\ ~ in_order root k.
Proof. intros V. exact ubc_exact. Qed.
Print Assumptions C80_marked_exactly.

(** after a run, the residual evaluation keeps all unknowns, satisfies all
    connections, shows the residuals of implicit and marked components, and the
    others need none: they are solved *)
Theorem C80_residuals_faithful : forall V (vadd vsub : V -> V -> V) vopp par nl subs conns s s1 s2, let root : sys V := Grp par nl subs in
    restores vadd vsub vopp ->
    legal_model root conns -> serial root -> solvers_sweep root ->
    run_model vadd vsub vopp root conns s = Ok s1 -> apply_model vadd vsub vopp root conns s1 = Ok s2 ->
    (forall u, uv s2 u = uv s1 u) /\ consistent conns s2 /\
    exists m, get_ubc root conns = Ok m /\ forall c, In c (comps root) ->
      (c_states c = true \/ In (c_name c) m -> residual_shown vadd vopp c s2) /\
      (~ In (c_name c) m -> solved c s2).
Proof. intros V vadd vsub vopp par nl subs conns s s1 s2 root Hr. apply residuals_faithful. exact Hr. Qed.
Print Assumptions C80_residuals_faithful.

(** so zero residuals mean that the coupled model is solved, cycles included *)
Theorem C80_zero_means_solved : forall V (vadd vsub : V -> V -> V) vopp zero par nl subs conns s s1 s2, let root : sys V := Grp par nl subs in
    restores vadd vsub vopp -> (forall x y, vadd (vopp x) y = zero -> y = x) ->
    legal_model root conns -> serial root -> solvers_sweep root ->
    (forall c, In c (comps root) -> forall v x, c_scale c v x = zero -> x = zero) ->
    (forall c, In c (comps root) -> c_states c = false -> c_resid c = None) ->
    run_model vadd vsub vopp root conns s = Ok s1 -> apply_model vadd vsub vopp root conns s1 = Ok s2 ->
    (forall u, In u (flat_map c_unks (comps root)) -> rv s2 u = zero) ->
    consistent conns s2 /\ forall c, In c (comps root) ->
      match c_resid c with
      | None => solved c s2
      | Some f => f (map (pv s2) (c_params c)) (map (uv s2) (c_unks c)) = Ok (map (fun _ => zero) (c_unks c))
      end.
Proof. intros V vadd vsub vopp zero par nl subs conns s s1 s2 root Hr. apply zero_means_solved. exact Hr. Qed.
Print Assumptions C80_zero_means_solved.

(** the model run in the wrong order: b is marked and shows what it lacks *)
Example C80_residuals_ex : exists s1 s2, zrun ex_wrong ex_conns ex_start = Ok s1 /\ zapply ex_wrong ex_conns s1 = Ok s2 /\
    get_ubc ex_wrong ex_conns = Ok ["b"] /\ uv s2 "b.z" = 2975 /\ rv s2 "b.z" = 305 - 2975 /\ residual_shown Z.add Z.opp ex_b s2 /\ solved ex_a s2.
Proof.
  eexists _, _. split; [ok|]. split; [ok|].
  split; [vm_compute; reflexivity|]. split; [vm_compute; reflexivity|]. split; [vm_compute; reflexivity|].
  split; [|exists []; vm_compute; reflexivity].
  exists [-2670]. split; [exists [305]|]; (split; [vm_compute; reflexivity|]); [split|]; vm_compute; reflexivity.
Qed.
(** a cycle a -> b -> a solved at a.y = b.z = 0 *)
Example C80_zero_ex :
    let a := mkC "a" ["a.x"] ["a.y"] false (fun p _ => match p with [x] => Ok [2 * x] | _ => Err ValueError end) None id_scale in
    let b := mkC "b" ["b.x"] ["b.z"] false (fun p _ => match p with [x] => Ok [3 * x] | _ => Err ValueError end) None id_scale in
    let root := Grp false run_once [Comp a; Comp b] in
    let conns := [mkK "a.x" "b.z" (fun v : Z => v); mkK "b.x" "a.y" (fun v => v)] in
    legal_model root conns /\ get_ubc root conns = Ok ["a"] /\
    exists s1 s2, zrun root conns (mkS (fun _ => 9) (fun _ => 0) (fun _ => 0)) = Ok s1 /\ zapply root conns s1 = Ok s2 /\
      (forall u, In u ["a.y"; "b.z"] -> rv s2 u = 0) /\ solved a s2 /\ solved b s2.
Proof.
  intros a b root conns. split; [split; try solve [fin]; intros k [<-|[<-|[]]]; [ends b a|ends a b]|]. split; [vm_compute; reflexivity|].
  eexists _, _. split; [ok|]. split; [ok|].
  split; [intros u [<-|[<-|[]]]; vm_compute; reflexivity|]. split; exists []; vm_compute; reflexivity.
Qed.

(** data between children of a ParallelGroup moves before any of them runs, and
    ordinary order does not mark the receiver: it is not solved, and no residual says so *)
Definition ex_par : sys Z :=
  Grp false run_once [Comp ex_p; Grp true run_once [Grp false run_once [Comp ex_a];
    Grp false run_once [Comp (mkC "b" ["b.x"; "b.y"; "b.k"] ["b.z"] false (c_solve ex_b) None id_scale)]]].
Theorem C80_parallel_group_refuted : exists (root : sys Z) conns s s1 s2,
    legal_model root conns /\ feed_forward root conns /\ all_once root /\
    (forall c, In c (comps root) -> explicit c \/ indep c) /\ zrun root conns s = Ok s1 /\ zapply root conns s1 = Ok s2 /\
    (forall u, In u (flat_map c_unks (comps root)) -> rv s2 u = 0) /\ exists c, In c (comps root) /\ ~ solved c s2.
Proof.
  set (b := mkC "b" ["b.x"; "b.y"; "b.k"] ["b.z"] false (c_solve ex_b) None id_scale).
  exists ex_par, ex_conns, ex_start. eexists _, _.
  split; [split; try solve [fin]; intros k [<-|[<-|[<-|[]]]]; [ends ex_p ex_a|ends ex_p b|ends ex_a b]|].
  split.
  { intros k [<-|[<-|[<-|[]]]].
    - exists ex_p, ex_a. split; [|simpl; auto]. exists [], [], [b]. reflexivity.
    - exists ex_p, b. split; [|simpl; auto]. exists [], [ex_a], []. reflexivity.
    - exists ex_a, b. split; [|simpl; auto]. exists [ex_p], [], []. reflexivity. }
  split; [simpl; tauto|].
  split; [intros c [<-|[<-|[<-|[]]]]; [right; intros p u; reflexivity|left; intros p u u'; reflexivity|left; intros p u u'; reflexivity]|].
  split; [ok|]. split; [ok|].
  split; [intros u [<-|[<-|[<-|[]]]]; vm_compute; reflexivity|].
  exists b. split; [simpl; auto|]. intros (g & H). vm_compute in H. discriminate.
Qed.
Print Assumptions C80_parallel_group_refuted.

(** a component directly below a ParallelGroup does not get its residuals scaled *)
Theorem C80_parallel_scaling_refuted : exists (root : sys Z) conns s s2 c,
    legal_model root conns /\ parallel_independent conns root /\ all_once root /\
    zapply root conns s = Ok s2 /\ In c (comps root) /\ c_states c = true /\ ~ residual_shown Z.add Z.opp c s2.
Proof.
  set (c := mkC "c" [] ["c.y"] true (fun _ u => Ok u) (Some (fun _ _ => Ok [5])) (fun _ v => 2 * v)).
  exists (Grp true run_once [Comp c]), [], (mkS (fun _ => 0) (fun _ => 0) (fun _ => 0)). eexists. exists c.
  split; [split; try solve [fin]; intros k []|]. split; [simpl; split; [intros _ x k _ []|tauto]|]. split; [simpl; tauto|].
  split; [ok|]. split; [simpl; auto|]. split; [vm_compute; reflexivity|].
  intros (rs & Ht & Hm & _). unfold true_residual in Ht. simpl in Ht. injection Ht as <-. vm_compute in Hm. discriminate.
Qed.
Print Assumptions C80_parallel_scaling_refuted.

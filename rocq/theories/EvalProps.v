(** Concurrent evaluation (C45). *)
From Coq Require Import Permutation.
From Verif Require Import Base EvalModel EvalSpec EvalProofs.
Local Open Scope nat_scope.

(** For every list of cases, with two workers or more, or with at least as many
    workers as cases, and whatever the function does on a case: under every schedule
    all processes return, every case was evaluated exactly once, and the master
    returns the results of these evaluations. *)
Theorem concurrent_eval_all : forall A R (ev : A -> R -> Prop), (forall a, exists r, ev a r) -> forall cs k, 2 <= k \/ length cs <= k ->
  always_ends (step ev) (init (map Some cs) k) (fun s =>
    finished s /\ Permutation (map fst (log s)) cs /\ (forall a r, In (a, r) (log s) -> ev a r) /\ Permutation (results s) (map snd (log s))).
Proof.
  intros A R ev T cs k E. destruct (all_evaluated A R ev cs k T) as [B F]. split; [exact B|]. intros t X N. destruct (F t X N) as (F1 & F2 & F3 & _ & F5). split; [exact F1|]. split; [exact (F5 E)|]. split; [|exact F2].
  intros a r H. rewrite Forall_forall in F3. exact (F3 _ H).
Qed.
Print Assumptions concurrent_eval_all.

(** the same for a function of the case: the results are those of the cases, in some order *)
Theorem concurrent_eval_results : forall A R (f : A -> R) cs k, 2 <= k \/ length cs <= k ->
  always_ends (step (fun a r => r = f a)) (init (map Some cs) k) (fun s => finished s /\ Permutation (results s) (map f cs)).
Proof.
  intros A R f cs k E. destruct (concurrent_eval_all A R (fun a r => r = f a) (fun a => ex_intro _ (f a) eq_refl) cs k E) as [B F]. split; [exact B|]. intros t X N. destruct (F t X N) as (F1 & F2 & F3 & F4). split; [exact F1|].
  rewrite F4, <- F2. rewrite map_map. replace (map snd (log t)) with (map (fun x => f (fst x)) (log t)); [reflexivity|]. apply map_ext_in. intros [a r] H. symmetry. exact (F3 a r H).
Qed.
Print Assumptions concurrent_eval_results.

(** For every number of workers, also one or none: all processes return, no case is
    evaluated twice, and the master returns the results of the evaluations made. *)
Theorem concurrent_eval_ends : forall A R (ev : A -> R -> Prop), (forall a, exists r, ev a r) -> forall cs k,
  always_ends (step ev) (init (map Some cs) k) (fun s =>
    finished s /\ (exists rest, Permutation cs (map fst (log s) ++ rest)) /\ (forall a r, In (a, r) (log s) -> ev a r) /\ Permutation (results s) (map snd (log s))).
Proof.
  intros A R ev T cs k. destruct (all_evaluated A R ev cs k T) as [B F]. split; [exact B|]. intros t X N. destruct (F t X N) as (F1 & F2 & F3 & F4 & _). split; [exact F1|]. split; [exact F4|]. split; [|exact F2].
  intros a r H. rewrite Forall_forall in F3. exact (F3 _ H).
Qed.
Print Assumptions concurrent_eval_ends.

(** without a communicator, the results of all cases in their order *)
Theorem serial_eval_all : forall A R (call : A -> R) cs, serial call cs = map call cs.
Proof.
  intros A R call cs. unfold serial. assert (K : forall acc, fold_left (fun rs a => rs ++ [call a]) cs acc = acc ++ map call cs); [|exact (K [])].
  induction cs as [|a cs IH]; intros acc; cbn; [rewrite app_nil_r; reflexivity|]. rewrite IH, <- app_assoc. reflexivity.
Qed.
Print Assumptions serial_eval_all.

Example concurrent_eval_all_used : exists s : st nat nat, exec (step (fun a r => r = a * a)) (init (map Some [1; 2; 3]) 2) s /\ finished s /\ results s = [4; 1; 9].
Proof.
  eexists. split; [|split].
  - unfold init. cbn [map repeat].
    eapply exec_cons; [apply (s_seed _ _ _ (Some 1) _ _ _ _ _ [] _ [_])|]. cbn.
    eapply exec_cons; [apply (s_seed _ _ _ (Some 2) _ _ _ _ _ [_] _ [])|]. cbn.
    eapply exec_cons; [apply (s_seed_end _ _ _ _ _ _ _ _ [_; _])|]. cbn.
    eapply exec_cons; [apply (s_work _ _ _ _ _ _ _ _ _ [_] 2 [] [])|]. cbn.
    eapply exec_cons; [apply (s_answer _ _ _ _ _ _ _ _ _ [_] 2 4 [] []); reflexivity|]. cbn.
    eapply exec_cons; [apply (s_recv_send _ _ _ (Some 3) _ _ _ _ [] 4 [] [_] _ []); discriminate|]. cbn.
    eapply exec_cons; [apply (s_work _ _ _ _ _ _ _ _ _ [] 1 [] [_])|]. cbn.
    eapply exec_cons; [apply (s_answer _ _ _ _ _ _ _ _ _ [] 1 1 [] [_]); reflexivity|]. cbn.
    eapply exec_cons; [apply (s_recv_none _ _ _ _ _ _ [] 1 1 []); discriminate|]. cbn.
    eapply exec_cons; [apply (s_work _ _ _ _ _ _ _ _ _ [_] 3 [] [])|]. cbn.
    eapply exec_cons; [apply (s_answer _ _ _ _ _ _ _ _ _ [_] 3 9 [] []); reflexivity|]. cbn.
    eapply exec_cons; [apply (s_recv_last _ _ _ _ _ _ _ [] 2 9 []); reflexivity|]. cbn.
    eapply exec_cons; [apply (s_stop _ _ _ _ _ _ _ _ [] _ [_])|]. cbn.
    eapply exec_cons; [apply (s_stop _ _ _ _ _ _ _ _ [_] _ [])|]. cbn.
    eapply exec_cons; [apply (s_return _ _ _ _ _ _ _ _ [_; _])|]. cbn.
    eapply exec_cons; [apply (s_exit _ _ _ _ _ _ _ _ _ [] [] [_])|]. cbn.
    eapply exec_cons; [apply (s_exit _ _ _ _ _ _ _ _ _ [_] [] [])|]. cbn.
    apply exec_nil.
  - split; [reflexivity|]. cbn. repeat constructor.
  - reflexivity.
Qed.

(** With one worker only the first case is evaluated: the master compares the numbers
    of cases sent and received before it sends the next case. *)
Theorem one_worker_refuted : forall a b, exists s : st nat nat, exec (step (fun a r => r = a)) (init (map Some [a; b]) 1) s /\ finished s /\ results s = [a].
Proof.
  intros a b. eexists. split; [|split].
  - unfold init. cbn [map repeat].
    eapply exec_cons; [apply (s_seed _ _ _ (Some a) _ _ _ _ _ [] _ [])|]. cbn.
    eapply exec_cons; [apply (s_seed_end _ _ _ _ _ _ _ _ [_])|]. cbn.
    eapply exec_cons; [apply (s_work _ _ _ _ _ _ _ _ _ [] a [] [])|]. cbn.
    eapply exec_cons; [apply (s_answer _ _ _ _ _ _ _ _ _ [] a a [] []); reflexivity|]. cbn.
    eapply exec_cons; [apply (s_recv_last _ _ _ _ _ _ _ [] 1 a []); reflexivity|]. cbn.
    eapply exec_cons; [apply (s_stop _ _ _ _ _ _ _ _ [] _ [])|]. cbn.
    eapply exec_cons; [apply (s_return _ _ _ _ _ _ _ _ [_])|]. cbn.
    eapply exec_cons; [apply (s_exit _ _ _ _ _ _ _ _ _ [] [] [])|]. cbn.
    apply exec_nil.
  - split; [reflexivity|]. cbn. repeat constructor.
  - reflexivity.
Qed.
Print Assumptions one_worker_refuted.

(** With no worker beside the master no case is evaluated. *)
Theorem no_worker_refuted : forall a, exists s : st nat nat, exec (step (fun a r => r = a)) (init (map Some [a]) 0) s /\ finished s /\ results s = [].
Proof.
  intros a. eexists. split; [|split].
  - unfold init. cbn [map repeat]. eapply exec_cons; [apply (s_seed_end _ _ _ _ _ _ _ _ [])|]. cbn. eapply exec_cons; [apply (s_return _ _ _ _ _ _ _ _ [])|]. apply exec_nil.
  - split; [reflexivity|]. cbn. constructor.
  - reflexivity.
Qed.
Print Assumptions no_worker_refuted.

(** A case whose args are None stops the worker it is sent to, and the master waits for
    its result for ever. *)
Theorem none_case_refuted : can_hang (step (fun a r : nat => r = a)) (init [None] 2) finished.
Proof.
  eexists. split; [|split].
  - unfold init. cbn [repeat].
    eapply exec_cons; [apply (s_seed _ _ _ None _ _ _ _ _ [] _ [_])|]. cbn.
    eapply exec_cons; [apply (s_seed_stop _ _ _ 2); cbn; lia|]. cbn.
    eapply exec_cons; [apply (s_exit _ _ _ _ _ _ _ _ _ [] [] [_])|]. cbn.
    apply exec_nil.
  - intros u H. inversion H; subst;
      try match goal with E : _ ++ _ :: _ = [] |- _ => apply app_eq_nil in E; destruct E; discriminate end;
      match goal with E : _ ++ _ :: _ = [_; _] |- _ => destruct pre as [|? [|? [|? ?]]]; cbn in E; discriminate E end.
  - intros [H _]. discriminate H.
Qed.
Print Assumptions none_case_refuted.

(** The results come in the order in which the workers finish, not in that of the cases. *)
Theorem order_refuted : exists s : st nat nat, exec (step (fun a r => r = a)) (init (map Some [1; 2]) 2) s /\ finished s /\ results s = [2; 1].
Proof.
  eexists. split; [|split].
  - unfold init. cbn [map repeat].
    eapply exec_cons; [apply (s_seed _ _ _ (Some 1) _ _ _ _ _ [] _ [_])|]. cbn.
    eapply exec_cons; [apply (s_seed _ _ _ (Some 2) _ _ _ _ _ [_] _ [])|]. cbn.
    eapply exec_cons; [apply (s_seed_end _ _ _ _ _ _ _ _ [_; _])|]. cbn.
    eapply exec_cons; [apply (s_work _ _ _ _ _ _ _ _ _ [_] 2 [] [])|]. cbn.
    eapply exec_cons; [apply (s_answer _ _ _ _ _ _ _ _ _ [_] 2 2 [] []); reflexivity|]. cbn.
    eapply exec_cons; [apply (s_recv_none _ _ _ _ _ _ [] 2 2 []); discriminate|]. cbn.
    eapply exec_cons; [apply (s_work _ _ _ _ _ _ _ _ _ [] 1 [] [_])|]. cbn.
    eapply exec_cons; [apply (s_answer _ _ _ _ _ _ _ _ _ [] 1 1 [] [_]); reflexivity|]. cbn.
    eapply exec_cons; [apply (s_recv_last _ _ _ _ _ _ _ [] 1 1 []); reflexivity|]. cbn.
    eapply exec_cons; [apply (s_stop _ _ _ _ _ _ _ _ [] _ [_])|]. cbn.
    eapply exec_cons; [apply (s_stop _ _ _ _ _ _ _ _ [_] _ [])|]. cbn.
    eapply exec_cons; [apply (s_return _ _ _ _ _ _ _ _ [_; _])|]. cbn.
    eapply exec_cons; [apply (s_exit _ _ _ _ _ _ _ _ _ [] [] [_])|]. cbn.
    eapply exec_cons; [apply (s_exit _ _ _ _ _ _ _ _ _ [_] [] [])|]. cbn.
    apply exec_nil.
  - split; [reflexivity|]. cbn. repeat constructor.
  - reflexivity.
Qed.
Print Assumptions order_refuted.

(** Transfer of variables passed by object between processes (C99). *)
From Verif Require Import Base BaseFacts PboModel PboSpec PboProofs.
Local Open Scope string_scope.
Local Open Scope nat_scope.
Local Open Scope list_scope.

(** With buffered sends: any sequence of transfers and computations, in any interleaving of the
    processes, ends; it never blocks before the end; every process that has a target gets the
    value of its source (the [story]), and no message is left over. *)
Theorem C99_delivered : forall {V : Type} (none : V) assign n rds ms, 0 < n -> Forall (sourced n) rds ->
    exists ms' N, story none assign n rds ms ms' /\
      forall k s, steps k (initial none assign n rds ms) s ->
        k <= N /\ (exists s', steps (N - k) s s' /\ all_done s') /\
        (stuck s -> all_done s /\ no_messages s /\ forall i, i < n -> mem (procs s i) = ms' i).
Proof.
  intros V none assign n rds ms Ln F. destruct (rounds_steps none assign n rds ms Ln F) as (ms' & N & Sy & St). exists ms', N. split; [exact Sy|]. intros k s K.
  assert (Sf : stuck (mkNet n (fun i => mkProc [] (ms' i)) (fun _ _ _ => []) : @net V vecs)) by (apply done_stuck; intros i _; reflexivity).
  destruct (confluent N _ _ St Sf k s K) as [L R]. split; [exact L|]. split; [exists (mkNet n (fun i => mkProc [] (ms' i)) (fun _ _ _ => [])); split; [exact R|intros i _; reflexivity]|].
  intros Ss. destruct (confluent_end N _ _ St Sf k s K Ss) as (E & P & C). split; [|split].
  - intros i Li. rewrite (P i Li). reflexivity.
  - intros x y z. rewrite C. reflexivity.
  - intros i Li. rewrite (P i) by (rewrite E; exact Li). reflexivity.
Qed.
Print Assumptions C99_delivered.

(** MPI allows comm.send to wait until the message is received (it does for large objects).
    Then a transfer in which any message is needed never gets to the barrier: nobody can take a
    step, although the transfer is not done. *)
Theorem C99_synchronous_refuted : forall {V : Type} (none : V) assign n rd rds ms tgt src o d, length (locals rd) = n -> In (tgt, src) (conns rd) ->
    o < n -> local rd o src -> (forall q, q < o -> ~ local rd q src) -> d < n -> local rd d tgt -> ~ local rd d src ->
    ~ all_done (initial none assign n (rd :: rds) ms) /\ forall s, ~ step_meet (initial none assign n (rd :: rds) ms) s.
Proof.
  intros V none assign n rd rds ms tgt src o d El I Lo Ho Low Ld Ht Hs.
  assert (Ow : owner rd src = Some o). { apply (holder_owner rd d); [|exact Hs]. split; [exact Ho|]. split; [intros H; contradiction|]. intros _. exact Low. }
  assert (Ne : conns rd <> []) by (intros E; rewrite E in I; destruct I).
  (* the first action of every process is a send or the barrier *)
  assert (Sn : forall i cs t rest, exists x p, sends none rd i t cs ++ Barrier :: rest = x :: p /\ ((exists d t f, x = Send d t f) \/ x = Barrier)).
  { intros i cs. induction cs as [|[tg sr] cs IH]; intros t rest; [eexists _, _; split; [reflexivity|auto]|]. cbn [sends]. destruct (is_owner rd sr i); [|apply IH].
    destruct (receivers rd i tg sr) as [|e es]; [apply IH|]. cbn [map app]. eexists _, _. split; [reflexivity|]. left. eauto. }
  assert (Hd : forall i, exists x p, program none assign (rd :: rds) i = x :: p /\ ((exists d t f, x = Send d t f) \/ x = Barrier)).
  { intros i. cbn [program]. unfold transfer_prog. destruct (conns rd) as [|c cs]; [contradiction|]. rewrite <- !app_assoc. cbn [app]. apply Sn. }
  (* the owner's is a send *)
  assert (So : forall cs t rest, In (tgt, src) cs -> exists e u f p, sends none rd o t cs ++ rest = Send e u f :: p).
  { induction cs as [|[tg sr] cs IH]; intros t rest J; [destruct J|]. cbn [sends]. destruct J as [E|J].
    - inversion E; subst tg sr. rewrite (proj2 (is_owner_iff rd src o) Ow).
      assert (J : In d (receivers rd o tgt src)). { unfold receivers. apply filter_In. split; [apply in_seq; lia|]. apply andb_true_iff. split; [apply andb_true_iff; split|].
        - apply negb_true_iff. apply Nat.eqb_neq. intros ->. contradiction.
        - apply negb_true_iff. apply has_not. exact Hs.
        - apply has_local. exact Ht. }
      destruct (receivers rd o tgt src) as [|e es]; [destruct J|]. cbn [map app]. eauto.
    - destruct (is_owner rd sr o); [|apply IH; exact J]. destruct (receivers rd o tg sr) as [|e es]; [apply IH; exact J|]. cbn [map app]. eauto. }
  assert (Ho' : exists e u f p, program none assign (rd :: rds) o = Send e u f :: p).
  { cbn [program]. unfold transfer_prog. destruct (conns rd) as [|c cs]; [contradiction|]. rewrite <- !app_assoc. apply So. exact I. }
  split.
  - intros D. specialize (D o Lo). cbn [initial procs prog] in D. destruct Ho' as (e & u & f & p & E). rewrite E in D. discriminate.
  - intros s [(i & Li & M)|M].
    + unfold meet in M. cbn [initial procs prog mem] in M. destruct (Hd i) as (x & p & E & [(e & u & f & ->)| ->]); rewrite E in M; [|discriminate].
      destruct (Hd e) as (y & q & E' & [(e' & u' & f' & ->)| ->]); rewrite E' in M; discriminate.
    + unfold sync in M. cbn [initial procs size] in M. destruct (0 <? n); [|discriminate]. cbn [andb] in M. destruct (forallb _ _) eqn:Fb; [|discriminate]. rewrite forallb_forall in Fb. specialize (Fb o ltac:(apply in_seq; lia)). unfold at_barrier in Fb. cbn [prog] in Fb. destruct Ho' as (e & u & f & p & E). rewrite E in Fb. discriminate.
Qed.
Print Assumptions C99_synchronous_refuted.

(** an example: "y" in process 1 only, "z" in 0 and 2; their targets in 0 and 2, and in 1 and 2 *)
Definition rd_ex : @round nat := mkRound [["z"; "a.y"]; ["y"; "b.z"]; ["z"; "a.y"; "b.z"]] [("a.y", "y"); ("b.z", "z")] (fun i m => mkVecs (map (fun kv => (fst kv, 10 * snd kv + i)) (unk m)) (par m)).
Definition ms_ex (i : nat) : @vecs nat :=
  match i with 0 => mkVecs [("z", 7)] [("a.y", 0)] | 1 => mkVecs [("y", 5)] [("b.z", 0)] | _ => mkVecs [("z", 8)] [("a.y", 0); ("b.z", 0)] end.
Example C99_ex_sourced : Forall (sourced 3) [rd_ex; rd_ex].
Proof.
  assert (S : sourced 3 rd_ex). { split; [reflexivity|]. split; [repeat constructor; cbn; intuition discriminate|]. intros tgt src [E|[E|[]]]; inversion E; subst; [exists 1|exists 0]; left; reflexivity. }
  exact (Forall_cons _ S (Forall_cons _ S (Forall_nil _))).
Qed.
(** one of the orders: a scheduler that always fires the highest process that can go *)
Fixpoint run_high (fuel : nat) (s : @net nat (@vecs nat)) : @net nat (@vecs nat) :=
  match fuel with
  | 0 => s
  | S f => match fire 2 s with Some s' => run_high f s' | None => match fire 1 s with Some s' => run_high f s' | None => match fire 0 s with Some s' => run_high f s' | None => match sync s with Some s' => run_high f s' | None => s end end end end
  end.
Example C99_ex_run : let s := run_high 60 (initial 0 (fun _ v => v) 3 [rd_ex; rd_ex] ms_ex) in
    map (fun i => (length (prog (procs s i)), par (mem (procs s i)))) [0; 1; 2] = [(0, [("a.y", 51)]); (0, [("b.z", 70)]); (0, [("a.y", 51); ("b.z", 82)])].
Proof. vm_compute. reflexivity. Qed.
Example C99_ex_blocked : forall s, ~ step_meet (initial 0 (fun _ v => v) 3 [rd_ex; rd_ex] ms_ex) s.
Proof.
  apply (C99_synchronous_refuted 0 (fun _ v => v) 3 rd_ex [rd_ex] ms_ex "a.y" "y" 1 0); try reflexivity; try lia; cbn; auto.
  - intros q L. assert (q = 0) as -> by lia. cbn. intuition discriminate.
  - intuition discriminate.
Qed.

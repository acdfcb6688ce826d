(** Theorems about external commands (C58, C59, C66, C67). *)
From Coq Require Import Qround Qminmax Lqa.
From Verif Require Import Base ProcModel ProcSpec ProcProofs.
Local Open Scope string_scope.
Local Open Scope nat_scope.
Local Open Scope list_scope.

(** ** C58 *)
(** With exact sleeps: waiting ends; it returns the status of a command that has
    ended by then, and otherwise stops it more than one and at most two polling
    intervals after the timeout. *)
Theorem wait_bounded : forall poll_delay t tick c status, (0 < t)%Q -> ticking (delay poll_delay t) 0 tick ->
    exists enough, forall fuel, enough <= fuel ->
    match wait (polled tick c status) poll_delay t fuel with
    | Finished s k => s = status /\ (c <= tick k)%Q /\ (forall j, 1 <= j < k -> (tick j < c)%Q) /\ (tick k <= t + 2 * delay poll_delay t)%Q
    | Stopped k => (tick k < c)%Q /\ (t + delay poll_delay t < tick k)%Q /\ (tick k <= t + 2 * delay poll_delay t)%Q
    | Waiting => False
    end.
Proof.
  intros p t tick c status Ht HT. set (d := delay p t) in *. pose proof (delay_pos p t) as Hd. fold d in Hd.
  pose proof (exact_quot t d Ht Hd) as Hq. set (z := py_int (t / d)) in *.
  assert (Hq2 : (inject_Z z * d <= t < inject_Z z * d + 2 * d)%Q) by lra.
  exists (last_poll z). intros fuel Hf.
  pose proof (last_poll_time tick d 0 t z Ht Hd (Qle_refl 0) HT Hq2) as [_ T2].
  assert (M : ((t / d + 2) * (d + 0) == t + 2 * d)%Q) by (field; intros E0; rewrite E0 in Hd; apply (Qlt_irrefl 0 Hd)). rewrite M in T2.
  unfold wait. fold d. destruct (wait_from_cases tick d 0 c status t (t / d) fuel Ht Hd HT Hq2 Hf) as [(k & E & Hk & Hc & Hj)|[E Hc]]; rewrite E.
  - split; [reflexivity|]. split; [exact Hc|]. split; [exact Hj|]. fold z in Hk. destruct (Nat.eq_dec k (last_poll z)) as [->|Hne]; [exact T2|].
    pose proof (tick_mono d 0 tick Hd HT k (last_poll z) ltac:(lia)). lra.
  - fold z in E, Hc |- *. split; [exact Hc|]. split; [|exact T2].
    assert (Hz : (-1 <= z)%Z).
    { assert (K : (inject_Z (-2) < inject_Z z)%Q). { change (inject_Z (-2)) with (-2)%Q. nra. } rewrite <- Zlt_Qlt in K. lia. }
    pose proof (tick_bounds d 0 tick (last_poll z) HT) as [T1 _]. unfold last_poll in *. rewrite Z2Nat.id in T1 by lia. rewrite inject_Z_plus in T1. change (inject_Z 2) with 2%Q in T1. lra.
Qed.
Print Assumptions wait_bounded.

(** With sleeps that last up to e longer, and a quotient timeout / poll_delay that
    is off by rounding (its integer part at most one too small) *)
Theorem wait_bounded_late_sleeps : forall d e t quot tick c status, (0 < t)%Q -> (0 < d)%Q -> (0 <= e)%Q -> ticking d e tick ->
    (inject_Z (py_int quot) * d <= t < inject_Z (py_int quot) * d + 2 * d)%Q ->
    exists enough, forall fuel, enough <= fuel ->
    match wait_from (polled tick c status) t quot fuel with
    | Finished s k => s = status /\ (c <= tick k)%Q /\ (forall j, 1 <= j < k -> (tick j < c)%Q) /\ (tick k <= (t / d + 2) * (d + e))%Q
    | Stopped k => (tick k < c)%Q /\ (t < tick k)%Q /\ (tick k <= (t / d + 2) * (d + e))%Q
    | Waiting => False
    end.
Proof.
  intros d e t quot tick c status Ht Hd He HT Hq. exists (last_poll (py_int quot)). intros fuel Hf.
  pose proof (last_poll_time tick d e t _ Ht Hd He HT Hq) as [T1 T2].
  destruct (wait_from_cases tick d e c status t quot fuel Ht Hd HT Hq Hf) as [(k & E & Hk & Hc & Hj)|[E Hc]]; rewrite E; [|auto].
  split; [reflexivity|]. split; [exact Hc|]. split; [exact Hj|]. destruct (Nat.eq_dec k (last_poll (py_int quot))) as [->|Hne]; [exact T2|].
  pose proof (tick_mono d e tick Hd HT k (last_poll (py_int quot)) ltac:(lia)). lra.
Qed.
Print Assumptions wait_bounded_late_sleeps.

(** a command that never ends is stopped as well *)
Theorem endless_is_stopped : forall poll_delay t, (0 < t)%Q ->
    exists enough k, forall fuel, enough <= fuel -> wait endless poll_delay t fuel = Stopped k.
Proof.
  intros p t Ht. pose proof (delay_pos p t) as Hd. pose proof (exact_quot t _ Ht Hd) as Hq.
  exists (last_poll (py_int (t / delay p t))), (last_poll (py_int (t / delay p t))). intros fuel Hf. unfold wait.
  apply (endless_stops (delay p t)); auto. lra.
Qed.
Print Assumptions endless_is_stopped.

(** a timeout of zero means no limit: the command is never stopped, and its end is noticed *)
Theorem zero_timeout_waits : forall poll poll_delay fuel k, wait poll poll_delay 0 fuel <> Stopped k.
Proof. intros poll p fuel k. apply loop_forever. apply Qle_refl. Qed.
Print Assumptions zero_timeout_waits.
Theorem zero_timeout_finds : forall poll poll_delay m fuel s, (forall i, i < m -> poll (1 + i) = None) -> poll (1 + m) = Some s -> m < fuel ->
    wait poll poll_delay 0 fuel = Finished s (1 + m).
Proof. intros poll p m fuel s HN HS Hf. unfold wait, wait_from. apply loop_finds; auto. apply Qle_refl. Qed.
Print Assumptions zero_timeout_finds.

(** the default polling interval is between 0.1 and 10 seconds *)
Theorem default_delay : forall t, (1 # 10 <= delay 0 t <= 10)%Q.
Proof.
  intros t. unfold delay. cbn. split; [|apply Q.le_min_l]. apply Q.min_glb; [discriminate|apply Q.le_max_l].
Qed.
Print Assumptions default_delay.

Definition clock (d : Q) (k : nat) : Q := (inject_Z (Z.of_nat k) * d)%Q.
Lemma clock_ticking : forall d, ticking d 0 (clock d).
Proof.
  intros d. unfold ticking, clock. split; [change (inject_Z (Z.of_nat 0)) with 0%Q; ring|]. intros k.
  rewrite Nat2Z.inj_succ, <- Z.add_1_r, inject_Z_plus. change (inject_Z 1) with 1%Q. lra.
Qed.
Example wait_example_finished : wait (polled (clock 2) (7 # 2) 3) 2 5 100 = Finished 3 2.
Proof. vm_compute. reflexivity. Qed.
Example wait_example_stopped : wait (polled (clock 2) 50 3) 2 5 100 = Stopped 4 /\ ticking (delay 2 5) 0 (clock 2).
Proof. split; [vm_compute; reflexivity|apply clock_ticking]. Qed.
Example wait_example_default : wait (polled (clock (1 # 10)) 50 3) 0 5 100 = Stopped 52.
Proof. vm_compute. reflexivity. Qed.

(** ** C59 *)
(** no error is raised exactly when the run is a success *)
Theorem external_success : forall o w, snd (solve_nonlinear o w) = Ok tt <-> success o w.
Proof. exact solve_ok_iff. Qed.
Print Assumptions external_success.

(** return_code is the exit status whenever the command has ended *)
Theorem external_return_code : forall o w s, ended o w s -> fst (solve_nonlinear o w) = s.
Proof. exact solve_code. Qed.
Print Assumptions external_return_code.
(** and one of two markers otherwise *)
Theorem external_return_code_none : forall o w, (forall s, ~ ended o w s) ->
    (o_command o = [] /\ fst (solve_nonlinear o w) = (-12345678)%Z) \/ (o_command o <> [] /\ fst (solve_nonlinear o w) = (-999999)%Z).
Proof.
  intros o w H. pose proof (solve_code_none o w H) as K. destruct (o_command o); cbn in K; [left|right]; split; congruence.
Qed.
Print Assumptions external_return_code_none.

(** the error class is that of fail_hard unless the program cannot be run, the
    system refuses to start it or to read its error output, or it timed out *)
Theorem external_error_class_partial : forall o w e, snd (solve_nonlinear o w) = Err e -> ~ unusable o w -> ~ timed_out o w ->
    (forall x, w_start w <> Err x) -> (forall x, w_read w <> Err x) -> e = if o_fail_hard o then RuntimeError else AnalysisError.
Proof. exact solve_class. Qed.
Print Assumptions external_error_class_partial.

(** in these cases it is fixed *)
Theorem external_error_class_fixed : forall o w,
    (unusable o w -> snd (solve_nonlinear o w) = Err ValueError) /\ (timed_out o w -> snd (solve_nonlinear o w) = Err AnalysisError).
Proof.
  intros o w. split.
  - intros [H|(p & a & C & F & M)]; unfold solve_nonlinear, try_body, execute_local; [rewrite H; reflexivity|rewrite C, M, F; reflexivity].
  - intros ((p & a & C & F) & M & S & W). unfold solve_nonlinear, try_body, execute_local. rewrite C, M, F, S, W. reflexivity.
Qed.
Print Assumptions external_error_class_fixed.

(** so fail_hard does not determine the class *)
Theorem external_error_class_refuted : exists o w, o_fail_hard o = true /\ o_command o <> [] /\ snd (solve_nonlinear o w) = Err AnalysisError.
Proof.
  exists (mkOpts ["sleep"; "9"] true [] []), (mkWorld (fun _ => true) (fun _ => true) (Ok tt) None (fun _ => true) None (Ok tt)).
  split; [reflexivity|]. split; [discriminate|reflexivity].
Qed.
Print Assumptions external_error_class_refuted.

(** a silent check_setup excludes every failure before the start of the process *)
Theorem setup_check_sound : forall o w, check_setup o w = [] ->
    ~ unusable o w /\ (snd (solve_nonlinear o w) = Ok tt <-> w_start w = Ok tt /\ w_wait w = Some 0%Z /\ (forall f, In f (o_outputs o) -> w_after w f = true)).
Proof.
  intros o w H. destruct (setup_silent o w H) as [(p & a & C & F) I]. split.
  - intros [K|(p' & a' & K & K' & _)]; congruence.
  - rewrite external_success. unfold success. split; [tauto|]. intros K. split; [exists p, a; auto|]. tauto.
Qed.
Print Assumptions setup_check_sound.

Example external_example_ok : let o := mkOpts ["run"] true ["in"] ["out"] in
    let w := mkWorld (fun f => String.eqb f "in") (fun _ => true) (Ok tt) (Some 0%Z) (fun f => String.eqb f "out") (Some "error.out") (Ok tt) in
    solve_nonlinear o w = (0%Z, Ok tt) /\ success o w.
Proof. cbv zeta. split; [reflexivity|]. apply external_success. reflexivity. Qed.
Example external_example_status : solve_nonlinear (mkOpts ["run"] false [] []) (mkWorld (fun _ => true) (fun _ => true) (Ok tt) (Some (-9)%Z) (fun _ => true) (Some "error.out") (Ok tt))
    = ((-9)%Z, Err AnalysisError).
Proof. reflexivity. Qed.
Example external_example_missing : solve_nonlinear (mkOpts ["run"] true ["in"] []) (mkWorld (fun _ => false) (fun _ => true) (Ok tt) (Some 0%Z) (fun _ => true) None (Ok tt))
    = ((-999999)%Z, Err RuntimeError).
Proof. reflexivity. Qed.

(** ** C66: check_call *)
(** it raises for every status other than zero ... *)
Theorem check_call_status : forall poll poll_delay t fuel s k, wait poll poll_delay t fuel = Finished s k ->
    exists rc, return_code (wait poll poll_delay t fuel) = Some rc /\ (check_call rc = Ok tt <-> s = 0%Z).
Proof.
  intros poll p t fuel s k H. rewrite H. exists (Some s). split; [reflexivity|]. unfold check_call. destruct (Z.eqb_spec s 0); split; congruence.
Qed.
Print Assumptions check_call_status.
(** ... but not when the command was stopped for exceeding its time *)
Theorem check_call_timeout_refuted : forall poll_delay t, (0 < t)%Q ->
    exists fuel k rc, wait endless poll_delay t fuel = Stopped k /\ return_code (wait endless poll_delay t fuel) = Some rc /\ check_call rc = Ok tt.
Proof.
  intros p t Ht. destruct (endless_is_stopped p t Ht) as (n & k & H). exists n, k, None. rewrite (H n (le_n n)). auto.
Qed.
Print Assumptions check_call_timeout_refuted.
Example check_call_example : check_call (Some 2%Z) = Err RuntimeError /\ check_call (Some 0%Z) = Ok tt.
Proof. split; reflexivity. Qed.

(** ** C67: files opened for a command *)
(** all are closed again, whether or not the process starts and polling raises,
    if each of them can be opened *)
Theorem command_files_closed_partial : forall can_open popen polling sin sout serr,
    (forall f, In (SFile f) [sin; sout; serr] -> can_open f = true) -> fst (shell_run can_open popen polling sin sout serr) = [].
Proof. exact shell_run_closed. Qed.
Print Assumptions command_files_closed_partial.
(** if a later one cannot be opened the earlier ones stay open *)
Theorem command_files_closed_refuted : exists can_open sin sout serr, forall popen polling,
    shell_run can_open popen polling sin sout serr = (["in"], Err OSError).
Proof. exists (fun f => String.eqb f "in"), (SFile "in"), (SFile "/no/such"), SGiven. intros. reflexivity. Qed.
Print Assumptions command_files_closed_refuted.
Example command_files_example : shell_run (fun _ => true) (Err OSError) (Ok None) (SFile "a") (SFile "b") (SFile "b") = ([], Err OSError) /\
    shell_init (fun _ => true) (Ok tt) (SFile "a") (SFile "b") (SFile "b") = (["b"; "b"; "a"], None).
Proof. split; reflexivity. Qed.

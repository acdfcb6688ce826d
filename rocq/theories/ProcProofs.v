(** Lemmas about external commands. *)
From Coq Require Import Qround Qminmax Lqa Permutation Qfield.
From Verif Require Import Base ProcModel ProcSpec.
Local Open Scope nat_scope.

Lemma delay_pos : forall p t, (0 < delay p t)%Q.
Proof.
  intros p t. unfold delay. destruct (Qle_bool p 0) eqn:E.
  - apply Q.min_glb_lt; [reflexivity|]. eapply Qlt_le_trans; [|apply Q.le_max_l]. reflexivity.
  - destruct (Qlt_le_dec 0 p) as [H|H]; [exact H|]. apply Qle_bool_iff in H. congruence.
Qed.

Lemma loop_cases : forall poll t, (0 < t)%Q -> forall fuel k n, Z.to_nat n < fuel ->
    (exists j s, j <= Z.to_nat n /\ (forall i, i < j -> poll (k + i) = None) /\ poll (k + j) = Some s /\ wait_loop poll t fuel k n = Finished s (k + j)) \/
    ((forall i, i <= Z.to_nat n -> poll (k + i) = None) /\ wait_loop poll t fuel k n = Stopped (k + Z.to_nat n)).
Proof.
  intros poll t Ht. assert (Hb : Qle_bool t 0 = false).
  { destruct (Qle_bool t 0) eqn:E; [|reflexivity]. apply Qle_bool_iff in E. exfalso. apply (Qlt_irrefl 0). eapply Qlt_le_trans; eassumption. }
  induction fuel as [|fuel IH]; intros k n Hn; [lia|]. cbn [wait_loop]. rewrite Hb. cbn [negb andb].
  destruct (poll k) as [s|] eqn:E.
  - left. exists 0, s. split; [lia|]. split; [intros i Hi; lia|]. rewrite Nat.add_0_r. split; [exact E|reflexivity].
  - destruct (Z.ltb_spec (n - 1) 0) as [Hneg|Hpos].
    + right. replace (Z.to_nat n) with 0 by lia. split; [|rewrite Nat.add_0_r; reflexivity]. intros i Hi. replace (k + i) with k by lia. exact E.
    + replace (Z.to_nat n) with (S (Z.to_nat (n - 1))) in * by lia. destruct (IH (S k) (n - 1)%Z ltac:(lia)) as [(j & s & H1 & H2 & H3 & H4)|[H1 H2]].
      * left. exists (S j), s. split; [lia|]. replace (k + S j) with (S k + j) by lia. split; [|split; [exact H3|exact H4]].
        intros [|i] Hi; [rewrite Nat.add_0_r; exact E|]. replace (k + S i) with (S k + i) by lia. apply H2. lia.
      * right. replace (k + S (Z.to_nat (n - 1))) with (S k + Z.to_nat (n - 1)) by lia. split; [|exact H2].
        intros [|i] Hi; [rewrite Nat.add_0_r; exact E|]. replace (k + S i) with (S k + i) by lia. apply H1. lia.
Qed.

Lemma loop_forever : forall poll t, (t <= 0)%Q -> forall fuel k n j, wait_loop poll t fuel k n <> Stopped j.
Proof.
  intros poll t Ht. apply Qle_bool_iff in Ht. induction fuel as [|fuel IH]; intros k n j; [discriminate|]. cbn [wait_loop].
  destruct (poll k); [discriminate|]. rewrite Ht. cbn [negb andb]. apply IH.
Qed.
Lemma loop_finds : forall poll t, (t <= 0)%Q -> forall m fuel k n s, (forall i, i < m -> poll (k + i) = None) -> poll (k + m) = Some s -> m < fuel ->
    wait_loop poll t fuel k n = Finished s (k + m).
Proof.
  intros poll t Ht. apply Qle_bool_iff in Ht. induction m as [|m IH]; intros [|fuel] k n s HN HS Hf; try lia.
  - rewrite Nat.add_0_r in *. cbn [wait_loop]. rewrite HS. reflexivity.
  - cbn [wait_loop]. rewrite <- (Nat.add_0_r k) at 1. rewrite (HN 0) by lia. rewrite Ht. cbn [negb andb].
    replace (k + S m) with (S k + m) by lia. apply IH; [|replace (S k + m) with (k + S m) by lia; exact HS|lia].
    intros i Hi. replace (S k + i) with (k + S i) by lia. apply HN. lia.
Qed.

Lemma tick_bounds : forall d e tick k, ticking d e tick -> (inject_Z (Z.of_nat k) * d <= tick k <= inject_Z (Z.of_nat k) * (d + e))%Q.
Proof.
  intros d e tick k [H0 HS]. induction k as [|k IH].
  - change (inject_Z (Z.of_nat 0)) with 0%Q. rewrite H0. lra.
  - rewrite Nat2Z.inj_succ, <- Z.add_1_r, inject_Z_plus. change (inject_Z 1) with 1%Q. specialize (HS k). lra.
Qed.
Lemma tick_mono : forall d e tick, (0 < d)%Q -> ticking d e tick -> forall j k, j < k -> (tick j < tick k)%Q.
Proof.
  intros d e tick Hd [_ HS] j k H. induction H as [|k H IH]; [specialize (HS j)|specialize (HS k)]; lra.
Qed.

(** the poll after which the command is stopped *)
Definition last_poll (z : Z) : nat := Z.to_nat (z + 2).

Lemma wait_from_cases : forall tick d e c status t quot fuel, (0 < t)%Q -> (0 < d)%Q -> ticking d e tick ->
    (inject_Z (py_int quot) * d <= t < inject_Z (py_int quot) * d + 2 * d)%Q -> last_poll (py_int quot) <= fuel ->
    (exists k, wait_from (polled tick c status) t quot fuel = Finished status k /\ 1 <= k <= last_poll (py_int quot) /\ (c <= tick k)%Q /\
               (forall j, 1 <= j < k -> (tick j < c)%Q)) \/
    (wait_from (polled tick c status) t quot fuel = Stopped (last_poll (py_int quot)) /\ (tick (last_poll (py_int quot)) < c)%Q).
Proof.
  intros tick d e c status t quot fuel Ht Hd HT Hq Hf. set (z := py_int quot) in *.
  assert (Hz : (-1 <= z)%Z).
  { assert (K : (inject_Z (-2) < inject_Z z)%Q). { change (inject_Z (-2)) with (-2)%Q. nra. } rewrite <- Zlt_Qlt in K. lia. }
  assert (P : forall k, polled tick c status k = None -> (tick k < c)%Q).
  { intros k H. unfold polled in H. destruct (Qle_bool c (tick k)) eqn:E; [discriminate|]. destruct (Qlt_le_dec (tick k) c) as [L|L]; [exact L|]. apply Qle_bool_iff in L. congruence. }
  unfold wait_from. fold z. unfold last_poll in *.
  destruct (loop_cases (polled tick c status) t Ht fuel 1 (z + 1) ltac:(lia)) as [(j & s & H1 & H2 & H3 & H4)|[H1 H2]].
  - left. exists (1 + j). unfold polled in H3. destruct (Qle_bool c (tick (1 + j))) eqn:E; [|discriminate]. injection H3 as <-.
    split; [exact H4|]. split; [lia|]. split; [apply Qle_bool_iff; exact E|]. intros i Hi. apply P. replace i with (1 + (i - 1)) by lia. apply H2. lia.
  - right. replace (Z.to_nat (z + 2)) with (1 + Z.to_nat (z + 1)) by lia. split; [exact H2|]. apply P. apply H1. lia.
Qed.

Lemma endless_stops : forall d t quot fuel, (0 < t)%Q -> (0 < d)%Q ->
    (inject_Z (py_int quot) * d <= t < inject_Z (py_int quot) * d + 2 * d)%Q -> last_poll (py_int quot) <= fuel ->
    wait_from endless t quot fuel = Stopped (last_poll (py_int quot)).
Proof.
  intros d t quot fuel Ht Hd Hq Hf. set (z := py_int quot) in *.
  assert (Hz : (-1 <= z)%Z).
  { assert (K : (inject_Z (-2) < inject_Z z)%Q). { change (inject_Z (-2)) with (-2)%Q. nra. } rewrite <- Zlt_Qlt in K. lia. }
  unfold wait_from. fold z. unfold last_poll in *.
  destruct (loop_cases endless t Ht fuel 1 (z + 1) ltac:(lia)) as [(j & s & H1 & H2 & H3 & H4)|[H1 H2]]; [discriminate|].
  rewrite H2. f_equal. lia.
Qed.

Lemma last_poll_time : forall tick d e t z, (0 < t)%Q -> (0 < d)%Q -> (0 <= e)%Q -> ticking d e tick ->
    (inject_Z z * d <= t < inject_Z z * d + 2 * d)%Q ->
    (t < tick (last_poll z) <= (t / d + 2) * (d + e))%Q.
Proof.
  intros tick d e t z Ht Hd He HT Hq. unfold last_poll.
  assert (Hz : (-1 <= z)%Z).
  { assert (K : (inject_Z (-2) < inject_Z z)%Q). { change (inject_Z (-2)) with (-2)%Q. nra. } rewrite <- Zlt_Qlt in K. lia. }
  pose proof (tick_bounds d e tick (Z.to_nat (z + 2)) HT) as [T1 T2]. rewrite Z2Nat.id in T1, T2 by lia. rewrite inject_Z_plus in T1, T2. change (inject_Z 2) with 2%Q in *.
  assert (Q1 : (inject_Z z <= t / d)%Q) by (apply Qle_shift_div_l; [exact Hd|apply Hq]). split; [lra|]. nra.
Qed.

Lemma exact_quot : forall t d, (0 < t)%Q -> (0 < d)%Q ->
    (inject_Z (py_int (t / d)) * d <= t < inject_Z (py_int (t / d)) * d + d)%Q.
Proof.
  intros t d Ht Hd. assert (P : (0 <= t / d)%Q) by (apply Qle_shift_div_l; lra). unfold py_int. assert (E : Qle_bool 0 (t / d) = true) by (apply Qle_bool_iff; exact P). rewrite E.
  pose proof (Qfloor_le (t / d)) as A. pose proof (Qlt_floor (t / d)) as B. rewrite inject_Z_plus in B. change (inject_Z 1) with 1%Q in B.
  assert (M : (t / d * d == t)%Q) by (field; intros E0; rewrite E0 in Hd; apply (Qlt_irrefl 0 Hd)). set (z := inject_Z (Qfloor (t / d))) in *. split; nra.
Qed.

(** ** files *)
Lemma remove_one_perm : forall x l, In x l -> Permutation l (x :: remove_one x l).
Proof.
  intros x. induction l as [|y l IH]; intros H; [destruct H|]. cbn. destruct (String.eqb_spec x y) as [->|Hne]; [reflexivity|].
  destruct H as [H|H]; [congruence|]. rewrite (IH H) at 1. apply perm_swap.
Qed.
Lemma close_perm : forall l o, Permutation l o -> fold_left (fun o f => remove_one f o) l o = [].
Proof.
  induction l as [|x l IH]; intros o H; [apply Permutation_nil in H; subst; reflexivity|]. cbn. apply IH.
  apply (Permutation_cons_inv (a := x)). rewrite H. apply remove_one_perm. apply (Permutation_in x H). left. reflexivity.
Qed.
Lemma shell_run_closed : forall can_open popen polling sin sout serr,
    (forall f, In (SFile f) [sin; sout; serr] -> can_open f = true) -> fst (shell_run can_open popen polling sin sout serr) = [].
Proof.
  intros can_open popen polling sin sout serr H.
  assert (C : close_files sin sout serr (names serr ++ names sout ++ names sin) = []).
  { unfold close_files. apply close_perm. rewrite (Permutation_app_comm (names sin)). rewrite (Permutation_app_comm (names sout)), <- !app_assoc. reflexivity. }
  assert (O : forall s o, In s [sin; sout; serr] -> open_stream can_open s o = (names s ++ o, None)).
  { intros [f|] o Hs; cbn; [rewrite H by exact Hs|]; reflexivity. }
  unfold shell_run, shell_init. rewrite (O sin) by (left; reflexivity). rewrite (O sout) by (right; left; reflexivity). rewrite (O serr) by (right; right; left; reflexivity).
  rewrite app_nil_r. destruct popen; cbn [fst]; exact C.
Qed.

(** ** external code *)
Lemma missing_nil : forall there files, missing there files = [] <-> forall f, In f files -> there f = true.
Proof.
  intros there files. unfold missing. split.
  - intros H f Hf. destruct (there f) eqn:E; [reflexivity|]. assert (K : In f (filter (fun f => negb (there f)) files)) by (apply filter_In; rewrite E; auto). rewrite H in K. destruct K.
  - intros H. destruct (filter _ files) as [|f r] eqn:E; [reflexivity|]. assert (K : In f (filter (fun f => negb (there f)) files)) by (rewrite E; left; reflexivity).
    apply filter_In in K. destruct K as [K1 K2]. rewrite (H f K1) in K2. discriminate.
Qed.

Lemma solve_ok_iff : forall o w, snd (solve_nonlinear o w) = Ok tt <-> success o w.
Proof.
  intros o w. unfold solve_nonlinear, success, try_body, execute_local. destruct (o_command o) as [|program args] eqn:C.
  - cbn. split; [discriminate|]. intros ((p & a & H & _) & _). discriminate.
  - destruct (missing (w_before w) (o_inputs o)) as [|m ms] eqn:M.
    + pose proof (proj1 (missing_nil _ _) M) as M'. destruct (w_found w program) eqn:F.
      * destruct (w_start w) as [[]|e] eqn:S; cbn [bind].
        -- destruct (w_wait w) as [s|]; [|cbn; split; [discriminate|intros (_ & _ & _ & H & _); discriminate]].
           destruct (Z.eqb_spec s 0) as [->|Hs].
           ++ destruct (missing (w_after w) (o_outputs o)) as [|m ms] eqn:A; cbn.
              ** pose proof (proj1 (missing_nil _ _) A) as A'. split; [intros _|reflexivity]. split; [exists program, args; auto|]. auto.
              ** split; [discriminate|]. intros (_ & _ & _ & _ & H). rewrite <- missing_nil, A in H. discriminate.
           ++ cbn. split.
              ** destruct (w_stderr w) as [f|]; [|discriminate]. destruct (w_after w f); [|discriminate]. destruct (w_read w); discriminate.
              ** intros (_ & _ & _ & H & _). congruence.
        -- cbn. split; [discriminate|]. intros (_ & _ & H & _). discriminate.
      * cbn. split; [discriminate|]. intros ((p & a & H & H') & _). congruence.
    + cbn. split; [discriminate|]. intros (_ & H & _). rewrite <- missing_nil, M in H. discriminate.
Qed.

Lemma solve_code : forall o w s, ended o w s -> fst (solve_nonlinear o w) = s.
Proof.
  intros o w s ((p & a & C & F) & I & S & W). unfold solve_nonlinear, try_body, execute_local. rewrite C, F, S, W. apply missing_nil in I. rewrite I. reflexivity.
Qed.
Lemma solve_code_none : forall o w, (forall s, ~ ended o w s) -> fst (solve_nonlinear o w) = if forallb (fun _ => false) (o_command o) then (-12345678)%Z else (-999999)%Z.
Proof.
  intros o w H. unfold solve_nonlinear, try_body, execute_local. destruct (o_command o) as [|program args] eqn:C; [reflexivity|]. cbn [forallb andb].
  destruct (missing (w_before w) (o_inputs o)) as [|m ms] eqn:M; [|reflexivity]. destruct (w_found w program) eqn:F; [|reflexivity].
  destruct (w_start w) as [[]|e] eqn:S; [|reflexivity]. cbn [bind]. destruct (w_wait w) as [s|] eqn:W; [|reflexivity].
  exfalso. apply (H s). split; [exists program, args; auto|]. split; [apply missing_nil; exact M|]. auto.
Qed.

Lemma solve_class : forall o w e, snd (solve_nonlinear o w) = Err e -> ~ unusable o w -> ~ timed_out o w ->
    (forall x, w_start w <> Err x) -> (forall x, w_read w <> Err x) -> e = if o_fail_hard o then RuntimeError else AnalysisError.
Proof.
  intros o w e H HU HT HS HR. change (e = err_class o). unfold solve_nonlinear, try_body, execute_local in H. unfold unusable in HU. unfold timed_out in HT.
  destruct (o_command o) as [|program args] eqn:C; [exfalso; apply HU; left; reflexivity|].
  destruct (missing (w_before w) (o_inputs o)) as [|m ms] eqn:M; [|cbn in H; congruence].
  destruct (w_found w program) eqn:F; [|exfalso; apply HU; right; exists program, args; auto].
  destruct (w_start w) as [[]|x] eqn:S; [|exfalso; apply (HS x); reflexivity]. cbn [bind] in H.
  destruct (w_wait w) as [s|] eqn:W; [|exfalso; apply HT; split; [exists program, args; auto|auto]].
  destruct (s =? 0)%Z; cbn in H.
  - destruct (missing (w_after w) (o_outputs o)); congruence.
  - destruct (w_stderr w) as [f|]; [|congruence]. destruct (w_after w f); [|congruence]. destruct (w_read w) as [[]|x] eqn:R; [cbn in H; congruence|]. exfalso. apply (HR x). reflexivity.
Qed.

Lemma setup_silent : forall o w, check_setup o w = [] ->
    (exists program args, o_command o = program :: args /\ w_found w program = true) /\ (forall f, In f (o_inputs o) -> w_before w f = true).
Proof.
  intros o w H. unfold check_setup in H. apply app_eq_nil in H. destruct H as [H1 H2]. split.
  - destruct (o_command o) as [|program args]; [discriminate|]. exists program, args. split; [reflexivity|].
    destruct (forallb blank (program :: args)); [discriminate|]. destruct (w_found w program); [reflexivity|discriminate].
  - apply missing_nil. destruct (missing (w_before w) (o_inputs o)); [reflexivity|discriminate].
Qed.

(** C62: the direct solver and the derivative mode. *)
From Verif Require Import Base DirectModel DirectSpec.
Local Open Scope string_scope.
Local Open Scope nat_scope.
Local Open Scope list_scope.

Section Main.
  Context {M V : Type} (tr : M -> M) (solve : M -> V -> V).
  Notation run := (@drun M V tr solve).
  Notation assembled := (@assembled M tr).
  Lemma set_nth_length : forall A (l : list A) i a, i < length l -> length (set_nth l i a) = length l.
  Proof. intros A l i a H. unfold set_nth. rewrite app_length. cbn [length]. rewrite firstn_length, skipn_length. lia. Qed.
  Lemma set_nth_same : forall A (l : list A) i a, i < length l -> nth_error (set_nth l i a) i = Some a.
  Proof. intros A l i a H. unfold set_nth. rewrite nth_error_app2; rewrite firstn_length; [|lia]. replace (i - Nat.min i (length l)) with 0 by lia. reflexivity. Qed.
  Definition factor (s : @dsolver M) : option M := match ds_meth s with LU => ds_lup s | Plain => ds_jac s end.

  (** what the state knows *)
  Definition knows (op : M) (used : option (option (nat * dmode))) (st : @dstate M) : Prop :=
    sy_op (fst st) = op /\ (used = Some None -> sy_changed (fst st) = true) /\
    forall who mode, used = Some (Some (who, mode)) -> sy_changed (fst st) = false /\ exists s, nth_error (snd st) who = Some s /\ factor s = Some (assembled op mode).
  Lemma solve_loop_ok : forall mode rhs sy s, sy_changed sy = false -> factor s = Some (assembled (sy_op sy) mode) ->
      solve_loop tr solve mode sy s rhs = Ok (sy, s, map (fun p => (fst p, solve (assembled (sy_op sy) mode) (snd p))) rhs).
  Proof.
    intros mode. induction rhs as [|[v b] rhs IH]; intros sy s C Fs; [reflexivity|]. cbn [solve_loop]. unfold solve_one. rewrite C. fold (factor s). rewrite Fs. cbn. rewrite IH by assumption. reflexivity.
  Qed.
  Lemma solve_loop_new : forall mode v b rhs sy s, sy_changed sy = true ->
      exists s', factor s' = Some (assembled (sy_op sy) mode) /\
        solve_loop tr solve mode sy s ((v, b) :: rhs) = Ok (mkSys (sy_op sy) false, s', map (fun p => (fst p, solve (assembled (sy_op sy) mode) (snd p))) ((v, b) :: rhs)).
  Proof.
    intros mode v b rhs sy s C. set (j := assembled (sy_op sy) mode). set (s' := mkDs (ds_meth s) (Some j) (match ds_meth s with LU => Some j | Plain => ds_lup s end) (Some mode)). exists s'.
    assert (Fs : factor s' = Some j) by (unfold s', factor; cbn; destruct (ds_meth s); reflexivity). split; [exact Fs|]. cbn [solve_loop]. unfold solve_one. rewrite C. fold j. fold s'. fold (factor s'). rewrite Fs. cbn. rewrite (solve_loop_ok mode rhs (mkSys (sy_op sy) false) s' eq_refl Fs). reflexivity.
  Qed.
  Lemma factor_mode : forall s m, factor (mkDs (ds_meth s) (ds_jac s) (ds_lup s) m) = factor s. Proof. reflexivity. Qed.

  (** Provided that every change of the mode, of the solver and of the solution method
      comes with a linearization: every solve gives the solution for the requested mode, for
      every history. *)
  Theorem direct_mode_partial : forall h op used st,
      knows op used st -> careful (length (snd st)) used h -> exists st', run st h = Ok (st', wanted tr solve op h).
  Proof.
    induction h as [|e h IH]; intros op used [sy ss] (Eop & Ku & Km) C; [eexists; reflexivity|]. cbn [fst snd] in *. cbn [drun]. destruct e as [op'|who mode rhs|who m]; cbn [careful wanted] in *.
    - cbn [dstep bind]. destruct (IH op' (Some None) (mkSys op' true, ss)) as (st' & E); [|exact C|cbn; rewrite E; eexists; reflexivity]. split; [reflexivity|]. split; [reflexivity|]. intros ? ? X. discriminate X.
    - destruct C as (Lw & HU & C). cbn [dstep]. destruct (nth_error ss who) as [s|] eqn:N; [|apply nth_error_None in N; lia]. unfold direct_solve.
      set (s0 := match ds_mode s with None => _ | Some _ => s end). assert (F0 : factor s0 = factor s) by (unfold s0; destruct (ds_mode s); reflexivity). clearbody s0.
      change (match mode with Fwd => op | Rev => tr op end) with (assembled op mode). destruct rhs as [|[v b] rhs].
      + cbn. destruct (IH op used (sy, set_nth ss who s0)) as (st' & E).
        * split; [exact Eop|]. split; [exact Ku|]. intros who' mode' X. destruct (Km who' mode' X) as (K1 & s1 & K2 & K3). split; [exact K1|]. cbn [snd]. destruct (Nat.eq_dec who' who) as [-> |NE].
          -- exists s0. split; [apply set_nth_same; exact Lw|]. rewrite F0. congruence.
          -- exists s1. split; [|exact K3]. unfold set_nth. destruct (Nat.lt_ge_cases who' who) as [L|L].
             ++ rewrite nth_error_app1 by (rewrite firstn_length; lia). rewrite <- K2. rewrite <- (firstn_skipn who ss) at 2. rewrite nth_error_app1 by (rewrite firstn_length; lia). reflexivity.
             ++ rewrite nth_error_app2 by (rewrite firstn_length; lia). rewrite firstn_length. replace (who' - Nat.min who (length ss)) with (S (who' - S who)) by lia. cbn [nth_error]. rewrite <- K2. rewrite <- (firstn_skipn (S who) ss) at 2. rewrite nth_error_app2 by (rewrite firstn_length; lia). rewrite firstn_length. f_equal. lia.
        * cbn [snd]. rewrite set_nth_length by exact Lw. exact C.
        * rewrite E. eexists. reflexivity.
      + assert (OUT : exists s', factor s' = Some (assembled op mode) /\ solve_loop tr solve mode sy s0 ((v, b) :: rhs) = Ok (mkSys op false, s', map (fun p => (fst p, solve (assembled op mode) (snd p))) ((v, b) :: rhs))).
        { destruct HU as [X|[U|U]]; [discriminate X| |].
          - destruct (solve_loop_new mode v b rhs sy s0 (Ku U)) as (s' & Fs & E). rewrite Eop in *. exists s'. auto.
          - destruct (Km who mode U) as (K1 & s1 & K2 & K3). assert (s1 = s) by congruence. subst s1. exists s0. split; [congruence|]. rewrite (solve_loop_ok mode _ sy s0 K1) by (rewrite Eop; congruence). destruct sy as [o c]. cbn in *. subst. reflexivity. }
        destruct OUT as (s' & Fs & E). rewrite E. cbn [bind]. destruct (IH op (Some (Some (who, mode))) (mkSys op false, set_nth ss who s')) as (st' & E').
        * split; [reflexivity|]. split; [intros X; discriminate X|]. intros who' mode' X. injection X as <- <-. split; [reflexivity|]. exists s'. split; [apply set_nth_same; exact Lw|exact Fs].
        * cbn [snd]. rewrite set_nth_length by exact Lw. exact C.
        * rewrite E'. eexists. reflexivity.
    - destruct C as (Lw & HU & C). cbn [dstep]. destruct (nth_error ss who) as [s|] eqn:N; [|apply nth_error_None in N; lia]. cbn [bind]. destruct (IH op used (sy, set_nth ss who (mkDs m (ds_jac s) (ds_lup s) (ds_mode s)))) as (st' & E).
      + split; [exact Eop|]. split; [exact Ku|]. intros who' mode' X. destruct HU as [U|U]; rewrite U in X; discriminate X.
      + cbn [snd]. rewrite set_nth_length by exact Lw. exact C.
      + rewrite E. eexists. reflexivity.
  Qed.

  (** In particular for what Problem.calc_gradient and Newton.solve do, in any order of
      modes and with any number of solvers. *)
  Theorem direct_sessions : forall n sessions op, (forall x, In x sessions -> let '(_, who, _, _) := x in who < n) ->
      let h := flat_map session sessions in
      exists st', run (mkSys op false, repeat new_solver n) h = Ok (st', wanted tr solve op h).
  Proof.
    intros n sessions op H h. apply (direct_mode_partial h op None).
    - split; [reflexivity|]. split; [intros X; discriminate X|]. intros ? ? X. discriminate X.
    - cbn [snd]. rewrite repeat_length. unfold h. clear h. generalize (@None (option (nat * dmode))). induction sessions as [|[[[o who] mode] rhss] sessions IH]; intros u; [exact I|]. assert (Lw : who < n) by (apply (H (o, who, mode, rhss)); left; reflexivity). cbn [flat_map session app careful].
      assert (G : forall rhss u, (u = Some None \/ u = Some (Some (who, mode))) -> careful n u (map (Solve who mode) rhss ++ flat_map session sessions)).
      { clear -IH Lw H. intros rs. induction rs as [|r rs IHr]; intros v U; cbn [map app careful]; [apply IH; intros x I; apply H; right; exact I|]. split; [exact Lw|]. split; [right; exact U|]. apply IHr. destruct r; [exact U|right; reflexivity]. }
      apply G. left. reflexivity.
  Qed.
End Main.
Print Assumptions direct_mode_partial.
Print Assumptions direct_sessions.

(** The full property: [wanted] for every history of linearizations and solves that starts
    with a linearization.  2x2 systems over Q, given by their four entries. *)
Local Open Scope Q_scope.
Definition tr2 (m : Q * Q * Q * Q) : Q * Q * Q * Q := let '(a, b, c, d) := m in (a, c, b, d).
Definition sol2 (m : Q * Q * Q * Q) (r : Q * Q) : Q * Q :=
  let '(a, b, c, d) := m in let (x, y) := r in let det := Qred (a * d - b * c) in (Qred ((d * x - b * y) / det), Qred ((a * y - c * x) / det)).
Definition m1 : Q * Q * Q * Q := (1, 2, 0, 1).
Definition rhs1 : list (string * (Q * Q)) := [("v", (3, 1))].
(** Another mode without a new linearization: the answer is the one of the old mode. *)
Theorem direct_mode_refuted :
    let h := [Linearize m1; Solve 0 Fwd rhs1; Solve 0 Rev rhs1] in
    exists st', drun tr2 sol2 (mkSys m1 false, [new_solver]) h = Ok (st', [[]; [("v", (1, 1))]; [("v", (1, 1))]]) /\
      wanted tr2 sol2 m1 h = [[]; [("v", (1, 1))]; [("v", (3, -5))]].
Proof. eexists. split; vm_compute; reflexivity. Qed.
Print Assumptions direct_mode_refuted.
(** A second solver of the same system finds the flag cleared: no factorization, or an
    old one. *)
Theorem direct_two_solvers_refuted :
    drun tr2 sol2 (mkSys m1 false, [new_solver; new_solver]) [Linearize m1; Solve 0 Fwd rhs1; Solve 1 Fwd rhs1] = Err TypeError /\
    let h := [Linearize (1, 0, 0, 1); Solve 1 Fwd rhs1; Linearize m1; Solve 0 Fwd rhs1; Solve 1 Fwd rhs1] in
    exists st', drun tr2 sol2 (mkSys m1 false, [new_solver; new_solver]) h = Ok (st', [[]; [("v", (3, 1))]; []; [("v", (1, 1))]; [("v", (3, 1))]]).
Proof. split; [reflexivity|]. eexists. vm_compute. reflexivity. Qed.
Print Assumptions direct_two_solvers_refuted.
(** The solution method is changed after the factorization: an old factorization. *)
Theorem direct_method_refuted :
    let h := [Linearize (1, 0, 0, 1); Solve 0 Fwd rhs1; SetMethod 0 Plain; Linearize m1; Solve 0 Fwd rhs1; SetMethod 0 LU; Solve 0 Fwd rhs1] in
    exists st', drun tr2 sol2 (mkSys m1 false, [new_solver]) h = Ok (st', [[]; [("v", (3, 1))]; []; []; [("v", (1, 1))]; []; [("v", (3, 1))]]).
Proof. eexists. vm_compute. reflexivity. Qed.
Print Assumptions direct_method_refuted.

Example direct_good :
    let h := flat_map session [(m1, 0%nat, Fwd, [rhs1; rhs1]); (m1, 1%nat, Rev, [rhs1]); ((2, 0, 1, 1), 0%nat, Rev, [rhs1; []])] in
    careful 2 None h /\ wanted tr2 sol2 m1 h = [[]; [("v", (1, 1))]; [("v", (1, 1))]; []; [("v", (3, -5))]; []; [("v", (1, 1))]; []].
Proof. split; [cbn; repeat split; (lia || tauto)|vm_compute; reflexivity]. Qed.

(** Property theorems for the nonlinear solvers: C31-C33, C63. *)
From Coq Require Import Lqa Qabs SpecFloat.
From Verif Require Import Base VecModel OptionsModel SolveModel SolveSpec SolveProofs SolveProofs2 SolveProofs3.
Local Open Scope string_scope.
Local Open Scope nat_scope.
Local Open Scope list_scope.

(** evaluate the left hand side *)
Ltac run := first [match goal with |- ?a = ?b => let v := eval vm_compute in a in unify b v; vm_cast_no_check (eq_refl v) end | reflexivity].

(** C31: in exact arithmetic the unknowns in the vector are unchanged and the
    residuals hold new minus old, for any component function (it may use the old
    unknowns, but does not write the residuals).  Missing from the full
    statement: unknowns passed by object, a component that raises, and rounding
    (see the refutations). *)
Theorem C31_exact_partial : forall F O (F0 F1 : F) fadd fmul fsub fopp,
    ring_theory F0 F1 fadd fmul fsub fopp eq ->
    forall (solve : cstate F O -> call (cstate F O)) s u' o',
      (forall r, solve (mkC (c_u s) (c_obj s) r) = (mkC u' o' r, None)) -> length u' = length (c_u s) ->
      apply_nonlinear fadd fsub fopp solve s = (mkC (c_u s) o' (vzip fsub u' (c_u s)), None).
Proof. exact apply_nl_ring. Qed.
Print Assumptions C31_exact_partial.

(** in binary64 it holds at a fixed point: residuals are zero, finite unknowns
    come back bit for bit *)
Theorem C31_float_fixed_point : forall O (solve : cstate spec_float O -> call (cstate spec_float O)) s o',
    Forall finite64 (c_u s) -> (forall r, solve (mkC (c_u s) (c_obj s) r) = (mkC (c_u s) o' r, None)) ->
    exists r, apply_nonlinear b_add b_sub SFopp solve s = (mkC (c_u s) o' r, None) /\
              length r = length (c_u s) /\ Forall (fun x => exists z, x = S754_zero z) r.
Proof. exact float_fixed_point. Qed.
Print Assumptions C31_float_fixed_point.

(** an output passed by object keeps its new value *)
Theorem C31_by_object_refuted : exists (solve : cstate Z string -> call (cstate Z string)) s o',
    (forall r, solve (mkC (c_u s) (c_obj s) r) = (mkC (c_u s) o' r, None)) /\
    c_obj (fst (apply_nonlinear Z.add Z.sub Z.opp solve s)) <> c_obj s.
Proof.
  exists (fun s => (mkC (c_u s) ["new"] (c_r s), None)), (mkC [1%Z] ["old"] [0%Z]), ["new"].
  split; [run|]. cbn. discriminate.
Qed.
Print Assumptions C31_by_object_refuted.

(** binary64: an output that goes from 1.0 to 1e16 comes back as 0.0; one that
    goes from 1.0 to infinity comes back as NaN *)
Theorem C31_rounding_refuted :
    let one := S754_finite false 4503599627370496 (-52) in
    let big := S754_finite false 5000000000000000 1 in
    let to x := fun s : cstate spec_float unit => (mkC [x] [] (c_r s), @None pyerr) in
    c_u (fst (apply_nonlinear b_add b_sub SFopp (to big) (mkC [one] [] [one]))) = [S754_zero false] /\
    c_u (fst (apply_nonlinear b_add b_sub SFopp (to (S754_infinity false)) (mkC [one] [] [one]))) = [S754_nan].
Proof. split; vm_compute; reflexivity. Qed.
Print Assumptions C31_rounding_refuted.

(** a component that raises leaves minus the unknowns in the residuals and its
    partial results in the unknowns *)
Theorem C31_raise_refuted : exists (solve : cstate Z unit -> call (cstate Z unit)) s,
    apply_nonlinear Z.add Z.sub Z.opp solve s = (mkC [9%Z] [] [(-4)%Z], Some AnalysisError) /\ c_u s = [4%Z].
Proof. exists (fun s => (mkC [9%Z] [] (c_r s), Some AnalysisError)), (mkC [4%Z] [] [0%Z]). split; reflexivity. Qed.
Print Assumptions C31_raise_refuted.

(** y = (x + old y, 3) with x = 7, old y = (2, 5) *)
Example C31_ex :
  let solve (s : cstate Z unit) := (mkC [(7 + nth 0 (c_u s) 0)%Z; 3%Z] (c_obj s) (c_r s), @None pyerr) in
  let s := mkC [2%Z; 5%Z] [] [0%Z; 0%Z] in
  (forall r, solve (mkC (c_u s) (c_obj s) r) = (mkC [9; 3]%Z [] r, None)) /\
  apply_nonlinear Z.add Z.sub Z.opp solve s = (mkC [2; 5]%Z [] [7; -2]%Z, None) /\
  Forall finite64 [S754_zero true; S754_finite false 4503599627370496 (-52)].
Proof.
  repeat split. constructor; [|constructor; [|constructor]]; (split; [run|]; split; [discriminate|intros b; discriminate]).
Qed.

(** C32: with maxiter at least 2 and residual norms that are numbers: as many
    iterations as needed, the first met tolerance stops, failure is reported (or
    raised) exactly when maxiter iterations were made.  Missing from the full
    statement: maxiter 0 and 1, a tolerance first met in iteration maxiter, and
    infinite norms (see the refutations). *)
Theorem C32_stops_and_reports_partial : forall S (sys : system S) o m s r e, nlgs sys o m s = (r, e) ->
    no_raise sys -> norms_ok sys -> (2 <= g_maxiter o) -> (0 <= g_atol o)%Q ->
    (forall p, In p (r_hist r) -> finite (fst p) /\ finite (snd p)) ->
    exists first base, fst (hd (huge, huge) (r_hist r)) = Fin first /\ reference (g_atol o) first base /\
      let n := length (r_hist r) in
      1 <= n <= g_maxiter o /\ r_solves r = n /\ r_iter r = n /\ r_recs r = seq 1 n /\
      (forall k p, Datatypes.S k < n -> nth_error (r_hist r) k = Some p -> ~ met (g_atol o) (g_rtol o) (g_utol o) base p) /\
      (forall p, n < g_maxiter o -> nth_error (r_hist r) (n - 1) = Some p -> met (g_atol o) (g_rtol o) (g_utol o) base p) /\
      e = (if n =? g_maxiter o then if g_err o then Raised AnalysisError else Reported true else Reported false).
Proof. exact nlgs_faithful. Qed.
Print Assumptions C32_stops_and_reports_partial.

(** the norms looked at are those of the successive states of the iteration *)
Theorem C32_history : forall S (sys : system S) o m s r e, nlgs sys o m s = (r, e) -> no_raise sys -> g_maxiter o <> 1 ->
    g_aitken o = false ->
    r_st r = plain_iterate sys s (r_iter r) /\
    r_hist r = map (fun k => (rnorm sys (plain_iterate sys s k),
                              match k with
                              | 1 => huge
                              | _ => vnorm sys (vsub (get_u sys (plain_iterate sys s k)) (get_u sys (plain_iterate sys s (k - 1))))
                              end)) (seq 1 (r_iter r)).
Proof. exact nlgs_history. Qed.
Print Assumptions C32_history.

(** the limit holds for every system, also one that raises, when maxiter >= 1;
    the loop terminates *)
Theorem C32_limit_partial : forall S (sys : system S) o m s r e, nlgs sys o m s = (r, e) ->
    r_solves r <= Nat.max 1 (g_maxiter o) /\ length (r_recs r) <= Nat.max 1 (g_maxiter o) /\
    e <> OutOfFuel /\ e <> NonFinite.
Proof. exact nlgs_bound. Qed.
Print Assumptions C32_limit_partial.

Theorem C32_nan_is_failure : forall S (sys : system S) o m s r e h un, nlgs sys o m s = (r, e) -> no_raise sys -> g_maxiter o <> 1 ->
    r_hist r = h ++ [(NaN, un)] -> e = (if g_err o then Raised AnalysisError else Reported true).
Proof. exact nlgs_nan. Qed.
Print Assumptions C32_nan_is_failure.

(** the Aitken factor stays within its limits *)
Theorem C32_aitken_range : forall S (sys : system S) o m s, (g_amin o <= g_amax o)%Q -> (g_amin o <= a_alpha m <= g_amax o)%Q ->
    (g_amin o <= a_alpha (r_mem (fst (nlgs sys o m s))) <= g_amax o)%Q.
Proof. exact nlgs_alpha. Qed.
Print Assumptions C32_aitken_range.

(** maxiter = 0 still makes one iteration *)
Theorem C32_maxiter_zero_refuted : exists S (sys : system S) o m s r e,
    nlgs sys o m s = (r, e) /\ no_raise sys /\ g_maxiter o = 0 /\ r_solves r = 1.
Proof.
  exists _, (counting (fun _ => Fin 1) abs1), (gs2 0), (mkA None 1), (0, [0%Q]). eexists _, _.
  split; [run|]. repeat split.
Qed.
Print Assumptions C32_maxiter_zero_refuted.

(** maxiter = 1: no report at all, although no tolerance is met *)
Theorem C32_maxiter_one_refuted : exists S (sys : system S) o m s r,
    nlgs sys o m s = (r, Quiet) /\ no_raise sys /\ g_maxiter o = 1 /\ g_err o = true /\
    rnorm sys (plain_iterate sys s 1) = Fin 1 /\ (g_atol o < 1)%Q /\ (g_rtol o < 1)%Q.
Proof.
  exists _, (counting (fun _ => Fin 1) abs1), (mkG (1 # 10) (1 # 10) (1 # 1000) 1 true false 0 1), (mkA None 1), (0, [0%Q]). eexists.
  split; [run|]. repeat split.
Qed.
Print Assumptions C32_maxiter_one_refuted.

(** convergence in the last allowed iteration is reported as a failure *)
Theorem C32_last_iteration_refuted : exists S (sys : system S) o m s r p,
    nlgs sys o m s = (r, Reported true) /\ no_raise sys /\ norms_ok sys /\ g_maxiter o = 2 /\
    nth_error (r_hist r) 1 = Some p /\ met (g_atol o) (g_rtol o) (g_utol o) 1 p.
Proof.
  exists _, (counting (fun k => if k <=? 1 then Fin 1 else Fin 0) abs1), (gs2 2), (mkA None 1), (0, [0%Q]).
  eexists _, (Fin 0, Fin 0). split; [run|]. split; [repeat split|]. split.
  { split; cbn [rnorm vnorm counting].
    - intros [k u] q. cbn [fst]. destruct (k <=? 1); intros E; injection E as <-; lra.
    - intros [|x v] q E; cbn in E; injection E as <-; [lra|apply Qabs_nonneg]. }
  split; [run|]. split; [run|]. exists 0%Q, 0%Q. split; [run|]. left. cbn. lra.
Qed.
Print Assumptions C32_last_iteration_refuted.

(** an infinite residual norm, or a NaN change of the unknowns with a residual
    above the tolerances, is reported as converged *)
Theorem C32_infinite_refuted : exists S (sys1 sys2 : system S) o m s r1 r2,
    nlgs sys1 o m s = (r1, Reported false) /\ no_raise sys1 /\ r_hist r1 = [(PInf, huge)] /\
    nlgs sys2 o m s = (r2, Reported false) /\ no_raise sys2 /\ r_hist r2 = [(Fin 1, huge); (Fin 1, NaN)] /\
    (g_atol o < 1)%Q /\ (g_rtol o < 1)%Q /\ g_maxiter o = 5.
Proof.
  exists _, (counting (fun _ => PInf) abs1), (counting (fun _ => Fin 1) (fun _ => NaN)), (gs2 5), (mkA None 1), (0, [0%Q]). eexists _, _.
  split; [run|]. split; [repeat split|]. split; [run|]. split; [run|]. repeat split.
Qed.
Print Assumptions C32_infinite_refuted.

(** u := u/2 + 1 with residual |u - 2|: four iterations from 10, tolerance 1 *)
Definition half : system (list Q) :=
  mkSys (fun u => (map (fun x => x / 2 + 1)%Q u, None)) (fun u => (u, None)) (fun u => u) (fun _ u => u)
        (fun u => abs1 (map (fun x => x - 2)%Q u)) abs1.
Example C32_ex :
  let '(r, e) := nlgs half (mkG 1 (1 # 100) (1 # 1000) 10 false false 0 1) (mkA None 1) [10%Q] in
  no_raise half /\ norms_ok half /\ r_iter r = 3 /\ e = Reported false /\
  (forall p, In p (r_hist r) -> finite (fst p) /\ finite (snd p)).
Proof.
  assert (A : no_raise half) by (split; reflexivity).
  assert (B : norms_ok half).
  { assert (K : forall v q, abs1 v = Fin q -> (0 <= q)%Q).
    { intros [|x v] q E; cbn [abs1] in E; injection E as <-; [lra|apply Qabs_nonneg]. }
    split; intros v q; apply K. }
  destruct (nlgs _ _ _ _) as [r e] eqn:E. vm_compute in E. injection E as <- <-.
  split; [exact A|]. split; [exact B|]. split; [reflexivity|]. split; [reflexivity|].
  intros p [<-|[<-|[<-|[]]]]; split; eexists; reflexivity.
Qed.

(** C33: limits, for every system and every failure point *)
Theorem C33_limit : forall S (ns : nsystem S) o d s r d' e, newton ns o d s = (r, d', e) ->
    v_iter r <= n_maxiter o /\ (forall l, n_ls o = Some l -> Forall (fun k => k <= l_maxiter l) (v_ls r)) /\
    length (v_ls r) <= v_iter r /\ e <> OutOfFuel.
Proof. exact @newton_bound. Qed.
Print Assumptions C33_limit.

(** the first met tolerance stops; failure is reported exactly after maxiter
    iterations.  Missing: tolerance first met in iteration maxiter (or before the
    first iteration with maxiter 0), infinite norms *)
Theorem C33_stops_and_reports_partial : forall S (ns : nsystem S) o d s r d' fail, newton ns o d s = (r, d', Reported fail) ->
    norms_ok (n_sys ns) -> (0 <= n_atol o)%Q -> (forall p, In p (v_hist r) -> finite (fst p) /\ finite (snd p)) ->
    exists first, fst (hd (huge, huge) (v_hist r)) = Fin first /\
      let n := v_iter r in
      n <= n_maxiter o /\ length (v_hist r) = Datatypes.S n /\
      (forall k p, k < n -> nth_error (v_hist r) k = Some p -> ~ met (n_atol o) (n_rtol o) (n_utol o) first p) /\
      (forall p, n < n_maxiter o -> nth_error (v_hist r) n = Some p -> met (n_atol o) (n_rtol o) (n_utol o) first p) /\
      fail = (n =? n_maxiter o).
Proof. exact @newton_faithful. Qed.
Print Assumptions C33_stops_and_reports_partial.

Theorem C33_err_on_maxiter : forall S (ns : nsystem S) o d s,
    newton ns (with_err o true) d s =
    let '(r, d', e) := newton ns (with_err o false) d s in
    (r, d', match e with Reported true => Raised AnalysisError | _ => e end).
Proof. exact @newton_err. Qed.
Print Assumptions C33_err_on_maxiter.

(** every point visited respects the bounds when subsystems are not solved, the
    relaxation factors are not negative and the run starts inside.  Missing:
    solve_subsystems, negative factors, starting outside *)
Theorem C33_bounds_partial : forall S (ns : nsystem S) o d s r d' e, newton ns o d s = (r, d', e) ->
    frames ns -> Forall plain_var (n_vars ns) -> n_sub o = false -> (0 <= n_alpha o)%Q ->
    (forall l, n_ls o = Some l -> l_sub l = false /\ (0 <= l_rho l)%Q) ->
    (forall s1, children (n_sys ns) s = (s1, None) ->
       in_bounds (n_vars ns) (get_u (n_sys ns) s1) /\ length (get_u (n_sys ns) s1) = total_size (n_vars ns)) ->
    Forall (in_bounds (n_vars ns)) (v_pts r) /\ e <> NonFinite /\
    (forall fail, e = Reported fail -> in_bounds (n_vars ns) (get_u (n_sys ns) (v_st r))).
Proof. exact @newton_bounds. Qed.
Print Assumptions C33_bounds_partial.

(** the options are as before when no exception passes *)
Theorem C33_options_partial : forall S (ns : nsystem S) o d s r d' fail, newton ns o d s = (r, d', Reported fail) ->
    usual_options d -> (forall n, value_of d' n = value_of d n) /\ d_locked d' = Some true.
Proof. exact newton_options. Qed.
Print Assumptions C33_options_partial.

(** an exception of the linear solver leaves the type 'user' and the
    dictionary unlocked *)
Theorem C33_options_refuted : exists S (ns : nsystem S) o d s r d' e,
    newton ns o d s = (r, d', Raised e) /\ usual_options d /\
    value_of d "type" = Some (VStr "fd") /\ value_of d' "type" = Some (VStr "user") /\
    d_locked d = None /\ d_locked d' = Some false.
Proof.
  exists _, (mkNS (counting (fun _ => Fin 1) abs1) [] (fun s => (s, Some AnalysisError)) (fun s => (s, None)) (fun _ => [])),
    (nwt 5 false), deriv_fd, (0, []). eexists _, _, AnalysisError. split; [run|]. split.
  { split; [run|]. split; eexists; vm_compute.
    - exists [VStr "user"; VStr "fd"; VStr "cs"], "fd". repeat split; auto.
    - split; [run|]. split; [reflexivity|discriminate]. }
  repeat split.
Qed.
Print Assumptions C33_options_refuted.

(** convergence in the last allowed iteration is reported as a failure *)
Theorem C33_last_iteration_refuted : exists S (ns : nsystem S) o d s r d' p,
    newton ns o d s = (r, d', Reported true) /\ norms_ok (n_sys ns) /\ usual_options d /\ n_maxiter o = 1 /\
    nth_error (v_hist r) 1 = Some p /\ met (n_atol o) (n_rtol o) (n_utol o) 1 p.
Proof.
  exists _, (mkNS (counting (fun k => if k <=? 1 then Fin 1 else Fin 0) abs1) [] (fun s => (s, None)) (fun s => (s, None)) (fun _ => [])),
    (nwt 1 false), deriv_fd, (0, []). eexists _, _, (Fin 0, Fin 0). split; [run|]. split.
  { split; cbn [rnorm vnorm counting n_sys].
    - intros [k u] q. cbn [fst]. destruct (k <=? 1); intros E; injection E as <-; lra.
    - intros [|x v] q E; cbn in E; injection E as <-; [lra|apply Qabs_nonneg]. }
  split.
  { split; [run|]. split; eexists; vm_compute.
    - exists [VStr "user"; VStr "fd"; VStr "cs"], "fd". repeat split; auto.
    - split; [run|]. split; [reflexivity|discriminate]. }
  split; [run|]. split; [run|]. exists 0%Q, 0%Q. split; [run|]. left. cbn. lra.
Qed.
Print Assumptions C33_last_iteration_refuted.

(** an infinite residual norm is reported as converged *)
Theorem C33_infinite_refuted : exists S (ns : nsystem S) o d s r d',
    newton ns o d s = (r, d', Reported false) /\ v_hist r = [(PInf, huge)] /\ n_maxiter o = 5.
Proof.
  exists _, (mkNS (counting (fun k => PInf) abs1) [] (fun s => (s, None)) (fun s => (s, None)) (fun _ => [])),
    (nwt 5 false), deriv_fd, (0, []). eexists _, _. split; [run|]. repeat split.
Qed.
Print Assumptions C33_infinite_refuted.

(** an unknown on its upper bound with a direction pointing back inside: no step
    is made (C25_stuck_refuted), the change is zero, and the run is reported as converged although the
    residual has not changed *)
Theorem C33_stuck_refuted : exists S (ns : nsystem S) o d s r d',
    newton ns o d s = (r, d', Reported false) /\ frames ns /\ Forall plain_var (n_vars ns) /\
    map fst (v_hist r) = [Fin 1; Fin 1] /\ (n_atol o < 1)%Q /\ (n_rtol o < 1)%Q /\ n_maxiter o = 5.
Proof.
  exists _, (mkNS (counting (fun k => Fin 1) abs1) [mkNV false false 1 (Some [3%Q]) None 1]
               (fun s => (s, None)) (fun s => (s, None)) (fun _ => [(-1)%Q])),
    (nwt 5 false), deriv_fd, (0, [3%Q]). eexists _, _. split; [run|]. split.
  { repeat split; intros; cbn in *; try congruence. injection H as <-. reflexivity. }
  split; [constructor; [|constructor]; repeat split; cbn; try discriminate; intros l E; injection E as <-; reflexivity|].
  repeat split.
Qed.
Print Assumptions C33_stuck_refuted.

(** with solve_subsystems a component moves its output out of bounds *)
Theorem C33_subsystems_refuted : exists S (ns : nsystem S) o d s r d' fail,
    newton ns o d s = (r, d', Reported fail) /\ n_sub o = true /\ Forall plain_var (n_vars ns) /\
    Forall (in_bounds (n_vars ns)) (v_pts r) /\ ~ in_bounds (n_vars ns) (get_u (n_sys ns) (v_st r)).
Proof.
  set (sys := mkSys (fun s : nat * list Q => ((fst s, if fst s =? 0 then [1%Q] else [9%Q]), @None pyerr)) (fun s => ((S (fst s), snd s), None)) snd
                (fun s u => (fst s, u)) (fun s => if fst s <=? 1 then Fin 1 else Fin 0) abs1).
  exists _, (mkNS sys [mkNV false false 1 (Some [3%Q]) None 1] (fun s => (s, None)) (fun s => (s, None)) (fun _ => [1%Q])),
    (nwt 5 true), deriv_fd, (0, [1%Q]). eexists _, _, _. split; [run|]. split; [run|].
  split; [constructor; [|constructor]; repeat split; cbn; try discriminate; intros l E; injection E as <-; reflexivity|]. split.
  - constructor; [|constructor]. cbn. split; [|exact I]. intros j x Hj. split; [intros l b E; discriminate|].
    intros l b E Hb. injection E as <-. destruct j as [|[|j]]; try discriminate. cbn in *. injection Hj as <-. injection Hb as <-. vm_compute. discriminate.
  - cbn. intros [H _]. destruct (H 0 9%Q eq_refl) as [_ K]. specialize (K _ _ eq_refl eq_refl). apply K. reflexivity.
Qed.
Print Assumptions C33_subsystems_refuted.

(** a negative relaxation factor steps out of bounds *)
Theorem C33_negative_alpha_refuted : exists S (ns : nsystem S) o d s r d' fail u,
    newton ns o d s = (r, d', Reported fail) /\ n_sub o = false /\ frames ns /\ Forall plain_var (n_vars ns) /\
    in_bounds (n_vars ns) (get_u (n_sys ns) s) /\ v_pts r = [u] /\ ~ in_bounds (n_vars ns) u.
Proof.
  exists _, (mkNS (counting (fun k => if k <=? 1 then Fin 1 else Fin 0) abs1) [mkNV false false 1 None (Some [0%Q]) 1]
               (fun s => (s, None)) (fun s => (s, None)) (fun _ => [1%Q])),
    (mkN (1 # 10) (1 # 10) (1 # 1000) 5 false (-1) false None), deriv_fd, (0, [0%Q]). eexists _, _, _, _.
  split; [run|]. split; [run|]. split.
  { repeat split; intros; cbn in *; try congruence. injection H as <-. reflexivity. }
  split; [constructor; [|constructor]; repeat split; cbn; try discriminate; intros l E; injection E as <-; reflexivity|]. split.
  { cbn. split; [|exact I]. intros j x Hj. split; [|intros l b E; discriminate].
    intros l b E Hb. injection E as <-. destruct j as [|[|j]]; try discriminate. cbn in *. injection Hj as <-. injection Hb as <-. lra. }
  split; [run|]. cbn. intros [H _]. destruct (H 0 _ eq_refl) as [K _]. specialize (K _ _ eq_refl eq_refl).
  vm_compute in K. apply K. reflexivity.
Qed.
Print Assumptions C33_negative_alpha_refuted.

(** an unknown outside its bound whose direction is zero gets an infinite step
    length, so its new value would be NaN *)
Theorem C33_outside_start_refuted : exists S (ns : nsystem S) o d s r d',
    newton ns o d s = (r, d', NonFinite) /\ n_sub o = false /\ frames ns /\ Forall plain_var (n_vars ns) /\ n_alpha o = 1%Q.
Proof.
  exists _, (mkNS (counting (fun k => Fin 1) abs1) [mkNV false false 1 (Some [3%Q]) None 1]
               (fun s => (s, None)) (fun s => (s, None)) (fun _ => [0%Q])),
    (nwt 5 false), deriv_fd, (0, [4%Q]). eexists _, _. split; [run|]. split; [run|]. split.
  { repeat split; intros; cbn in *; try congruence. injection H as <-. reflexivity. }
  split; [constructor; [|constructor]; repeat split; cbn; try discriminate; intros l E; injection E as <-; reflexivity|]. reflexivity.
Qed.
Print Assumptions C33_outside_start_refuted.

(** Newton for u^2 = 4 from 7 with bounds [1, 8] and a line search *)
Definition sq : nsystem (list Q) :=
  mkNS (mkSys (fun u => (u, None)) (fun u => (u, None)) (fun u => u) (fun _ u => u)
          (fun u => abs1 (map (fun x => x * x - 4)%Q u)) abs1)
       [mkNV false false 1 (Some [8%Q]) (Some [1%Q]) 1] (fun u => (u, None)) (fun u => (u, None))
       (fun u => match u with x :: _ => [((4 - x * x) / (2 * x))%Q] | [] => [0%Q] end).
Example C33_ex :
  let o := mkN (1 # 10) 0 0 10 false 1 false (Some (mkLS 5 false (1 # 2) (1 # 2) false)) in
  let '(r, d', e) := newton sq o deriv_fd [7%Q] in
  frames sq /\ Forall plain_var (n_vars sq) /\ in_bounds (n_vars sq) [7%Q] /\ usual_options deriv_fd /\
  v_iter r = 4 /\ v_ls r = [0; 0; 0; 0] /\ e = Reported false.
Proof.
  assert (F : frames sq).
  { repeat split; intros; cbn in *; try congruence. destruct s; reflexivity. }
  assert (P : Forall plain_var (n_vars sq)).
  { constructor; [|constructor]; repeat split; cbn; intros l E; injection E as <-; reflexivity. }
  assert (B : in_bounds (n_vars sq) [7%Q]).
  { cbn. split; [|exact I]. intros j x Hj. split; intros l b E Hb; injection E as <-; destruct j as [|[|j]]; try discriminate;
      cbn in *; injection Hj as <-; injection Hb as <-; lra. }
  assert (U : usual_options deriv_fd).
  { split; [run|]. split; eexists; vm_compute.
    - exists [VStr "user"; VStr "fd"; VStr "cs"], "fd". repeat split; auto.
    - split; [run|]. split; [reflexivity|discriminate]. }
  cbv zeta. destruct (newton _ _ _ _) as [[r d'] e] eqn:E. vm_compute in E. injection E as <- <- <-.
  split; [exact F|]. split; [exact P|]. split; [exact B|]. split; [exact U|]. repeat split.
Qed.

(** C63: the state variable holds the point evaluated last; so it holds the root
    when the bracketing algorithm evaluated the root last.  Missing: the other
    runs (refuted below), and components that overwrite the state *)
Theorem C63_last_point_partial : forall S (bs : bsystem S) err t s s' pts root,
    (forall s x, peek bs (put bs s x) = x) ->
    (forall s s1, children (b_sys bs) s = (s1, None) -> peek bs s1 = peek bs s) ->
    (forall s s1, apply_nl (b_sys bs) s = (s1, None) -> peek bs s1 = peek bs s) ->
    brent bs err t s = (s', pts, BFound root) ->
    forall p x, pts = (p ++ [x])%list -> peek bs s' = x.
Proof. exact brent_last. Qed.
Print Assumptions C63_last_point_partial.

(** brentq evaluates both ends of the bracket before it looks at them: with a
    root at the lower end the state is left at the upper end *)
Definition both_ends (a b : Q) : @strategy :=
  BEval a (fun fa => BEval b (fun fb => if Qeq_bool fa 0 then BReturn a else if Qeq_bool fb 0 then BReturn b
                                        else BRaise ValueError true)).
Definition linear_resid : bsystem Q :=
  mkB (mkSys (fun s => (s, None)) (fun s => (s, None)) (fun s => [s]) (fun s _ => s) (fun _ => Fin 0) abs1)
      (fun _ x => x) (fun s => s) (fun s => s - 1)%Q.
Theorem C63_root_at_lower_bound_refuted : exists S (bs : bsystem S) err t s s' pts root,
    (forall s x, peek bs (put bs s x) = x) /\ brent bs err t s = (s', pts, BFound root) /\
    resid bs (put bs s' root) = 0%Q /\ peek bs s' <> root /\ resid bs s' <> 0%Q.
Proof.
  exists Q, linear_resid, false, (both_ends 1 5), 3%Q, 5%Q, [1%Q; 5%Q], 1%Q.
  repeat split; vm_compute; discriminate.
Qed.
Print Assumptions C63_root_at_lower_bound_refuted.

Example C63_ex :
  brent linear_resid false (both_ends 0 1) 3%Q = (1%Q, [0%Q; 1%Q], BFound 1) /\
  (forall s x, peek linear_resid (put linear_resid s x) = x).
Proof. split; [vm_compute; reflexivity|reflexivity]. Qed.

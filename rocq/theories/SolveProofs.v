From Coq Require Import Lqa Qfield.
From Verif Require Import Base BaseFacts VecModel VecSpec VecProofs OptionsModel SolveModel SolveSpec.
Local Open Scope nat_scope.

(** ** C31 *)
Section Group.
  Context {F O : Type} (F0 : F) (fadd fsub : F -> F -> F) (fopp : F -> F).
  Context (Hres : forall a b, fadd (fopp a) b = fsub b a).
  Context (Hback : forall a b, fsub b (fsub b a) = a).

  Lemma vzip_res : forall old new, length new = length old ->
      vzip fadd (map fopp old) new = vzip fsub new old.
  Proof.
    induction old as [|a old IH]; intros [|b new] H; try discriminate; [reflexivity|].
    simpl. rewrite Hres, IH by (simpl in H; lia). reflexivity.
  Qed.
  Lemma vzip_back : forall old new, length new = length old -> vzip fsub new (vzip fsub new old) = old.
  Proof.
    induction old as [|a old IH]; intros [|b new] H; try discriminate; [reflexivity|].
    simpl. rewrite Hback, IH by (simpl in H; lia). reflexivity.
  Qed.
  Lemma apply_nl_explicit : forall (solve : cstate F O -> call (cstate F O)) s u' o',
      (forall r, solve (mkC (c_u s) (c_obj s) r) = (mkC u' o' r, None)) -> length u' = length (c_u s) ->
      apply_nonlinear fadd fsub fopp solve s = (mkC (c_u s) o' (vzip fsub u' (c_u s)), None).
  Proof.
    intros solve s u' o' H Hl. unfold apply_nonlinear. rewrite H. cbn [c_u c_obj c_r].
    rewrite vzip_res by assumption. rewrite vzip_back by assumption. reflexivity.
  Qed.
End Group.

Lemma apply_nl_ring : forall F O (F0 F1 : F) fadd fmul fsub fopp,
    ring_theory F0 F1 fadd fmul fsub fopp eq ->
    forall (solve : cstate F O -> call (cstate F O)) s u' o',
      (forall r, solve (mkC (c_u s) (c_obj s) r) = (mkC u' o' r, None)) -> length u' = length (c_u s) ->
      apply_nonlinear fadd fsub fopp solve s = (mkC (c_u s) o' (vzip fsub u' (c_u s)), None).
Proof.
  intros F O F0 F1 fadd fmul fsub fopp R solve s u' o' H Hl.
  apply apply_nl_explicit; try assumption.
  - intros a b. rewrite (Rsub_def R). apply (Radd_comm R).
  - intros a b. rewrite !(Rsub_def R). 
    assert (Hopp : forall x y, fadd x y = F0 -> y = fopp x).
    { intros x y E. rewrite <- (Radd_0_l R (fopp x)), <- E, (Radd_comm R x y), <- (Radd_assoc R), (Ropp_def R).
      rewrite (Radd_comm R). symmetry. apply (Radd_0_l R). }
    assert (E : a = fadd b (fopp (fadd b (fopp a)))).
    { transitivity (fadd (fadd b (fopp b)) a); [rewrite (Ropp_def R); symmetry; apply (Radd_0_l R)|].
      rewrite <- (Radd_assoc R). f_equal. apply Hopp.
      rewrite (Radd_comm R (fopp b) a), (Radd_assoc R), <- (Radd_assoc R b (fopp a) a), (Radd_comm R (fopp a) a), (Ropp_def R).
      rewrite (Radd_comm R b F0), (Radd_0_l R). apply (Ropp_def R). }
    symmetry. exact E.
Qed.

(** ** C32 *)
Lemma f_gt_fin : forall a b, f_gt (Fin a) (Fin b) = true <-> (b < a)%Q.
Proof.
  intros a b. unfold f_gt, f_lt. rewrite negb_true_iff. split; intros H.
  - apply Qnot_le_lt. intros G. apply Qle_bool_iff in G. congruence.
  - destruct (Qle_bool a b) eqn:E; [|reflexivity]. apply Qle_bool_iff in E. lra.
Qed.
Lemma f_gt_fin_false : forall a b, f_gt (Fin a) (Fin b) = false <-> (a <= b)%Q.
Proof.
  intros a b. unfold f_gt, f_lt. rewrite negb_false_iff. apply Qle_bool_iff.
Qed.

(** the loop condition for numbers *)
Lemma stop_iff : forall atol rtol utol b n u, (0 <= atol)%Q -> (0 <= b)%Q -> ((b == 0 -> n <= atol))%Q ->
    (f_gt (Fin n) (Fin atol) && f_gt (fl_div (Fin n) (Fin b)) (Fin rtol) && f_gt (Fin u) (Fin utol) = false <->
    met atol rtol utol b (Fin n, Fin u)).
Proof.
  intros atol rtol utol b n u Ha Hb Hz. rewrite !andb_false_iff.
  rewrite !f_gt_fin_false. unfold met. split.
  - intros [[H|H]|H]; exists n, u; (split; [reflexivity|]); auto.
    + right; left. cbn [fl_div] in H. unfold fdiv in H. destruct (Qeq_bool b 0) eqn:E.
      * apply Qeq_bool_iff in E. destruct (Qeq_bool n 0) eqn:En.
        { apply Qeq_bool_iff in En. rewrite En, E. lra. }
        destruct (Qle_bool 0 n) eqn:E0; [vm_compute in H; discriminate|].
        rewrite E. assert (n < 0)%Q by (apply Qnot_le_lt; intros G; apply Qle_bool_iff in G; congruence). lra.
      * apply f_gt_fin_false in H. apply Qeq_bool_neq in E.
        assert (0 < b)%Q by (apply Qnot_le_lt; intros G; apply E; lra).
        apply Qmult_le_r with (z := b) in H; [|assumption].
        setoid_replace (n / b * b)%Q with n in H by (field; assumption). exact H.
  - intros (r & v & E & H). injection E as <- <-. destruct H as [H|[H|H]]; auto.
    left; right. cbn [fl_div]. unfold fdiv. destruct (Qeq_bool b 0) eqn:E.
    + apply Qeq_bool_iff in E. rewrite E in H. specialize (Hz E).
      destruct (Qeq_bool n 0) eqn:En; [reflexivity|].
      destruct (Qle_bool 0 n) eqn:E0; [|reflexivity]. exfalso.
      apply Qle_bool_iff in E0. apply Qeq_bool_neq in En. apply En. lra.
    + apply f_gt_fin_false. apply Qeq_bool_neq in E.
      assert (0 < b)%Q by (apply Qnot_le_lt; intros G; apply E; lra).
      apply Qle_shift_div_r; assumption.
Qed.

Section GS.
  Context {S : Type} (sys : system S) (o : gsopts).

  Lemma gs_loop_run : forall fuel base nrm un r r' e h,
      gs_loop fuel sys o base nrm un r = (r', e) -> no_raise sys ->
      g_maxiter o - r_iter r < fuel -> r_hist r = h ++ [(nrm, un)] -> r_iter r = length (r_hist r) ->
      r_solves r = r_iter r -> r_recs r = seq 1 (r_iter r) -> r_iter r <= Nat.max 1 (g_maxiter o) ->
      exists h' nrm' un', r_hist r' = h' ++ [(nrm', un')] /\ r_iter r' = length (r_hist r') /\
        r_solves r' = r_iter r' /\ r_recs r' = seq 1 (r_iter r') /\ r_iter r' <= Nat.max 1 (g_maxiter o) /\
        (r_iter r' < g_maxiter o -> going o base nrm' un' = false) /\
        (exists mid, h' = h ++ mid /\ Forall (fun p => going o base (fst p) (snd p) = true) mid) /\
        e = (if (g_maxiter o <=? r_iter r') || is_nan nrm'
             then if g_err o then Raised AnalysisError else Reported true else Reported false).
  Proof.
    induction fuel as [|fuel IH]; intros base nrm un r r' e h H [Hc Ha] Hf Hh Hi Hs Hr Hm; [lia|].
    cbn [gs_loop] in H. destruct ((r_iter r <? g_maxiter o) && going o base nrm un) eqn:E.
    - apply andb_prop in E. destruct E as [E1 E2]. apply Nat.ltb_lt in E1.
      pose proof (Hc (r_st r)) as Hc1. destruct (children sys (r_st r)) as [s1 e1]. cbn [snd] in Hc1. subst e1.
      pose proof (Ha s1) as Ha1. destruct (apply_nl sys s1) as [s2 e2]. cbn [snd] in Ha1. subst e2.
      cbv zeta in H.
      destruct (if g_aitken o then _ else _) as [m s3] in H.
      set (nrm1 := rnorm sys s2) in *. set (un1 := vnorm sys (vsub (get_u sys s2) (get_u sys (r_st r)))) in *.
      eapply (IH _ _ _ _ _ _ (r_hist r)) in H; cbn [r_iter r_hist r_solves r_recs] in *.
      + destruct H as (h' & n' & u' & G1 & G2 & G3 & G4 & G5 & G6 & (mid & G7 & G8) & G9).
        exists h', n', u'. repeat split; try assumption.
        exists ((nrm, un) :: mid). split; [rewrite G7, Hh, <- app_assoc; reflexivity|]. constructor; assumption.
      + split; assumption.
      + lia.
      + reflexivity.
      + rewrite app_length. simpl. lia.
      + lia.
      + rewrite Hr, Nat.add_1_r, seq_S. reflexivity.
      + lia.
    - injection H as <- <-. exists h, nrm, un. rewrite Hh at 1. repeat split; try assumption.
      + intros G. apply Nat.ltb_lt in G. rewrite G in E. exact E.
      + exists []. rewrite app_nil_r. split; constructor.
      + destruct ((g_maxiter o <=? r_iter r) || is_nan nrm), (g_err o); reflexivity.
  Qed.

  (** bound on the number of iterations, whatever the system does *)
  Lemma gs_loop_bound : forall fuel base nrm un r r' e,
      gs_loop fuel sys o base nrm un r = (r', e) -> g_maxiter o - r_iter r < fuel ->
      r_iter r <= Nat.max 1 (g_maxiter o) -> r_solves r <= r_iter r -> length (r_recs r) <= r_iter r ->
      r_solves r' <= Nat.max 1 (g_maxiter o) /\ length (r_recs r') <= Nat.max 1 (g_maxiter o) /\ e <> OutOfFuel /\ e <> NonFinite.
  Proof.
    induction fuel as [|fuel IH]; intros base nrm un r r' e H Hf Hm Hs Hr; [lia|].
    cbn [gs_loop] in H. destruct ((r_iter r <? g_maxiter o) && going o base nrm un) eqn:E.
    - apply andb_prop in E. destruct E as [E1 _]. apply Nat.ltb_lt in E1.
      destruct (children sys (r_st r)) as [s1 [e1|]]; [injection H as <- <-; cbn [r_solves r_recs]; repeat split; try lia; discriminate|].
      destruct (apply_nl sys s1) as [s2 [e2|]].
      { injection H as <- <-; cbn [r_solves r_recs]; rewrite app_length; cbn [length]; repeat split; try lia; discriminate. }
      cbv zeta in H. destruct (if g_aitken o then _ else _) as [m s3] in H.
      apply IH in H; cbn [r_iter r_solves r_recs]; rewrite ?app_length; cbn [length]; try lia. exact H.
    - injection H as <- <-. repeat split; try lia;
        destruct ((g_maxiter o <=? r_iter r) || is_nan nrm), (g_err o); discriminate.
  Qed.
End GS.

Lemma nlgs_bound : forall S (sys : system S) o m s r e, nlgs sys o m s = (r, e) ->
    r_solves r <= Nat.max 1 (g_maxiter o) /\ length (r_recs r) <= Nat.max 1 (g_maxiter o) /\
    e <> OutOfFuel /\ e <> NonFinite.
Proof.
  intros S sys o m s r e H. unfold nlgs in H.
  destruct (children sys s) as [s1 [e1|]]; [injection H as <- <-; cbn [r_solves r_recs length]; repeat split; try lia; discriminate|].
  destruct (g_maxiter o =? 1); [injection H as <- <-; cbn [r_solves r_recs length]; repeat split; try lia; discriminate|].
  destruct (apply_nl sys s1) as [s2 [e2|]]; [injection H as <- <-; cbn [r_solves r_recs length]; repeat split; try lia; discriminate|].
  apply gs_loop_bound in H; cbn [r_iter r_solves r_recs length]; try lia; assumption.
Qed.

Lemma nlgs_run : forall S (sys : system S) o m s r e, nlgs sys o m s = (r, e) -> no_raise sys -> g_maxiter o <> 1 ->
    exists h nrm un n1 mid,
      r_hist r = h ++ [(nrm, un)] /\ n1 = rnorm sys (plain_iterate sys s 1) /\
      r_iter r = length (r_hist r) /\ r_solves r = r_iter r /\ r_recs r = seq 1 (r_iter r) /\
      r_iter r <= Nat.max 1 (g_maxiter o) /\
      (r_iter r < g_maxiter o -> going o (if f_gt n1 (Fin (g_atol o)) then n1 else Fin 1) nrm un = false) /\
      Forall (fun p => going o (if f_gt n1 (Fin (g_atol o)) then n1 else Fin 1) (fst p) (snd p) = true) mid /\
      h = mid /\ (exists t, r_hist r = (n1, huge) :: t) /\
      e = (if (g_maxiter o <=? r_iter r) || is_nan nrm
           then if g_err o then Raised AnalysisError else Reported true else Reported false).
Proof.
  intros S sys o m s r e H Hq Hm. unfold nlgs in H. pose proof Hq as [Hc Ha].
  cbn [plain_iterate].
  pose proof (Hc s) as Hc1. destruct (children sys s) as [s1 e1]. cbn [snd fst] in *. subst e1.
  apply Nat.eqb_neq in Hm. rewrite Hm in H.
  pose proof (Ha s1) as Ha1. destruct (apply_nl sys s1) as [s2 e2]. cbn [snd fst] in *. subst e2.
  pose proof H as H'.
  eapply gs_loop_run with (h := []) in H; cbn [r_iter r_hist r_solves r_recs length app]; try reflexivity; try assumption; try lia.
  destruct H as (h & n & u & G1 & G2 & G3 & G4 & G5 & G6 & (mid & G7 & G8) & G9).
  exists h, n, u, (rnorm sys s2), mid. repeat split; try assumption.
  (* the first entry *)
  clear - H'. 
  assert (K : forall fuel base nrm un r0 r' e', gs_loop fuel sys o base nrm un r0 = (r', e') ->
     forall x t, r_hist r0 = x :: t -> exists t', r_hist r' = x :: t').
  { induction fuel as [|fuel IH]; intros base nrm un r0 r' e' H x t Ht; cbn [gs_loop] in H; [injection H as <- <-; eauto|].
    destruct ((r_iter r0 <? g_maxiter o) && going o base nrm un); [|injection H as <- <-; eauto].
    destruct (children sys (r_st r0)) as [a [b|]]; [injection H as <- <-; eauto|].
    destruct (apply_nl sys a) as [c [d|]]; [injection H as <- <-; eauto|].
    cbv zeta in H. destruct (if g_aitken o then _ else _) in H. eapply IH in H; [exact H|]. cbn [r_hist]. rewrite Ht. reflexivity. }
  eapply K in H'; [exact H'|reflexivity].
Qed.

(** the statement in terms of numbers *)
Lemma nlgs_faithful : forall S (sys : system S) o m s r e, nlgs sys o m s = (r, e) ->
    no_raise sys -> norms_ok sys -> (2 <= g_maxiter o) -> (0 <= g_atol o)%Q ->
    (forall p, In p (r_hist r) -> finite (fst p) /\ finite (snd p)) ->
    exists first base, fst (hd (huge, huge) (r_hist r)) = Fin first /\ reference (g_atol o) first base /\
      let n := length (r_hist r) in
      1 <= n <= g_maxiter o /\ r_solves r = n /\ r_iter r = n /\ r_recs r = seq 1 n /\
      (forall k p, Datatypes.S k < n -> nth_error (r_hist r) k = Some p -> ~ met (g_atol o) (g_rtol o) (g_utol o) base p) /\
      (forall p, n < g_maxiter o -> nth_error (r_hist r) (n - 1) = Some p -> met (g_atol o) (g_rtol o) (g_utol o) base p) /\
      e = (if n =? g_maxiter o then if g_err o then Raised AnalysisError else Reported true else Reported false).
Proof.
  intros S sys o m s r e H Hq [Hn1 Hn2] Hm Ha Hfin.
  destruct (nlgs_run _ _ _ _ _ _ _ H Hq) as (h & nrm & un & n1 & mid & G1 & G2 & G3 & G4 & G5 & G6 & G7 & G8 & G9 & (t & G10) & G11); [lia|].
  subst mid.
  destruct (Hfin (n1, huge)) as [[f Hf] _]; [rewrite G10; left; reflexivity|]. cbn [fst] in Hf.
  assert (H0 : (0 <= f)%Q) by (apply (Hn1 (plain_iterate sys s 1)); congruence).
  rewrite Hf in G7, G8, G2.
  set (base := if Qle_bool f (g_atol o) then 1%Q else f).
  assert (Hb : (if f_gt (Fin f) (Fin (g_atol o)) then Fin f else Fin 1) = Fin base).
  { unfold base, f_gt, f_lt. destruct (Qle_bool f (g_atol o)); reflexivity. }
  assert (Hbase : reference (g_atol o) f base).
  { unfold reference, base. destruct (Qle_bool f (g_atol o)) eqn:E; split; intros K.
    - reflexivity.
    - apply Qle_bool_iff in E. lra.
    - apply Qle_bool_iff in K. congruence.
    - reflexivity. }
  assert (Hpos : (0 < base)%Q).
  { unfold base. destruct (Qle_bool f (g_atol o)) eqn:E; [lra|].
    apply Qnot_le_lt. intros K. assert (f <= g_atol o)%Q by lra. apply Qle_bool_iff in H1. congruence. }
  rewrite Hb in *.
  exists f, base. split; [rewrite G10, Hf; reflexivity|]. split; [assumption|].
  assert (Hlen : length (r_hist r) = Datatypes.S (length h)) by (rewrite G1, app_length; simpl; lia).
  cbv zeta. rewrite Nat.max_r in G6 by lia.
  split; [lia|]. split; [congruence|]. split; [assumption|]. split; [congruence|]. split; [|split].
  - intros k [a b] Hk Hp. rewrite G1, nth_error_app1 in Hp by lia.
    rewrite Forall_forall in G8. pose proof (G8 _ (nth_error_In _ _ Hp)) as G. cbn [fst snd] in G.
    destruct (Hfin (a, b)) as [[x Hx] [y Hy]]; [rewrite G1; apply in_or_app; left; eapply nth_error_In; eassumption|].
    cbn [fst snd] in Hx, Hy. subst a b. intros K. apply (stop_iff (g_atol o) (g_rtol o)) in K; [|assumption|lra|intros; lra].
    unfold going in G. congruence.
  - intros [a b] Hk Hp. rewrite Hlen in Hp. replace (Datatypes.S (length h) - 1) with (length h) in Hp by lia.
    rewrite G1, nth_error_app2, Nat.sub_diag in Hp by lia. injection Hp as <- <-.
    destruct (Hfin (nrm, un)) as [[x Hx] [y Hy]]; [rewrite G1; apply in_or_app; right; left; reflexivity|].
    cbn [fst snd] in Hx, Hy. subst nrm un. apply stop_iff; [assumption|lra|intros; lra|]. apply G7. lia.
  - rewrite G11. destruct (Hfin (nrm, un)) as [[x Hx] _]; [rewrite G1; apply in_or_app; right; left; reflexivity|].
    cbn [fst] in Hx. subst nrm. cbn [is_nan]. rewrite orb_false_r, G3.
    destruct (Nat.eqb_spec (length (r_hist r)) (g_maxiter o)) as [E|E].
    + rewrite E, Nat.leb_refl. reflexivity.
    + rewrite (proj2 (Nat.leb_gt _ _)) by lia. reflexivity.
Qed.

(** a NaN residual is reported as a failure *)
Lemma nlgs_nan : forall S (sys : system S) o m s r e h un, nlgs sys o m s = (r, e) -> no_raise sys -> g_maxiter o <> 1 ->
    r_hist r = h ++ [(NaN, un)] -> e = (if g_err o then Raised AnalysisError else Reported true).
Proof.
  intros S sys o m s r e h un H Hq Hm Hh.
  destruct (nlgs_run _ _ _ _ _ _ _ H Hq Hm) as (h' & nrm & un' & n1 & mid & G1 & _ & _ & _ & _ & _ & _ & _ & _ & _ & G11).
  rewrite Hh in G1. apply app_inj_tail in G1. destruct G1 as [_ G1]. injection G1 as <- <-.
  rewrite G11. cbn [is_nan]. rewrite orb_true_r. reflexivity.
Qed.

(** what the history is, without Aitken acceleration *)
Lemma gs_loop_true : forall S (sys : system S) o, no_raise sys -> g_aitken o = false ->
    forall s0 fuel base nrm un r r' e n, gs_loop fuel sys o base nrm un r = (r', e) ->
    r_st r = plain_iterate sys s0 (Datatypes.S n) ->
    r_hist r = map (fun k => (rnorm sys (plain_iterate sys s0 k),
                              match k with
                              | 1 => huge
                              | _ => vnorm sys (vsub (get_u sys (plain_iterate sys s0 k)) (get_u sys (plain_iterate sys s0 (k - 1))))
                              end)) (seq 1 (Datatypes.S n)) ->
    exists n', r_st r' = plain_iterate sys s0 (Datatypes.S n') /\
    r_hist r' = map (fun k => (rnorm sys (plain_iterate sys s0 k),
                              match k with
                              | 1 => huge
                              | _ => vnorm sys (vsub (get_u sys (plain_iterate sys s0 k)) (get_u sys (plain_iterate sys s0 (k - 1))))
                              end)) (seq 1 (Datatypes.S n')).
Proof.
  intros S sys o [Hc Ha] Hk s0. induction fuel as [|fuel IH]; intros base nrm un r r' e n H Hst Hh.
  { cbn in H. injection H as <- <-. exists n. split; assumption. }
  cbn [gs_loop] in H. destruct ((r_iter r <? g_maxiter o) && going o base nrm un).
  2:{ injection H as <- <-. exists n. split; assumption. }
  assert (E : plain_iterate sys s0 (Datatypes.S (Datatypes.S n)) = fst (apply_nl sys (fst (children sys (r_st r))))).
  { rewrite Hst. reflexivity. }
  pose proof (Hc (r_st r)) as Hc1. destruct (children sys (r_st r)) as [s1 e1]. cbn [snd fst] in *. subst e1.
  pose proof (Ha s1) as Ha1. destruct (apply_nl sys s1) as [s2 e2]. cbn [snd fst] in *. subst e2.
  rewrite Hk in H. cbv zeta in H. eapply (IH _ _ _ _ _ _ (Datatypes.S n)) in H; cbn [r_st r_hist]; [exact H|congruence|].
  rewrite Hh, (seq_S (Datatypes.S n)), map_app. f_equal. cbn [map]. rewrite Nat.add_comm, Nat.add_1_r.
  rewrite <- E. cbv iota. repeat f_equal.
  rewrite Hst. simpl. reflexivity.
Qed.

Lemma nlgs_history : forall S (sys : system S) o m s r e, nlgs sys o m s = (r, e) -> no_raise sys -> g_maxiter o <> 1 ->
    g_aitken o = false ->
    r_st r = plain_iterate sys s (r_iter r) /\
    r_hist r = map (fun k => (rnorm sys (plain_iterate sys s k),
                              match k with
                              | 1 => huge
                              | _ => vnorm sys (vsub (get_u sys (plain_iterate sys s k)) (get_u sys (plain_iterate sys s (k - 1))))
                              end)) (seq 1 (r_iter r)).
Proof.
  intros S sys o m s r e H Hq Hm Hk. 
  destruct (nlgs_run _ _ _ _ _ _ _ H Hq Hm) as (h' & nrm & un' & n1 & mid & G1 & _ & G3 & _).
  unfold nlgs in H. pose proof Hq as [Hc Ha].
  assert (E : plain_iterate sys s 1 = fst (apply_nl sys (fst (children sys s)))) by reflexivity.
  pose proof (Hc s) as Hc1. destruct (children sys s) as [s1 e1]. cbn [snd fst] in *. subst e1.
  apply Nat.eqb_neq in Hm. rewrite Hm in H.
  pose proof (Ha s1) as Ha1. destruct (apply_nl sys s1) as [s2 e2]. cbn [snd fst] in *. subst e2.
  eapply (gs_loop_true _ sys o Hq Hk s _ _ _ _ _ _ _ 0) in H; cbn [r_st r_hist]; [|congruence|cbn [seq map]; rewrite E; reflexivity].
  destruct H as (n' & K1 & K2).
  assert (r_iter r = Datatypes.S n') as ->. { rewrite G3, K2, map_length, seq_length. reflexivity. }
  split; assumption.
Qed.

(** the relaxation factor stays in its interval *)
Lemma relax_range : forall S (sys : system S) o going cache m s, (g_amin o <= g_amax o)%Q ->
    (g_amin o <= a_alpha m <= g_amax o)%Q ->
    (g_amin o <= a_alpha (fst (relax sys o going cache m s)) <= g_amax o)%Q.
Proof.
  intros S sys o going cache m s Hm Ha. unfold relax. destruct (a_delta m) as [prev|]; [|exact Ha].
  destruct going; [|exact Ha]. cbv zeta. cbn [fst a_alpha].
  set (raw := match fl_div _ _ with Fin x => _ | _ => _ end). clearbody raw.
  assert (E : exists y, py_min (Fin (g_amax o)) raw = y /\ (y = Fin (g_amax o) \/ exists q, y = Fin q /\ (q <= g_amax o)%Q \/ y = MInf)).
  { eexists. split; [reflexivity|]. unfold py_min. destruct raw as [q| | |]; cbn [f_lt]; auto.
    - destruct (Qle_bool (g_amax o) q) eqn:E; cbn [negb]; [auto|].
      right. exists q. left. split; [reflexivity|]. assert (~ g_amax o <= q)%Q by (intros K; apply Qle_bool_iff in K; congruence). lra.
    - right. exists 0%Q. right. reflexivity. }
  destruct E as (y & -> & Hy). unfold py_max.
  destruct Hy as [->|[q [[-> Hq]| ->]]]; cbn [f_lt].
  - destruct (Qle_bool (g_amax o) (g_amin o)) eqn:E; cbn [negb]; split; lra.
  - destruct (Qle_bool q (g_amin o)) eqn:E; cbn [negb]; split; try lra.
    assert (~ q <= g_amin o)%Q by (intros K; apply Qle_bool_iff in K; congruence). lra.
  - split; lra.
Qed.

Lemma nlgs_alpha : forall S (sys : system S) o m s, (g_amin o <= g_amax o)%Q -> (g_amin o <= a_alpha m <= g_amax o)%Q ->
    (g_amin o <= a_alpha (r_mem (fst (nlgs sys o m s))) <= g_amax o)%Q.
Proof.
  intros S sys o m s Hm Ha. unfold nlgs.
  destruct (children sys s) as [s1 [e1|]]; [exact Ha|]. destruct (g_maxiter o =? 1); [exact Ha|].
  destruct (apply_nl sys s1) as [s2 [e2|]]; [exact Ha|].
  assert (K : forall fuel base nrm un r, (g_amin o <= a_alpha (r_mem r) <= g_amax o)%Q ->
     (g_amin o <= a_alpha (r_mem (fst (gs_loop fuel sys o base nrm un r))) <= g_amax o)%Q).
  { induction fuel as [|fuel IH]; intros base nrm un r H; cbn [gs_loop]; [exact H|].
    destruct ((r_iter r <? g_maxiter o) && going o base nrm un); [|exact H].
    destruct (children sys (r_st r)) as [a [b|]]; [exact H|].
    destruct (apply_nl sys a) as [c [d|]]; [exact H|]. cbv zeta.
    destruct (g_aitken o).
    - match goal with |- context [relax ?A ?B ?C ?D ?E ?G] => pose proof (relax_range S A B C D E G Hm H) as K; destruct (relax A B C D E G) as [mm ss] end.
      apply IH. exact K.
    - apply IH. exact H. }
  apply K. exact Ha.
Qed.

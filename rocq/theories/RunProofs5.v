(** Running a model: NLGaussSeidel and RunOnce as solvers; example models. *)
From Verif Require VecModel SolveModel.
From Verif Require Import Base RunModel RunSpec RunProofs RunProofs2 RunProofs3 RunProofs4.
Local Open Scope string_scope.
Local Open Scope nat_scope.
Local Open Scope list_scope.
Import SolveModel.

Lemma run_once_sweeps : forall V, ends_with_sweep (@run_once V).
Proof. intros V ch ap s s' H. exists s, s'. split; [constructor|]. split; [exact H|left; reflexivity]. Qed.

Lemma loop_not_quiet : forall S (sys : @system S) o fuel base nrm un r r', gs_loop fuel sys o base nrm un r = (r', Quiet) -> False.
Proof.
  intros S sys o. induction fuel as [|fuel IH]; intros base nrm un r r'; cbn [gs_loop]; cbv zeta; [discriminate|].
  destruct ((r_iter r <? g_maxiter o) && going o base nrm un).
  - destruct (children sys (r_st r)) as [a [e|]]; [discriminate|]. destruct (apply_nl sys a) as [b [e|]]; [discriminate|].
    match goal with |- context [let '(_, _) := ?x in _] => destruct x end. apply IH.
  - destruct (_ && _); discriminate.
Qed.

Section GS.
  Context {V : Type}.
  Context (names : list string) (to_q : V -> Q) (of_q : Q -> V) (rnorm : st V -> VecModel.fl) (vnorm : list Q -> VecModel.fl).

  Lemma lift_ok : forall (f : st V -> res (st V)) s s', lift f s = (s', None) -> f s = Ok s'.
  Proof. intros f s s' H. unfold lift in H. destruct (f s); [injection H as <-; reflexivity|discriminate]. Qed.

  Lemma gs_sweeps : forall o mem, g_aitken o = false -> ends_with_sweep (gs_solver names to_q of_q rnorm vnorm o mem).
  Proof.
    intros o mem Ha ch ap s s' H. unfold gs_solver, gs_run in H.
    set (sys := mkSys (lift ch) (lift ap) (fun s => map (fun v => to_q (uv s v)) names)
                       (fun s l => RunModel.mkS (pv s) (write (uv s) names (map of_q l)) (rv s)) rnorm vnorm) in *.
    assert (G : forall fuel base nrm un r, (exists s1 s2, calls ch ap s s1 /\ ch s1 = Ok s2 /\ ap s2 = Ok (r_st r)) ->
              forall r' e, gs_loop fuel sys o base nrm un r = (r', Reported e) ->
              exists s1 s2, calls ch ap s s1 /\ ch s1 = Ok s2 /\ ap s2 = Ok (r_st r')).
    { induction fuel as [|fuel IH]; intros base nrm un r (s1 & s2 & C1 & C2 & C3) r' e E; simpl in E; [discriminate|].
      destruct ((r_iter r <? g_maxiter o) && going o base nrm un).
      - destruct (lift ch (r_st r)) as [a [ea|]] eqn:E1; [discriminate|].
        destruct (lift ap a) as [b [eb|]] eqn:E2; [discriminate|]. rewrite Ha in E.
        apply lift_ok in E1. apply lift_ok in E2.
        apply (IH _ _ _ _) in E; [exact E|]. exists (r_st r), a. split; [|split; assumption].
        eapply calls_ap; [|exact C3]. eapply calls_ch; [exact C1|exact C2].
      - destruct (_ && _); [discriminate|]. injection E as <- _. exists s1, s2. repeat split; assumption. }
    unfold nlgs in H. change (children sys s) with (lift ch s) in H.
    destruct (lift ch s) as [a [ea|]] eqn:E1; [discriminate|]. apply lift_ok in E1.
    destruct (g_maxiter o =? 1).
    - injection H as <-. exists s, a. split; [constructor|]. split; [assumption|left; reflexivity].
    - change (apply_nl sys a) with (lift ap a) in H.
      destruct (lift ap a) as [b [eb|]] eqn:E2; [discriminate|]. apply lift_ok in E2.
      match type of H with match ?x with _ => _ end = _ => destruct x as [r e] eqn:E end.
      destruct e; try discriminate.
      + exfalso. exact (loop_not_quiet _ _ _ _ _ _ _ _ _ E).
      + injection H as <-. apply (G _ _ _ _ _) in E.
        * destruct E as (s1 & s2 & C1 & C2 & C3). exists s1, s2. split; [assumption|]. split; [assumption|right; assumption].
        * exists s, a. split; [constructor|]. split; [assumption|exact E2].
  Qed.

  Lemma gs_one_sweep : forall o mem ch ap (s s1 s2 : st V), (0 <= g_atol o)%Q -> 1 < g_maxiter o ->
      ch s = Ok s1 -> ap s1 = Ok s2 -> rnorm s2 = VecModel.Fin 0 ->
      exists hist, gs_run names to_q of_q rnorm vnorm o mem ch ap s = (mkR s2 mem 1 hist 1 [1], Reported false).
  Proof.
    intros o mem ch ap s s1 s2 Ht Hm H1 H2 H3. unfold gs_run, nlgs. simpl. unfold lift at 1. rewrite H1.
    destruct (Nat.eqb_spec (g_maxiter o) 1); [lia|]. unfold lift at 1. rewrite H2, H3.
    cbn [gs_loop r_iter g_maxiter]. unfold going.
    assert (E : f_gt (VecModel.Fin 0) (VecModel.Fin (g_atol o)) = false).
    { unfold f_gt. simpl. apply negb_false_iff. apply Qle_bool_iff. exact Ht. }
    rewrite !E. cbn [andb]. rewrite andb_false_r.
    destruct (Nat.leb_spec (g_maxiter o) 1); [lia|]. eexists. reflexivity.
  Qed.
End GS.

Lemma ff_gauss_seidel : forall V (vadd vsub : V -> V -> V) vopp zero names to_q of_q rnorm vnorm o mem subs conns s s1 s2,
    let root := Grp false run_once subs in
    restores vadd vsub vopp -> (forall x, vadd (vopp x) x = zero) ->
    legal_model root conns -> serial root -> solvers_sweep root -> feed_forward root conns ->
    (forall c, In c (comps root) -> explicit c \/ indep c) -> (forall c, In c (comps root) -> c_resid c = None) ->
    (forall c u, In c (comps root) -> In u (c_unks c) -> c_scale c u zero = zero) ->
    (forall c u, In c (comps root) -> In u (c_unks c) -> c_states c = false -> rv s1 u = zero) ->
    (forall s : st V, (forall u, In u (flat_map c_unks (comps root)) -> rv s u = zero) -> rnorm s = VecModel.Fin 0) ->
    (0 <= g_atol o)%Q -> 1 < g_maxiter o ->
    run_model vadd vsub vopp root conns s = Ok s1 -> apply_model vadd vsub vopp root conns s1 = Ok s2 ->
    same_values root s1 s2 /\ (forall u, In u (flat_map c_unks (comps root)) -> rv s2 u = zero) /\
    exists hist, gs_model vadd vsub vopp names to_q of_q rnorm vnorm o mem subs conns s = Ok (mkR s2 mem 1 hist 1 [1], Reported false).
Proof.
  intros V vadd vsub vopp zero names to_q of_q rnorm vnorm o mem subs conns s s1 s2 root Hr Hz L Hser Hs Hf He Hn Hsc Hrv Hnorm Ht Hm H1 H2.
  destruct (ff_residuals vadd vsub vopp Hr zero false run_once subs conns s s1 s2 Hz L Hser Hs Hf He Hn H1 H2) as (Hu & Hp & Hres).
  assert (Hzero : forall u, In u (flat_map c_unks (comps root)) -> rv s2 u = zero).
  { intros u Hu'. apply in_flat_map in Hu'. destruct Hu' as (c & Hc & Hu').
    destruct (c_states c) eqn:Es; [rewrite (Hres c Hc Es u Hu'); apply Hsc; assumption|].
    (* components that are not visited keep their residuals *)
    rewrite <- (Hrv c u Hc Hu' Es). unfold apply_model in H2.
    destruct (ubc_exact root conns L) as (m & Em & Hmk). fold root in H2. rewrite Em in H2. cbn [bind] in H2.
    assert (Hnm : forall n, ~ In n m).
    { intros n Hi. apply Hmk in Hi. destruct Hi as (b & k & _ & _ & Hk & _ & Hno). apply Hno. apply Hf. assumption. }
    assert (G : forall t, incl (comps t) (comps root) -> NoDup (sys_unks t) -> serial t ->
              (match t with Comp d => run_apply m t = true | _ => True end) ->
              forall a b, apply_sys vadd vsub vopp conns m true t a = Ok b -> rv b u = rv a u).
    { induction t as [d|par nl l IH] using sys_ind2; intros Hi Nt Hst Hv a b Ha.
      - simpl in Ha. rewrite comp_unks in Nt.
        destruct (apply_comp_spec vadd vsub vopp conns Hr _ _ _ _ Nt Ha) as (_ & _ & Ho & _). apply Ho.
        intros Hd. assert (d = c) by (apply (owner_unique c_unks (comps root) d c u (lm_unks _ _ L)); [apply Hi; left; reflexivity|assumption|assumption|assumption]).
        subst d. simpl in Hv. rewrite Es in Hv. simpl in Hv. apply smem_in in Hv. exact (Hnm _ Hv).
      - destruct Hst as [-> Hst]. rewrite apply_grp in Ha. revert Ha. generalize (flat_map sys_unks l) as all. intros all.
        assert (K : forall l', incl l' l -> forall a b, ap_ser vadd vsub vopp conns m all l' a = Ok b -> rv b u = rv a u).
        { induction l' as [|x l' IHl]; intros Hl a0 b0 E; simpl in E; [injection E as <-; reflexivity|].
          assert (Hx : In x l) by (apply Hl; left; reflexivity).
          assert (Hl' : incl l' l) by (intros y Hy; apply Hl; right; assumption).
          destruct (run_apply m x) eqn:Ev; [|apply IHl; assumption].
          destruct (apply_sys vadd vsub vopp conns m true x (transfer conns all x a0)) as [c0|] eqn:Ex; [|discriminate]. cbn [bind] in E.
          rewrite (IHl Hl' _ _ E). rewrite (IH x Hx) with (b := c0) (a := transfer conns all x a0); try assumption; [reflexivity| | | |].
          + intros d Hd. apply Hi. simpl. apply in_flat_map. exists x. split; assumption.
          + rewrite sys_unks_grp in Nt. apply (nodup_part _ l); assumption.
          + apply (all_in serial l Hst x Hx).
          + destruct x; [exact Ev|exact I]. }
        apply K. apply incl_refl. }
    apply (G root); [apply incl_refl|exact (lm_unks _ _ L)|exact Hser|exact I|exact H2]. }
  split; [split; intros; symmetry; [apply Hp|apply Hu]|]. split; [exact Hzero|].
  unfold run_model in H1. unfold apply_model in H2. unfold gs_model. fold root. destruct (get_ubc root conns) as [m|]; [|discriminate]. cbn [bind] in H1, H2 |- *.
  destruct (gs_one_sweep names to_q of_q rnorm vnorm o mem (run_sys vadd vsub vopp conns m root) (apply_sys vadd vsub vopp conns m true root)
              s s1 s2 Ht Hm H1 H2 (Hnorm s2 Hzero)) as (hist & E).
  exists hist. rewrite E. reflexivity.
Qed.

(** ** runs do not fail when components do not *)
Lemma once_sweeps : forall V (t : sys V), all_once t -> solvers_sweep t.
Proof.
  intros V. induction t as [c|par nl subs IH] using sys_ind2; intros H; [exact I|]. destruct H as [-> H].
  split; [apply run_once_sweeps|]. induction subs as [|x l IHl]; [exact I|]. destruct H as [H1 H2].
  split; [apply IH; [left; reflexivity|assumption]|]. apply IHl; [intros y Hy; apply IH; right; assumption|assumption].
Qed.

Lemma once_total : forall V (vadd vsub : V -> V -> V) vopp conns m t, all_once t -> (forall c, In c (comps t) -> total c) ->
    forall s, exists s', run_sys vadd vsub vopp conns m t s = Ok s'.
Proof.
  intros V vadd vsub vopp conns m. induction t as [c|par nl subs IH] using sys_ind2; intros H Ht s.
  - simpl. unfold run_comp. destruct (Ht c (or_introl eq_refl) (read (pv s) (c_params c)) (read (uv s) (c_unks c))) as (us & E & El).
    rewrite E. cbn [bind]. rewrite El, Nat.eqb_refl. eexists. reflexivity.
  - destruct H as [-> H]. cbn [run_sys]. unfold run_once.
    assert (G : forall x, In x subs -> all_once x /\ (forall c, In c (comps x) -> total c)).
    { clear IH. intros x Hx. split.
      - revert H Hx. clear. induction subs as [|y l IHl]; intros H []; destruct H as [H1 H2]; [subst y; assumption|]. apply IHl; assumption.
      - intros c Hc. apply Ht. simpl. apply in_flat_map. exists x. split; assumption. }
    clear H Ht. generalize (flat_map sys_unks subs) as all. intros all. destruct par.
    + generalize (transfer_all conns all subs s). clear s. induction subs as [|x l IHl]; intros s; [eexists; reflexivity|].
      destruct (G x (or_introl eq_refl)) as [G1 G2]. destruct (IH x (or_introl eq_refl) G1 G2 s) as (s1 & E). rewrite E. cbn [bind].
      apply IHl; intros y Hy; [intros; apply IH; [right|..]; assumption|apply G; right; assumption].
    + revert s. induction subs as [|x l IHl]; intros s; [eexists; reflexivity|].
      destruct (G x (or_introl eq_refl)) as [G1 G2]. destruct (IH x (or_introl eq_refl) G1 G2 (transfer conns all x s)) as (s1 & E). rewrite E. cbn [bind].
      apply IHl; intros y Hy; [intros; apply IH; [right|..]; assumption|apply G; right; assumption].
Qed.

Lemma run_total : forall V (vadd vsub : V -> V -> V) vopp (root : sys V) conns s, legal_model root conns -> all_once root ->
    (forall c, In c (comps root) -> total c) -> exists s', run_model vadd vsub vopp root conns s = Ok s'.
Proof.
  intros V vadd vsub vopp root conns s L Ho Ht. unfold run_model. destruct (ubc_exact root conns L) as (m & Em & _). rewrite Em. cbn [bind].
  apply once_total; assumption.
Qed.

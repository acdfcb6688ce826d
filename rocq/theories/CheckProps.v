(** C84: checks of partial derivatives. *)
From Verif Require Import Base LinModel LinSpec LinProofs FdModel FdSpec FdProps CheckModel CheckSpec CheckProofs CheckProofs2.
From Coq Require Import Ring_theory Ring Field_theory Qcanon Lqa.
Local Open Scope string_scope.
Local Open Scope nat_scope.
Local Open Scope list_scope.

(** ** the Jacobians reported for a component whose derivatives are its own *)
(** what apply_linear multiplies by, whatever it is: forward mode reports A and reverse
    mode B, with the units of the inputs and the scaling of the residuals; there is a
    block for every unknown and every input, and no other *)
Theorem check_reports_operator : forall F (F0 F1 : F) fadd fmul fsub fopp, ring_theory F0 F1 fadd fmul fsub fopp eq ->
  forall (c : comp (F:=F)) op A B s, tidy c -> keys_once c -> shapes_ok F1 c -> acts F0 fadd fmul c op A B -> local c A -> local c B ->
  exists Jf Jr, check_comp F0 F1 fmul op c s = Ok (Jf, Jr) /\
    (forall u n size q fac, In u (c_unks c) -> input F1 c n size q fac ->
       reports Jf (u_name u) n (u_size u) size (fun i j => fmul (fmul (factor F1 (u_scale u)) (coef F0 fadd A (u_off u + i) (q j))) fac) /\
       reports Jr (u_name u) n (u_size u) size (fun i j => fmul (fmul (factor F1 (u_scale u)) (coef F0 fadd B (u_off u + i) (q j))) fac)) /\
    (forall a b, Jf a b <> None \/ Jr a b <> None -> (exists u, In u (c_unks c) /\ u_name u = a) /\ exists size q fac, input F1 c b size q fac).
Proof.
  intros F F0 F1 fadd fmul fsub fopp R c op A B s Hc Hk Hs Hop HA HB.
  destruct (check_comp_good F0 F1 fadd fmul fsub fopp R c Hc op A B Hop HA HB s) as [Jf [Jr [E [Sf [Sr [Vf Vr]]]]]].
  { apply (all_good_shapes F1 c Hc Hk). exact Hs. }
  exists Jf, Jr. split; auto. split.
  - intros u n size q fac Hu Hin. pose proof (input_listed F1 c n size q fac Hin) as Hn.
    destruct (input_where F1 c Hc n size q fac Hin) as [st [off [Ew [Hq ->]]]].
    pose proof (in_keys c u n Hu Hn) as Hkey.
    assert (Us : usize_of c (u_name u) = u_size u) by (unfold usize_of; now rewrite (find_name c Hc u Hu)).
    assert (Ps : size_of c n = size) by (unfold size_of; now rewrite Ew).
    assert (G : forall J m, shaped (keys c) (sh c) J -> (forall x, valid c x -> at4 J x = Some (value F0 F1 fadd fmul c m x)) ->
             reports J (u_name u) n (u_size u) size (fun i j => fmul (fmul (factor F1 (u_scale u)) (coef F0 fadd m (u_off u + i) (q j))) (fac_of F1 c n))).
    { intros J m SJ VJ. pose proof (SJ (u_name u) n) as S1. destruct (J (u_name u) n) as [M|] eqn:EM; [|contradiction].
      destruct S1 as [_ S1]. unfold sh in S1. rewrite Us, Ps in S1. injection S1 as S2 S3. exists M. split; [exact EM|split; [exact S2|split; [exact S3|]]].
      intros i j Hi Hj. assert (V : valid c (u_name u, n, i, j)). { unfold valid. rewrite Us, Ps. auto. }
      specialize (VJ _ V). unfold at4, entry_at in VJ. rewrite EM in VJ. unfold value in VJ. cbn [option_map] in VJ. rewrite (find_name c Hc u Hu), Ew in VJ.
      rewrite Hq. congruence. }
    split; apply G; auto.
  - intros a b H.
    assert (In (a, b) (keys c)) as Hab.
    { destruct H as [H|H].
      - pose proof (Sf a b) as S1. destruct (Jf a b); [tauto|congruence].
      - pose proof (Sr a b) as S1. destruct (Jr a b); [tauto|congruence]. }
    apply keys_in in Hab. destruct Hab as [Hn Hu]. split; auto.
    destruct (where_input F1 c b Hn) as [st [off [size [_ Hin]]]]. eauto.
Qed.

(** the two modes agree on every entry exactly if forward and reverse mode multiply by
    the same matrix: a transposition error is always found *)
Theorem check_modes_agree : forall F (F0 F1 : F) fadd fmul fsub fopp, ring_theory F0 F1 fadd fmul fsub fopp eq ->
  forall (c : comp (F:=F)) op A B s, tidy c -> keys_once c -> shapes_ok F1 c -> acts F0 fadd fmul c op A B -> local c A -> local c B ->
  (forall u x y, In u (c_unks c) -> fmul (factor F1 (u_scale u)) x = fmul (factor F1 (u_scale u)) y -> x = y) ->
  (forall p x y, In p (c_params c) -> fmul x (factor F1 (p_unit p)) = fmul y (factor F1 (p_unit p)) -> x = y) ->
  exists Jf Jr, check_comp F0 F1 fmul op c s = Ok (Jf, Jr) /\
    ((forall u n size q fac i j, In u (c_unks c) -> input F1 c n size q fac -> i < u_size u -> j < size ->
        exists mf mr, Jf (u_name u) n = Some mf /\ Jr (u_name u) n = Some mr /\ m_at mf i j = m_at mr i j) <->
     (forall u n size q fac i j, In u (c_unks c) -> input F1 c n size q fac -> i < u_size u -> j < size ->
        coef F0 fadd A (u_off u + i) (q j) = coef F0 fadd B (u_off u + i) (q j))).
Proof.
  intros F F0 F1 fadd fmul fsub fopp R c op A B s Hc Hk Hs Hop HA HB Cu Cp.
  destruct (check_reports_operator F F0 F1 fadd fmul fsub fopp R c op A B s Hc Hk Hs Hop HA HB) as [Jf [Jr [E [H _]]]].
  exists Jf, Jr. split; auto. split; intros G u n size q fac i j Hu Hin Hi Hj;
    destruct (H u n size q fac Hu Hin) as [[mf [Ef [_ [_ Vf]]]] [mr [Er [_ [_ Vr]]]]].
  - destruct (G u n size q fac i j Hu Hin Hi Hj) as [mf' [mr' [Ef' [Er' V]]]].
    rewrite Ef in Ef'. rewrite Er in Er'. inversion Ef'; inversion Er'; subst mf' mr'. rewrite Vf, Vr in V by auto.
    destruct Hin as [[x [_ [_ [_ [_ [_ ->]]]]]] | [_ [p [Hp [_ [_ [_ ->]]]]]]].
    + rewrite !(Rmul_comm R _ F1), !(Rmul_1_l R) in V. now apply Cu in V.
    + apply Cp in V; auto. now apply Cu in V.
  - exists mf, mr. repeat split; auto. rewrite Vf, Vr by auto. now rewrite (G u n size q fac i j).
Qed.

(** a component that supplies a Jacobian and inherits apply_linear: both modes report the
    supplied block, converted and scaled; zeros where none is supplied *)
Theorem check_reports_jacobian : forall F (F0 F1 : F) fadd fmul fsub fopp, ring_theory F0 F1 fadd fmul fsub fopp eq ->
  forall (c : comp (F:=F)) s, tidy c -> keys_once c -> shapes_ok F1 c -> c_jac c <> None ->
  exists Jf Jr, check_comp F0 F1 fmul (fun b s => apply_jac F0 fadd fmul b c s) c s = Ok (Jf, Jr) /\
    forall u n size q fac, In u (c_unks c) -> input F1 c n size q fac ->
    exists v, (forall i j, i < u_size u -> j < size -> supplied F0 c (u_name u) n i j (v i j)) /\
       reports Jf (u_name u) n (u_size u) size (fun i j => fmul (fmul (factor F1 (u_scale u)) (v i j)) fac) /\
       reports Jr (u_name u) n (u_size u) size (fun i j => fmul (fmul (factor F1 (u_scale u)) (v i j)) fac).
Proof.
  intros F F0 F1 fadd fmul fsub fopp R c s Hc Hk Hs Hj. destruct (c_jac c) as [l|] eqn:El; [|congruence].
  pose proof (shapes_fit F1 c Hs l El) as Hf.
  destruct (check_reports_operator F F0 F1 fadd fmul fsub fopp R c (fun b s => apply_jac F0 fadd fmul b c s) _ _ s Hc Hk Hs
              (acts_jac F0 F1 fadd fmul fsub fopp R c l El Hf) (local_jac F1 fmul c l) (local_jac F1 fmul c l)) as [Jf [Jr [E [H _]]]].
  exists Jf, Jr. split; auto. intros u n size q fac Hu Hin. destruct (H u n size q fac Hu Hin) as [H1 H2].
  exists (fun i j => coef F0 fadd (flat_map (key_entries F1 fmul (raw c)) l) (u_off u + i) (q j)). split; [|split; auto].
  intros i j Hi Hj'. destruct (input_where F1 c Hc n size q fac Hin) as [st [off [Ew [Hq _]]]].
  destruct (coef_jac F0 F1 fadd fmul fsub fopp R c Hc l u n st off size i j (Hk l El) Hu Hi Ew Hj') as [C1 C2].
  rewrite Hq. split.
  - intros m [l' [El' Hin']]. rewrite El in El'. inversion El'; subst l'. auto.
  - intro Hno. apply C2. intros m Hin'. apply (Hno m). exists l. auto.
Qed.

(** a block of the wrong shape is refused, whatever apply_linear does *)
Theorem check_wrong_shape : forall F (F0 F1 : F) fmul (c : comp (F:=F)) op s u n m size q fac,
  tidy c -> keys_once c -> In u (c_unks c) -> input F1 c n size q fac -> key_of c (u_name u) n m ->
  (m_rows m <> u_size u \/ m_cols m <> size) -> check_comp F0 F1 fmul op c s = Err ValueError.
Proof.
  intros F F0 F1 fmul c op s u n m size q fac Hc Hk Hu Hin Hkey Hm.
  assert (G : all_good c = false).
  { apply Bool.not_true_iff_false. intro G. apply (all_good_shapes F1 c Hc Hk) in G.
    destruct (G u n m size q fac Hu Hin Hkey) as [A B]. tauto. }
  unfold check_comp. now rewrite (proj2 (allocate_spec F0 F1 c Hc) G).
Qed.

(** a component without derivatives of its own is refused *)
Theorem check_no_jacobian : forall F (F0 F1 : F) fadd fmul (c : comp (F:=F)) s,
  tidy c -> c_jac c = None -> (exists u, In u (c_unks c) /\ 0 < u_size u) ->
  check_comp F0 F1 fmul (fun b s => apply_jac F0 fadd fmul b c s) c s = Err ValueError.
Proof.
  intros F F0 F1 fadd fmul c s Hc Hj [u [Hu Hz]].
  assert (G : all_good c = true).
  { unfold all_good. apply forallb_forall. intros nu _. unfold good, cached. now rewrite Hj. }
  unfold check_comp. destruct (proj1 (allocate_spec F0 F1 c Hc) G) as [J0 [-> _]]. cbn [bind].
  assert (L : exists ui r, flat_map (fun u => map (pair u) (seq 0 (u_size u))) (c_unks c) = ui :: r).
  { destruct (flat_map (fun u => map (pair u) (seq 0 (u_size u))) (c_unks c)) eqn:E; [|eauto].
    exfalso. assert (In (u, 0) []) as K; [|destruct K]. rewrite <- E. apply in_flat_map. exists u. split; auto.
    apply in_map. apply in_seq. lia. }
  destruct L as [[v idx] [r ->]]. cbn [for_each rev_row]. unfold apply_jac. rewrite Hj. reflexivity.
Qed.

(** ** against finite differences *)
(** if the residuals are polynomials that the difference formula integrates exactly, and
    the stored residuals are those of the current inputs, then the forward block and the
    difference block agree exactly if the component's derivative is right *)
Theorem check_against_differences : forall F (F0 F1 : F) fadd fmul fsub fopp fdiv finv flt,
  field_theory F0 F1 fadd fmul fsub fopp fdiv finv eq ->
  forall (c : comp (F:=F)) op A B s, tidy c -> keys_once c -> shapes_ok F1 c -> acts F0 fadd fmul c op A B -> local c A -> local c B ->
  forall run ins asked phi s0, evaluates F0 false run ins asked phi s0 -> in_vectors ins s0 -> not_inputs false ins asked s0 -> NoDup ins ->
  forall outs, (forall k, asked_by outs k -> asked k) -> NoDup (map o_name outs) ->
  forall params, steps_inputs ins params -> NoDup (map f_name params) -> fadd F1 F1 <> F0 ->
  forall e, (forall k x, asked k -> phi k x = peval fadd fmul fopp (at_list F0 x) (e k)) ->
  exists Jf Jr, check_comp F0 F1 fmul op c s = Ok (Jf, Jr) /\
  forall u n size q fac i j f o k, In u (c_unks c) -> input F1 c n size q fac -> i < u_size u -> j < size ->
    In f params -> f_name f = n -> f_idxs f = seq 0 size -> In o outs -> o_name o = u_name u -> o_start o = u_off u -> o_rows o = seq 0 (u_size u) ->
    nth_error ins k = Some (f_where f, f_start f + j) ->
    f_step f <> F0 -> (f_relative f = true -> flt F0 (f_step f) = true) -> pdeg (e (u_off u + i)) <= deg_bound (f_form f) ->
    (f_form f <> Central -> nth (u_off u + i) (s_r s0) F0 = phi (u_off u + i) (inputs F0 ins s0)) ->
    (jac_entry (fst (fd_serial F0 F1 fadd fmul fsub fopp finv flt false run outs [] params s0)) (u_name u) n i j =
       option_map (fun m => m_at m i j) (Jf (u_name u) n) <->
     fmul (fmul (factor F1 (u_scale u)) (coef F0 fadd A (u_off u + i) (q j))) fac =
       peval fadd fmul fopp (at_list F0 (inputs F0 ins s0)) (pderiv F0 F1 Nat.eqb k (e (u_off u + i)))).
Proof.
  intros F F0 F1 fadd fmul fsub fopp fdiv finv flt Fth c op A B s Hc Hk Hs Hop HA HB run ins asked phi s0 Hev Hiv Hni Hnd outs Ha Ho params Hp Hpn H2 e He.
  destruct (check_reports_operator F F0 F1 fadd fmul fsub fopp (F_R Fth) c op A B s Hc Hk Hs Hop HA HB) as [Jf [Jr [E [H _]]]].
  exists Jf, Jr. split; auto. intros u n size q fac i j f o k Hu Hin Hi Hj Hf Hfn Hfi Hoo Hon Hos Hor Hk' Hst Hrel Hd Hst0.
  destruct (H u n size q fac Hu Hin) as [[mf [Ef [_ [_ Vf]]]] _]. rewrite Ef. cbn [option_map]. rewrite (Vf i j Hi Hj).
  rewrite <- Hon, <- Hfn.
  rewrite (C26_fd_exact F F0 F1 fadd fmul fsub fopp fdiv finv flt Fth false run ins asked phi s0 Hev Hiv Hni Hnd outs [] Ha Ho
             (fun _ _ _ K => match K with end) params Hp Hpn H2 e He f o j j i i k); auto.
  - rewrite Hos. split; intro K; [now inversion K|now rewrite K].
  - rewrite Hfi. rewrite nth_error_nth' with (d := 0) by (rewrite seq_length; auto). now rewrite seq_nth.
  - rewrite Hor. rewrite nth_error_nth' with (d := 0) by (rewrite seq_length; auto). now rewrite seq_nth.
  - now rewrite Hos.
  - now rewrite Hos.
Qed.

(** without that: fd_jacobian takes the stored residuals as the base of its differences
    and never evaluates them; a right derivative is reported as wrong *)
Theorem check_stale_refuted : exists (run : @st Qc -> @st Qc) outs params s0,
  (forall s, s_r (run s) = [(nth 0 (s_p s) 0 * nth 0 (s_p s) 0 - nth 0 (s_u s) 0)%Qc] /\ s_p (run s) = s_p s /\ s_u (run s) = s_u s) /\
  s_p s0 = [1%Qc] /\ s_u s0 = [0%Qc] /\ s_r s0 = [0%Qc] /\
  option_map this (jac_entry (fst (fd_serial 0%Qc 1%Qc Qcplus Qcmult Qcminus Qcopp Qcinv (fun a b => negb (Qle_bool b a)) false run outs [] params s0)) "r" "u" 0 0) = Some 9%Q.
Proof.
  exists (fun s => mkSt (s_p s) (s_u s) [(nth 0 (s_p s) 0 * nth 0 (s_p s) 0 - nth 0 (s_u s) 0)%Qc]), [mkFO "r" 0 [0]],
    [mkFP "u" None InU 0 [0] (Q2Qc (1 # 10)) false Forward], (mkSt [1%Qc] [0%Qc] [0%Qc]).
  repeat split.
Qed.

(** a complex step of a parameter whose units are converted evaluates the component at
    the unconverted value: for f(x) = x^2 with x = 2*3 the derivative with respect to the
    source is 2*12, which the component supplies and forward mode reports; the complex
    step reports 6 *)
Definition sq : pexpr Qc nat := PMul (PV 0) (PV 0).
Definition unit_comp : comp (F:=Qc) :=
  mkC [mkP "x" 0 1 (Some (Q2Qc 2))] [mkU "y" 0 1 false None] false (Some [("y", "x", mkM 1 1 (fun _ _ => Q2Qc 12))]) None.
Definition zero_state : state (F:=Qc) := mkS (fun _ => 0%Qc) (fun _ => 0%Qc) (fun _ => 0%Qc).
Definition qcheck (c : comp (F:=Qc)) : res (jacs * jacs) := check_comp 0%Qc 1%Qc Qcmult (fun b s => apply_jac 0%Qc Qcplus Qcmult b c s) c zero_state.
Definition shown (r : res (jacs (F:=Qc) * jacs (F:=Qc))) (u p : string) (i j : nat) : option (option Q * option Q) :=
  match r with Ok (f, g) => Some (option_map (fun m => this (m_at m i j)) (f u p), option_map (fun m => this (m_at m i j)) (g u p)) | Err _ => None end.
Definition qcs_units := complex_step_units 0%Qc Qcplus Qcmult Qcminus Qcopp Qcinv (cpoly_out 0%Qc Qcplus Qcmult Qcminus Qcopp [sq]).
Theorem check_cs_units_refuted :
  convert Qcplus Qcmult (Some (Q2Qc 2, 0%Qc)) (Q2Qc 3) = Q2Qc 6 /\
  this (peval Qcplus Qcmult Qcopp (fun _ => Q2Qc 6) (pderiv 0%Qc 1%Qc Nat.eqb 0 sq)) = 12%Q /\
  shown (qcheck unit_comp) "y" "x" 0 0 = Some (Some 24%Q, Some 24%Q) /\
  map (map this) (snd (qcs_units [Some (Q2Qc 2, 0%Qc)] 0 1 (Q2Qc (1 # 10)) (mkSt [Q2Qc 3] [Q2Qc 36] [0%Qc]))) = [[6%Q]].
Proof. repeat split; try (apply Qc_is_canon; vm_compute; reflexivity); vm_compute; reflexivity. Qed.

(** and without unit conversions but with scaled residuals, the complex step of an
    explicit component is not scaled while the other Jacobians are *)
Definition scaled_comp : comp (F:=Qc) :=
  mkC [mkP "x" 0 1 None] [mkU "y" 0 1 false (Some (Q2Qc (1 # 2)))] false (Some [("y", "x", mkM 1 1 (fun _ _ => Q2Qc 6))]) None.
Theorem check_cs_scaled_refuted :
  this (peval Qcplus Qcmult Qcopp (fun _ => Q2Qc 3) (pderiv 0%Qc 1%Qc Nat.eqb 0 sq)) = 6%Q /\
  shown (qcheck scaled_comp) "y" "x" 0 0 = Some (Some 3%Q, Some 3%Q) /\
  map (map this) (snd (qcs_units [None] 0 1 (Q2Qc (1 # 10)) (mkSt [Q2Qc 3] [Q2Qc 9] [0%Qc]))) = [[6%Q]].
Proof. repeat split; vm_compute; reflexivity. Qed.

(** where nothing is converted the complex step is the one of C60 *)
Theorem check_cs_no_units : forall F (F0 : F) fadd fmul fsub fopp finv f a n h s units, Forall (fun o => o = None) units ->
  complex_step_units F0 fadd fmul fsub fopp finv f units a n h s = complex_step F0 fadd fmul fsub fopp finv f a n h s.
Proof.
  intros F F0 fadd fmul fsub fopp finv f a n h s units H. unfold complex_step_units, complex_step.
  assert (E : converted fadd fmul units (s_p s) = s_p s).
  { revert units H. induction (s_p s) as [|x l IH]; intros units H; cbn; auto.
    destruct H as [|o units Ho H]; cbn.
    - rewrite IH by constructor. reflexivity.
    - rewrite Ho, IH by auto. reflexivity. }
  rewrite E, !skipn_map, !firstn_map. reflexivity.
Qed.

(** ** the options *)
(** a component that is differenced itself is skipped exactly if its settings are those of
    the check *)
Theorem check_skips : forall F (feqb : F -> F -> bool), (forall a b, feqb a b = true <-> a = b) ->
  forall own check ov, plan feqb own check ov = None <-> o_type own <> "user"%string /\ own = override ov check.
Proof.
  intros F feqb Hf own check ov. unfold plan. destruct (String.eqb_spec (o_type own) "user") as [E|E].
  - split; [discriminate|tauto].
  - unfold opt_eqb. split.
    + destruct (_ && _ && _ && _) eqn:B; [|discriminate]. intros _. split; auto.
      apply andb_prop in B. destruct B as [B B4]. apply andb_prop in B. destruct B as [B B3]. apply andb_prop in B. destruct B as [B1 B2].
      apply Hf in B1. apply String.eqb_eq in B2, B3, B4. destruct own, (override ov check). cbn in *. congruence.
    + intros [_ K]. rewrite <- K. rewrite (proj2 (Hf (o_step own) (o_step own)) eq_refl), !String.eqb_refl. reflexivity.
Qed.
(** without overrides the two differences are those of the settings *)
Theorem check_calls_own : forall F (own check : @fdopts F), o_type own = "fd"%string -> o_type check = "fd"%string ->
  first_call own check (mkOv None None None None) = CallFd check /\ second_call own check (mkOv None None None None) = CallFd own.
Proof. intros F [] [] E1 E2. cbn in *. subst. split; reflexivity. Qed.
(** overrides for the check also override the component's own settings: with a step, a
    form and a step_calc given, both differences are the same computation, although the
    component was not skipped *)
Theorem check_overrides_refuted : exists (own check : @fdopts Z) ov,
  plan Z.eqb own check ov = Some false /\ own <> override ov check /\ second_call own check ov = first_call own check ov.
Proof.
  exists (mkOpt 1%Z "forward" "absolute" "fd"), (mkOpt 2%Z "forward" "absolute" "fd"), (mkOv (Some 3%Z) (Some "central") (Some "relative") None)%string.
  repeat split. discriminate.
Qed.
Theorem check_overrides_hide : forall F (own check : @fdopts F) a b d, o_type own = "fd"%string -> o_type check = "fd"%string ->
  second_call own check (mkOv (Some a) (Some b) (Some d) None) = first_call own check (mkOv (Some a) (Some b) (Some d) None).
Proof. intros F [] [] a b d E1 E2. cbn in *. subst. reflexivity. Qed.

(** ** what is reported *)
Section Reports.
  Local Open Scope Q_scope.
  (** absolute errors: zero exactly where the Jacobians agree *)
  Theorem check_abs_errors : forall M norm minus (same : M -> M -> Prop), separates norm minus same -> forall fd f r,
    exists a1 a2 a3, abs_error (report_one norm minus fd (Some f) (Some r) None) = [a1; a2; a3] /\
      (a1 == 0 <-> same f fd) /\ (a2 == 0 <-> same r fd) /\ (a3 == 0 <-> same f r).
  Proof. intros M norm minus same H fd f r. do 3 eexists. split; [reflexivity|]. repeat split; apply H; auto. Qed.
  Theorem check_abs_errors_fd : forall M norm minus (same : M -> M -> Prop), separates norm minus same -> forall fd d,
    exists a4, abs_error (report_one norm minus fd None None (Some d)) = [a4] /\ (a4 == 0 <-> same d fd).
  Proof. intros M norm minus same H fd d. eexists. split; [reflexivity|]. apply H. Qed.
  (** relative errors: the absolute ones over the magnitude of the difference *)
  Theorem check_rel_errors : forall M norm minus (fd f r : M), ~ norm fd == 0 ->
    Forall2 (fun a e => exists q, e = Some q /\ q * norm fd == a) (abs_error (report_one norm minus fd (Some f) (Some r) None)) (rel_error (report_one norm minus fd (Some f) (Some r) None)).
  Proof.
    intros M norm minus fd f r H. unfold report_one, rel_errs. cbn [abs_error rel_error].
    destruct (Qeq_bool (norm fd) 0) eqn:E; [apply Qeq_bool_eq in E; contradiction|]. cbn.
    repeat constructor; eexists; (split; [reflexivity|]); field; auto.
  Qed.
  (** where the difference is zero all four relative errors are nan, one more than there
      are absolute errors, and none is starred, although the absolute errors are *)
  Theorem check_zero_difference : forall M norm minus (fd f r : M) tol, norm fd == 0 ->
    rel_error (report_one norm minus fd (Some f) (Some r) None) = [None; None; None; None] /\
    existsb (rel_flag tol) (rel_error (report_one norm minus fd (Some f) (Some r) None)) = false /\
    length (abs_error (report_one norm minus fd (Some f) (Some r) None)) = 3%nat.
  Proof. intros M norm minus fd f r tol H. unfold report_one, rel_errs. cbn. apply Qeq_eq_bool in H. rewrite H. auto. Qed.
  (** a star beside an absolute error means that it reaches the tolerance *)
  Theorem check_stars : forall tol e, abs_flag tol e = true <-> tol <= e.
  Proof. intros. unfold abs_flag. rewrite Bool.negb_involutive. apply Qle_bool_iff. Qed.

  (** the pairs reported are those in the differences, in the order of the variables *)
  Theorem check_pairs : forall M norm minus params resids (jf jr jd jd2 : jdict (M:=M)) out,
    assemble norm minus params resids jf jr jd jd2 = Ok out ->
    map fst out = filter (fun k => match jget jd (fst k) (snd k) with Some _ => true | None => false end) (flat_map (fun p => map (fun u => (u, p)) resids) params) /\
    forall u p d, In (u, p, d) out -> exists fd f r e, jget jd u p = Some fd /\ d = report_one norm minus fd f r e /\
      (jf = [] /\ f = None \/ jf <> [] /\ jget jf u p = f /\ f <> None) /\
      (jr = [] /\ r = None \/ jr <> [] /\ jget jr u p = r /\ r <> None) /\
      (jd2 = [] /\ e = None \/ jd2 <> [] /\ jget jd2 u p = e /\ e <> None).
  Proof.
    intros M norm minus params resids jf jr jd jd2 out H. unfold assemble in H.
    assert (U : forall J u p (o : option M), used J u p = Ok o -> J = [] /\ o = None \/ J <> [] /\ jget J u p = o /\ o <> None).
    { intros J u p o E. unfold used in E. destruct J as [|k J]; [left; inversion E; auto|].
      destruct (jget (k :: J) u p) as [m|]; [|discriminate]. inversion E; subst. right. repeat split; discriminate. }
    assert (G : forall l acc out, for_each (fun pu acc => let '(p, u) := pu in
                match jget jd u p with
                | None => Ok acc
                | Some fd => let! f := used jf u p in let! r := used jr u p in let! d := used jd2 u p in
                    Ok (acc ++ [(u, p, report_one norm minus fd f r d)]) end) l acc = Ok out ->
              exists new, out = acc ++ new /\ map fst new = filter (fun k => match jget jd (fst k) (snd k) with Some _ => true | None => false end) (map (fun pu => (snd pu, fst pu)) l) /\
              forall u p d, In (u, p, d) new -> exists fd f r e, jget jd u p = Some fd /\ d = report_one norm minus fd f r e /\
                used jf u p = Ok f /\ used jr u p = Ok r /\ used jd2 u p = Ok e).
    { clear H out. induction l as [|[p u] l IH]; intros acc out H; cbn [for_each] in H.
      - inversion H; subst. exists []. rewrite app_nil_r. repeat split. intros u p d [].
      - cbn [map filter fst snd]. destruct (jget jd u p) as [fd|] eqn:Ed.
        + destruct (used jf u p) as [f|] eqn:Ef; [|discriminate]. cbn [bind] in H. destruct (used jr u p) as [r|] eqn:Er; [|discriminate]. cbn [bind] in H.
          destruct (used jd2 u p) as [e|] eqn:Ee; [|discriminate]. cbn [bind] in H.
          destruct (IH _ _ H) as [new [-> [K1 K2]]]. exists ((u, p, report_one norm minus fd f r e) :: new).
          rewrite <- app_assoc. split; auto. cbn [map fst]. rewrite K1. split; auto.
          intros u' p' d [E|Hin]; [|auto]. inversion E; subst. exists fd, f, r, e. auto.
        + cbn [bind] in H. destruct (IH _ _ H) as [new [-> [K1 K2]]]. exists new. auto. }
    destruct (G _ _ _ H) as [new [-> [K1 K2]]]. cbn [app]. split.
    - rewrite K1. f_equal. clear. induction params as [|p l IH]; cbn; auto. rewrite map_app, IH, map_map. reflexivity.
    - intros u p d Hin. destruct (K2 u p d Hin) as [fd [f [r [e [A [B [C [D E]]]]]]]]. exists fd, f, r, e. repeat split; auto.
  Qed.

  (** the compact table: the column headed r(fwd-rev) is the relative error of the forward
      Jacobian, not zero although forward and reverse agree; for two differences the
      columns of the magnitudes are exchanged *)
  Definition qnorm (q : Q) : Q := if Qle_bool 0 q then q else - q.
  Theorem check_compact_refuted :
    compact qnorm Qminus "fd" 1 (Some 3) (Some 3) None =
      Some [("fwd mag.", Some (Some 3)); ("rev mag.", Some (Some 3)); ("check mag.", Some (Some 1));
            ("a(fwd-chk)", Some (Some (3 - 1))); ("a(rev-chk)", Some (Some (3 - 1)));
            ("r(fwd-rev)", Some (Some ((3 - 1) / 1))); ("r(rev-chk)", Some (Some ((3 - 1) / 1)))]%string /\
    compact qnorm Qminus "fd" 1 None None (Some 3) =
      Some [("fd mag.", Some (Some 1)); ("check mag.", Some (Some 3)); ("ab(chk - fd)", Some (Some (3 - 1))); ("rel(chk - fd)", Some (Some ((3 - 1) / 1)))]%string.
  Proof. split; reflexivity. Qed.
End Reports.

(** ** which components *)
Theorem check_selection : forall all comps sel, select all comps = Ok sel ->
  (comps = None -> sel = all) /\
  (forall l, comps = Some l -> map ci_name sel = l /\ incl sel all).
Proof.
  intros all comps sel H. destruct comps as [l|]; cbn in H.
  - split; [discriminate|]. intros l' E. inversion E; subst l'. clear E.
    destruct (existsb _ l) eqn:B; [discriminate|]. inversion H; subst sel. clear H.
    induction l as [|n l IH]; cbn; [split; [reflexivity|intros x []]|]. cbn in B. apply Bool.orb_false_elim in B. destruct B as [B1 B2].
    apply Bool.negb_false_iff in B1. destruct (IH B2) as [I1 I2].
    destruct (find (fun k => String.eqb (ci_name k) n) all) as [k|] eqn:Ek.
    + apply find_some in Ek. destruct Ek as [Hk Ek]. apply String.eqb_eq in Ek. cbn. rewrite I1, Ek. split; auto.
      intros x [<-|Hx]; auto.
    + exfalso. apply existsb_exists in B1. destruct B1 as [k [Hk K]]. apply (find_none _ _ Ek) in Hk. cbn in Hk. congruence.
  - inversion H. split; [auto|discriminate].
Qed.
Theorem check_selection_fails : forall all l, select all (Some l) = Err RuntimeError <-> exists n, In n l /\ ~ In n (map ci_name all).
Proof.
  intros all l. cbn. destruct (existsb _ l) eqn:B.
  - split; auto. intros _. apply existsb_exists in B. destruct B as [n [Hn B]]. exists n. split; auto.
    intro K. apply in_map_iff in K. destruct K as [k [E Hk]]. apply Bool.negb_true_iff in B.
    assert (existsb (fun k => String.eqb (ci_name k) n) all = true) as T; [|congruence].
    apply existsb_exists. exists k. split; auto. now apply String.eqb_eq.
  - split; [discriminate|]. intros [n [Hn K]]. exfalso.
    assert (existsb (fun n => negb (existsb (fun k => String.eqb (ci_name k) n) all)) l = true) as T; [|congruence].
    apply existsb_exists. exists n. split; auto. apply Bool.negb_true_iff. apply Bool.not_true_iff_false. rewrite existsb_exists.
    intros [k [Hk E]]. apply K. apply in_map_iff. exists k. split; auto. now apply String.eqb_eq.
Qed.
(** every selected component has an entry, except IndepVarComps and those skipped *)
Theorem check_components : forall sel n, In n (result_keys sel) <-> exists k, In k sel /\ ci_name k = n /\ ci_indep k = false /\ ci_same k = false.
Proof.
  intros sel n. unfold result_keys. rewrite in_map_iff. split; intros [k H]; exists k.
  - destruct H as [E H]. apply filter_In in H. destruct H as [H B]. apply andb_prop in B. destruct B as [B1 B2].
    apply Bool.negb_true_iff in B1, B2. auto.
  - destruct H as [H [E [B1 B2]]]. split; auto. apply filter_In. rewrite B1, B2. auto.
Qed.

(** ** examples *)
(** two inputs, one of them a state; the blocks (r, x) and (y, r) are not supplied *)
Definition ex_comp : comp (F:=Qc) :=
  mkC [mkP "x" 0 2 (Some (Q2Qc 3))] [mkU "y" 0 1 false (Some (Q2Qc (1 # 2))); mkU "r" 1 2 true None] false
      (Some [("y", "x", mkM 1 2 (fun _ j => Q2Qc (if j =? 0 then 4 else 6))); ("r", "r", mkM 2 2 (fun i j => Q2Qc (inject_Z (Z.of_nat (i + 2 * j)))))]) None.
Lemma ex_tidy : tidy ex_comp.
Proof. repeat split; cbn; repeat constructor; cbn; intuition (try discriminate; try lia). Qed.
Lemma ex_once : keys_once ex_comp.
Proof. intros l E. inversion E; subst l. cbn. repeat constructor; cbn; intuition discriminate. Qed.
Lemma ex_shapes : shapes_ok 1%Qc ex_comp.
Proof. apply (all_good_shapes 1%Qc ex_comp ex_tidy ex_once). reflexivity. Qed.
Example check_jacobian_example : exists Jf Jr, qcheck ex_comp = Ok (Jf, Jr) /\
  shown (Ok (Jf, Jr)) "y" "x" 0 1 = Some (Some 9%Q, Some 9%Q) /\ shown (Ok (Jf, Jr)) "r" "r" 0 1 = Some (Some 2%Q, Some 2%Q) /\
  shown (Ok (Jf, Jr)) "r" "x" 1 1 = Some (Some 0%Q, Some 0%Q) /\ shown (Ok (Jf, Jr)) "y" "z" 0 0 = Some (None, None).
Proof.
  destruct (check_reports_jacobian Qc _ _ _ _ _ _ Qcrt ex_comp zero_state ex_tidy ex_once ex_shapes) as [Jf [Jr [E _]]]; [discriminate|].
  assert (S : forall u p i j, shown (Ok (Jf, Jr)) u p i j = shown (qcheck ex_comp) u p i j) by (intros; unfold qcheck; now rewrite E).
  exists Jf, Jr. split; [exact E|]. rewrite !S. repeat split; vm_compute; reflexivity.
Qed.
(** an apply_linear whose reverse mode forgets the second input: found in (y, x) only *)
Definition ex_op (b : bool) (s : state (F:=Qc)) : res state :=
  if b then apply_jac 0%Qc Qcplus Qcmult true ex_comp s
  else let! s' := apply_jac 0%Qc Qcplus Qcmult false ex_comp s in Ok (mkS (du s') (dr s') (set (dp s') 1 (dp s 1))).
Example check_modes_example : shown (check_comp 0%Qc 1%Qc Qcmult ex_op ex_comp zero_state) "y" "x" 0 0 = Some (Some 6%Q, Some 6%Q) /\
  shown (check_comp 0%Qc 1%Qc Qcmult ex_op ex_comp zero_state) "y" "x" 0 1 = Some (Some 9%Q, Some 0%Q).
Proof. split; vm_compute; reflexivity. Qed.
Example check_wrong_shape_example :
  qcheck (mkC (c_params ex_comp) (c_unks ex_comp) false (Some [("y", "x", mkM 2 1 (fun _ _ => 1%Qc))]) None) = Err ValueError /\
  qcheck (mkC (c_params ex_comp) (c_unks ex_comp) false None None) = Err ValueError.
Proof. split; reflexivity. Qed.
(** an explicit component y = x^2 + y0 stepped at x = 3 with central differences *)
Definition ex_run (s : @st Qc) : @st Qc := mkSt (s_p s) (s_u s) [(nth 0 (s_p s) 0 * nth 0 (s_p s) 0 - nth 0 (s_u s) 0)%Qc].
Example check_differences_example :
  option_map this (jac_entry (fst (fd_serial 0%Qc 1%Qc Qcplus Qcmult Qcminus Qcopp Qcinv (fun a b => negb (Qle_bool b a)) false ex_run [mkFO "y" 0 [0]] []
     [mkFP "x" None InP 0 [0] (Q2Qc (1 # 10)) false Central] (mkSt [Q2Qc 3] [Q2Qc 9] [0%Qc]))) "y" "x" 0 0) = Some 6%Q /\
  shown (qcheck (mkC [mkP "x" 0 1 None] [mkU "y" 0 1 false None] false (Some [("y", "x", mkM 1 1 (fun _ _ => Q2Qc 6))]) None)) "y" "x" 0 0 = Some (Some 6%Q, Some 6%Q).
Proof. split; vm_compute; reflexivity. Qed.
Example check_differences_hypotheses : evaluates 0%Qc false ex_run [(InP, 0); (InU, 0)] (fun k => k = 0) (fun _ x => (nth 0 x 0 * nth 0 x 0 - nth 1 x 0)%Qc) (mkSt [Q2Qc 3] [Q2Qc 9] [0%Qc]) /\
  forall x, (nth 0 x 0 * nth 0 x 0 - nth 1 x 0)%Qc = peval Qcplus Qcmult Qcopp (at_list 0%Qc x) (PAdd (PMul (PV 0) (PV 0)) (PNeg (PV 1))).
Proof.
  split; [|reflexivity]. split.
  - intros s [A [B C]]. repeat split; auto.
  - intros s w i _ H. reflexivity.
  - intros s k _ ->. reflexivity.
Qed.
Example check_skips_example : plan Z.eqb (mkOpt 1%Z "forward" "absolute" "fd") (mkOpt 2%Z "forward" "absolute" "fd") (mkOv (Some 1%Z) None None None) = None /\
  plan Z.eqb (mkOpt 1%Z "forward" "absolute" "fd") (mkOpt 2%Z "forward" "absolute" "fd") (mkOv None None None None) = Some false /\
  plan Z.eqb (mkOpt 1%Z "forward" "absolute" "user") (mkOpt 1%Z "forward" "absolute" "fd") (mkOv None None None None) = Some true.
Proof. repeat split. Qed.
Example check_report_example : separates qnorm Qminus Qeq /\
  abs_error (report_one qnorm Qminus 2%Q (Some 2%Q) (Some 3%Q) None) = [(2 - 2)%Q; (3 - 2)%Q; (- (2 - 3))%Q] /\
  rel_error (report_one qnorm Qminus 2%Q (Some 2%Q) (Some 3%Q) None) = [Some ((2 - 2) / 2)%Q; Some ((3 - 2) / 2)%Q; Some (- (2 - 3) / 2)%Q] /\
  abs_error (report_one qnorm Qminus 0%Q (Some 2%Q) (Some 3%Q) None) = [(2 - 0)%Q; (3 - 0)%Q; (- (2 - 3))%Q] /\
  existsb (abs_flag (1 # 1000)) (abs_error (report_one qnorm Qminus 0%Q (Some 2%Q) (Some 3%Q) None)) = true.
Proof.
  repeat split; try reflexivity.
  - unfold qnorm. destruct (Qle_bool 0 (a - b)) eqn:E; [now apply Qle_bool_iff|].
    assert (~ (0 <= a - b)%Q) by (rewrite <- Qle_bool_iff, E; discriminate). lra.
  - unfold qnorm. destruct (Qle_bool 0 (a - b)); intro; lra.
  - intro H. unfold qnorm. destruct (Qle_bool 0 (a - b)); rewrite H; lra.
Qed.
Example check_pairs_example : exists a b, assemble qnorm Qminus ["x"; "s"] ["y"; "s"]
    [("y", "x", 1%Q); ("s", "s", 2%Q)] [("y", "x", 1%Q); ("s", "s", 2%Q)] [("s", "s", 2%Q); ("y", "x", 3%Q)] [] = Ok [("y", "x", a); ("s", "s", b)].
Proof. do 2 eexists. reflexivity. Qed.
Definition ex_all := [mkCI "p" true false; mkCI "a" false false; mkCI "b" false true].
Example check_selection_example : select ex_all (Some ["a"]) = Ok [mkCI "a" false false] /\ select ex_all (Some ["a"; "c"]) = Err RuntimeError /\
  result_keys ex_all = ["a"].
Proof. repeat split. Qed.

Print Assumptions check_reports_operator.
Print Assumptions check_modes_agree.
Print Assumptions check_reports_jacobian.
Print Assumptions check_wrong_shape.
Print Assumptions check_no_jacobian.
Print Assumptions check_against_differences.
Print Assumptions check_stale_refuted.
Print Assumptions check_cs_units_refuted.
Print Assumptions check_cs_scaled_refuted.
Print Assumptions check_cs_no_units.
Print Assumptions check_skips.
Print Assumptions check_calls_own.
Print Assumptions check_overrides_refuted.
Print Assumptions check_overrides_hide.
Print Assumptions check_abs_errors.
Print Assumptions check_abs_errors_fd.
Print Assumptions check_rel_errors.
Print Assumptions check_zero_difference.
Print Assumptions check_stars.
Print Assumptions check_pairs.
Print Assumptions check_compact_refuted.
Print Assumptions check_selection.
Print Assumptions check_selection_fails.
Print Assumptions check_components.

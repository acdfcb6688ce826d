(** Lemmas for TotProps.v: names, blocks and difference quotients. *)
From Coq Require Import Field_theory Field Ring.
From Verif Require Import Base BaseFacts GradModel GradSpec GradProofs TotModel TotSpec TotProofs.
From Verif Require FdModel FdSpec FdProofs FdProofs2.
Local Open Scope string_scope.
Local Open Scope nat_scope.
Local Open Scope list_scope.

Section Names.
  Context {F : Type} (F0 F1 : F) (fadd fmul fsub : F -> F -> F) (fopp : F -> F) (fdiv : F -> F -> F) (finv : F -> F) (flt : F -> F -> bool).
  Hypothesis Fth : field_theory F0 F1 fadd fmul fsub fopp fdiv finv (@eq F).
  Add Field FfT : Fth.
  Notation prob := (prob (F:=F)).
  Notation root := (root (F:=F)).
  Notation st := (FdModel.st (F:=F)).

  (** ** names *)
  Lemma find_first : forall (r : root) tgt src before after, r_conns r = before ++ (tgt, src) :: after -> (forall c, In c before -> snd c <> src) ->
    first_target r src = tgt.
  Proof.
    intros r tgt src before after E H. unfold first_target. rewrite E. clear E. induction before as [|c before IH]; cbn [app find snd].
    - rewrite String.eqb_refl. reflexivity.
    - destruct (String.eqb_spec src (snd c)) as [X|_]; [exfalso; apply (H c); [left; reflexivity|congruence]|]. apply IH. intros d Hd. apply H. right. exact Hd.
  Qed.
  Lemma sget_in : forall A (l : list (string * A)) k a, NoDup (map fst l) -> In (k, a) l -> sget l k = Some a.
  Proof.
    intros A l k a Hd H. unfold sget. induction l as [|[n b] l IH]; [contradiction|]. cbn in Hd |- *. apply NoDup_cons_iff in Hd. destruct Hd as [Hd1 Hd2].
    destruct H as [E|H].
    - assert (n = k /\ b = a) as [-> ->] by (split; congruence). rewrite String.eqb_refl. reflexivity.
    - destruct (String.eqb_spec k n) as [->|_]; [exfalso; apply Hd1; apply in_map_iff; exists (n, a); auto|]. apply IH; assumption.
  Qed.
  Lemma resolved_target : forall (r : root) (p : prob) v src tgt, p_var p v <> None -> resolved r p v src tgt -> abs_param r p v = Ok tgt.
  Proof.
    intros r p v src tgt Hv [H1 (before & after & E & H) _ _ _ _]. unfold abs_param, is_unknown. destruct (p_var p v); [|congruence].
    unfold get. rewrite H1. cbn [bind]. rewrite (find_first r tgt src before after E H). reflexivity.
  Qed.
  Lemma resolved_ikey : forall (r : root) (p : prob) v src tgt, resolved r p v src tgt -> fd_ikey r tgt = tgt.
  Proof.
    intros r p v src tgt [_ _ _ _ H5 H6]. unfold fd_ikey. assert (E : first_target r tgt = tgt).
    { unfold first_target. destruct (find _ (r_conns r)) as [[a b]|] eqn:E; [|reflexivity]. apply find_some in E. destruct E as [E1 E2]. apply String.eqb_eq in E2. cbn in E2. subst b.
      exfalso. apply H5. apply in_map_iff. exists (a, tgt). auto. }
    destruct (in_params r tgt) eqn:E0; [reflexivity|]. rewrite E. cbv zeta. rewrite E0.
    destruct (find _ (r_params r)) as [[key q]|] eqn:E1; [|reflexivity]. apply find_some in E1. destruct E1 as [E1 E2]. cbn [fst] in E2.
    destruct (sget (r_prom r) key) as [n|] eqn:E3; [|discriminate]. apply String.eqb_eq in E2. subst n. exact (H6 key q E1 E3).
  Qed.
  Lemma settings_used : forall (r : root) tgt o, settings_of r tgt o -> used_settings r tgt = Ok o.
  Proof.
    intros r tgt o H. unfold settings_of in H. unfold used_settings. cbv zeta. destruct (sget (r_abs_p r) tgt) as [l|]; [|subst; reflexivity].
    destruct H as (a & rest & -> & H1 & H2 & H3). destruct o as [a1 a2 a3]. cbn in H1, H2, H3. subst. reflexivity.
  Qed.
  Definition offsets (p : prob) (idx : list (string * list Z)) (n : string) : list nat :=
    match p_var p n with None => [] | Some (_, size) => match sget idx n with Some l => map Z.to_nat l | None => seq 0 size end end.
  Definition start_of (p : prob) (n : string) : nat := match p_var p n with Some (s, _) => s | None => 0 end.
  Lemma wanted_offsets : forall (p : prob) idx n, wanted p idx n = map (fun t => start_of p n + t) (offsets p idx n).
  Proof.
    intros p idx n. unfold wanted, offsets, start_of. destruct (p_var p n) as [[start size]|]; [|reflexivity]. destruct (sget idx n) as [l|]; [rewrite map_map; reflexivity|].
    assert (G : forall n0 a, seq (start + a) n0 = map (fun t => start + t) (seq a n0)).
    { induction n0 as [|m IH]; intros x; [reflexivity|]. cbn. f_equal. replace (S (start + x)) with (start + S x) by lia. apply IH. }
    specialize (G size 0). rewrite Nat.add_0_r in G. exact G.
  Qed.
  Definition fp_of (p : prob) (v tgt : string) (o : settings (F:=F)) : FdModel.fparam (F:=F) :=
    FdModel.mkFP tgt (Some v) FdModel.InU (start_of p v) (offsets p (p_poi p) v) (t_step o) (t_relative o) (t_form o).
  Lemma resolved_stepped : forall (r : root) (p : prob) v src tgt o, NoDup (map fst (r_conns r)) -> p_var p v <> None -> resolved r p v src tgt -> settings_of r tgt o ->
    stepped r p tgt = Ok (fp_of p v tgt o).
  Proof.
    intros r p v src tgt o Hd Hv [_ (before & after & E & _) H3 H4 _ _] Ho. unfold stepped.
    rewrite (sget_in _ (r_conns r) tgt src Hd) by (rewrite E; apply in_or_app; right; left; reflexivity).
    assert (ES : (if is_unknown p src then Ok src else get (r_prom r) src) = Ok v).
    { unfold is_unknown, get. destruct (p_var p src) as [x|] eqn:Es; [rewrite H4 by congruence; reflexivity|rewrite H3; reflexivity]. }
    rewrite ES. cbn [bind]. unfold fp_of, offsets, start_of. destruct (p_var p v) as [[start size]|]; [|congruence].
    rewrite (settings_used r tgt o Ho). reflexivity.
  Qed.

  (** ** the quotients *)
  Lemma moved_add_at : forall j d x, FdModel.add_at fadd j d x = moved F0 fadd j d x.
  Proof.
    intros j d x. unfold moved. apply nth_ext with (d := F0) (d' := F0).
    - rewrite FdProofs.add_at_length, map_length, seq_length. reflexivity.
    - intros n Hn. rewrite FdProofs.add_at_length in Hn. rewrite FdProofs2.nth_map_seq by exact Hn.
      destruct (Nat.lt_ge_cases j (length x)) as [L|L].
      + rewrite FdProofs.nth_add_at by exact L. reflexivity.
      + destruct (Nat.eqb_spec n j) as [e|Ne]; [lia|]. clear -L Ne. revert j n L Ne. induction x as [|a x IH]; intros [|j] [|n] L N; cbn in *; try lia; try reflexivity. apply IH; lia.
  Qed.
  Lemma dval_quotient : forall ins (phi : nat -> list F -> F) (s0 : st) fm j h k, h <> F0 -> fadd F1 F1 <> F0 ->
    FdProofs.dval F0 F1 fadd fmul fsub fopp finv true ins phi s0 fm j h k
    = quotient F0 F1 fadd fmul fsub fopp fdiv fm (phi k) (nth k (FdModel.s_u s0) F0) (FdSpec.inputs F0 ins s0) j h.
  Proof.
    intros ins phi s0 fm j h k Hh H2. unfold FdProofs.dval, quotient. cbv zeta. rewrite !moved_add_at. cbn [FdModel.res_of]. destruct fm; field; auto.
  Qed.

  (** ** the blocks *)
  Section Request.
    Context (r : root) (p : prob) (run : st -> st) (indep unknown : list string) (s0 : st).
    Hypothesis Hreq : fd_request F0 flt r p indep unknown.
    Definition tg (v : string) : string := match abs_param r p v with Ok t => t | Err _ => "" end.
    Definition set_of (v : string) : settings (F:=F) := match used_settings r (tg v) with Ok o => o | Err _ => r_default r end.
    Definition fpv (v : string) : FdModel.fparam (F:=F) := fp_of p v (tg v) (set_of v).
    Definition out_of (u : string) : FdModel.fout := FdModel.mkFO u (start_of p u) (offsets p (p_qoi p) u).
    Definition size_of (u : string) : nat := match p_var p u with Some (_, n) => n | None => 0 end.
    Definition pass_of (u : string) : FdModel.fpass := FdModel.mkPass u (size_of u) (option_map (map Z.to_nat) (sget (p_qoi p) u)).
    Definition computed : list string := filter (fun u => negb (mem indep u)) unknown.
    Definition passing : list string := filter (mem indep) unknown.
    Definition serial : FdModel.jac (F:=F) * st :=
      FdModel.fd_serial F0 F1 fadd fmul fsub fopp finv flt true run (map out_of computed) (map pass_of passing) (map fpv indep) s0.

    Lemma in_vars : forall idx n, var_ok p idx n -> p_var p n <> None.
    Proof. intros idx n (a & b & E & _). congruence. Qed.
    Lemma names : forall v, In v indep -> exists src, resolved r p v src (tg v) /\ settings_of r (tg v) (set_of v) /\ abs_param r p v = Ok (tg v) /\
      step_ok F0 flt (set_of v) /\ fd_ikey r (tg v) = tg v /\ stepped r p (tg v) = Ok (fpv v).
    Proof.
      intros v Hv. destruct Hreq as (H0 & _ & _ & _ & H & _). destruct (H v Hv) as (Hk & _ & o & (src & tgt & Hr & Ho) & Hs). pose proof (in_vars _ _ Hk) as Hp.
      pose proof (resolved_target r p v src tgt Hp Hr) as E. assert (Et : tg v = tgt) by (unfold tg; rewrite E; reflexivity).
      assert (Eo : set_of v = o) by (unfold set_of; rewrite Et, (settings_used r tgt o Ho); reflexivity). unfold fpv. rewrite Et, Eo. exists src.
      split; [exact Hr|]. split; [exact Ho|]. split; [exact E|]. split; [exact Hs|]. split; [exact (resolved_ikey r p v src tgt Hr)|]. exact (resolved_stepped r p v src tgt o H0 Hp Hr Ho).
    Qed.
    Lemma steps_unique : forall v o, In v indep -> steps_by r p v o -> o = set_of v.
    Proof.
      intros v o Hv (src & tgt & Hr & Ho). destruct Hreq as (_ & _ & _ & _ & H & _). destruct (H v Hv) as (Hk & _). pose proof (in_vars _ _ Hk) as Hp.
      unfold set_of, tg. rewrite (resolved_target r p v src tgt Hp Hr), (settings_used r tgt o Ho). reflexivity.
    Qed.
    Lemma tg_inj : forall v w, In v indep -> In w indep -> tg v = tg w -> v = w.
    Proof.
      intros v w Hv Hw E. destruct (names v Hv) as (s1 & R1 & _). destruct (names w Hw) as (s2 & R2 & _). destruct Hreq as (H0 & _).
      destruct R1 as [_ (b1 & a1 & E1 & _) P1 _ _ _]. destruct R2 as [_ (b2 & a2 & E2 & _) P2 _ _ _].
      assert (X1 : sget (r_conns r) (tg v) = Some s1) by (apply sget_in; [exact H0|rewrite E1; apply in_or_app; right; left; reflexivity]).
      assert (X2 : sget (r_conns r) (tg w) = Some s2) by (apply sget_in; [exact H0|rewrite E2; apply in_or_app; right; left; reflexivity]).
      rewrite E in X1. assert (s1 = s2) by congruence. subst s2. congruence.
    Qed.
    Lemma blocks_ok : fd_blocks F0 F1 fadd fmul fsub fopp finv flt r p run indep unknown s0 = Ok (map tg indep, fst serial).
    Proof.
      unfold fd_blocks. rewrite (mapr_ok _ _ (abs_param r p) tg) by (intros v Hv; destruct (names v Hv) as (? & _ & _ & E & _); exact E). cbn [bind].
      assert (E : mapr (stepped r p) (map tg indep) = Ok (map fpv indep)).
      { assert (G : forall l, incl l indep -> mapr (stepped r p) (map tg l) = Ok (map fpv l)).
        { induction l as [|v l IH]; intros Hi; [reflexivity|]. cbn [map mapr]. destruct (names v (Hi v (or_introl eq_refl))) as (? & _ & _ & _ & _ & _ & ->). cbn [bind].
          rewrite IH by (intros z Hz; apply Hi; right; exact Hz). reflexivity. }
        apply G. apply incl_refl. }
      rewrite E. cbn [bind]. clear E. destruct Hreq as (_ & _ & _ & Hne & _ & Hu & _).
      rewrite (mapr_ok _ _ (output p) out_of).
      2: { intros u Hi. apply filter_In in Hi. destruct (Hu u (proj1 Hi)) as (a & b & E & _). unfold output, out_of, start_of, offsets. rewrite E. reflexivity. }
      rewrite (mapr_ok _ _ (passed p) pass_of).
      2: { intros u Hi. apply filter_In in Hi. destruct (Hu u (proj1 Hi)) as (a & b & E & _). unfold passed, pass_of, size_of. rewrite E. reflexivity. }
      cbn [bind]. unfold serial, computed, passing. destruct indep as [|v l] eqn:EI; [congruence|]. reflexivity.
    Qed.

    Context (ins : list (FdModel.place * nat)) (phi : nat -> list F -> F).
    Hypothesis Hmodel : fd_model F0 p run indep unknown ins phi s0.
    Hypothesis two : fadd F1 F1 <> F0.

    Lemma outs_names : map FdModel.o_name (map out_of computed) = computed.
    Proof. rewrite map_map. apply map_id. Qed.
    Lemma pass_names : map FdModel.q_name (map pass_of passing) = passing.
    Proof. rewrite map_map. apply map_id. Qed.
    Lemma fp_names : NoDup (map FdModel.f_name (map fpv indep)).
    Proof.
      destruct Hreq as (_ & Hi & _). rewrite map_map. cbn [FdModel.f_name fpv fp_of].
      assert (G : forall l, incl l indep -> NoDup l -> NoDup (map tg l)).
      { induction l as [|v l IH]; intros HI Hd; [constructor|]. apply NoDup_cons_iff in Hd. destruct Hd as [Hd1 Hd2]. cbn [map]. constructor.
        - rewrite in_map_iff. intros (w & E & Hw). apply Hd1. rewrite <- (tg_inj w v); [exact Hw|apply HI; right; exact Hw|apply HI; left; reflexivity|exact E].
        - apply IH; [intros x Hx; apply HI; right; exact Hx|exact Hd2]. }
      apply G; [apply incl_refl|exact Hi].
    Qed.
    Lemma apart : forall o q, In o (map out_of computed) -> In q (map pass_of passing) -> FdModel.q_name q <> FdModel.o_name o.
    Proof.
      intros o q Ho Hq. apply in_map_iff in Ho. destruct Ho as (u & <- & Hu). apply in_map_iff in Hq. destruct Hq as (w & <- & Hw). cbn. unfold computed in Hu. unfold passing in Hw.
      apply filter_In in Hu. apply filter_In in Hw. destruct Hu as [_ Hu]. destruct Hw as [_ Hw]. intros ->. rewrite Hw in Hu. discriminate.
    Qed.
    Notation asked := (fun k => exists u, In u unknown /\ ~ In u indep /\ In k (wanted p (p_qoi p) u)).
    Lemma asked_ok : forall k, FdSpec.asked_by (map out_of computed) k -> asked k.
    Proof.
      intros k (o & t & Ho & Ht & ->). apply in_map_iff in Ho. destruct Ho as (u & <- & Hu). unfold computed in Hu. apply filter_In in Hu. destruct Hu as [Hu1 Hu2].
      exists u. split; [exact Hu1|]. split; [apply mem_false; destruct (mem indep u); [discriminate|reflexivity]|]. rewrite wanted_offsets. apply in_map. exact Ht.
    Qed.
    Lemma steps_ok : FdSpec.steps_inputs ins (map fpv indep).
    Proof.
      intros f idx Hf Hidx. apply in_map_iff in Hf. destruct Hf as (v & <- & Hv). destruct Hmodel as (_ & _ & _ & _ & H). apply (H v); [exact Hv|].
      rewrite wanted_offsets. apply in_map. exact Hidx.
    Qed.
    Lemma nth_in_map : forall A B (g : A -> B) l i b, nth_error (map g l) i = Some b -> exists a, nth_error l i = Some a /\ g a = b.
    Proof.
      intros A B g l i b H. rewrite nth_error_map in H. destruct (nth_error l i) as [a|]; [|discriminate]. exists a. split; [reflexivity|]. cbn in H. congruence.
    Qed.

    Lemma computed_block : forall X, table F0 F1 p indep unknown (quotients F0 F1 fadd fmul fsub fopp fdiv flt r p ins phi s0) X ->
      forall u v, In u unknown -> ~ In u indep -> In v indep -> exists m, dget FdModel.key2_eqb (fst serial) (u, tg v) = Some m /\ holds F0 p X m u v.
    Proof.
      intros X HX u v Hu Nu Hv. destruct Hmodel as (Hev & Hin & Hni & Hnd & _).
      assert (Ho : In (out_of u) (map out_of computed)) by (apply in_map; apply filter_In; split; [exact Hu|rewrite (proj2 (mem_false indep u) Nu); reflexivity]).
      assert (Hf : In (fpv v) (map fpv indep)) by (apply in_map; exact Hv).
      assert (Hc : NoDup (map FdModel.o_name (map out_of computed))) by (rewrite outs_names; apply NoDup_filter; apply Hreq).
      destruct (FdProofs.serial_spec F0 F1 fadd fmul fsub fopp fdiv finv flt Fth true run ins asked phi s0 Hev Hin Hni Hnd (map out_of computed) (map pass_of passing)
                  asked_ok Hc apart (map fpv indep) steps_ok fp_names) as (_ & S2 & _).
      specialize (S2 (fpv v) (out_of u) Hf Ho). change (FdModel.o_name (out_of u)) with u in S2. change (FdModel.f_name (fpv v)) with (tg v) in S2.
      unfold serial, FdModel.fd_serial. cbn [fst]. eexists. split; [exact S2|]. unfold FdProofs.full_block. unfold holds. rewrite !wanted_offsets, !map_length. split; [reflexivity|]. split.
      - rewrite Forall_map. apply Forall_forall. intros idx _. unfold FdProofs.colval. rewrite map_length. reflexivity.
      - intros i j k q Hi Hj. pose proof Hi as Hi'. pose proof Hj as Hj'. apply nth_in_map in Hi. destruct Hi as (t & Ht & Ek). apply nth_in_map in Hj. destruct Hj as (idx & Hidx & Eq).
        assert (Ik : In k (wanted p (p_qoi p) u)) by (rewrite wanted_offsets; eapply nth_error_In; exact Hi').
        assert (Iq : In q (wanted p (p_poi p) v)) by (rewrite wanted_offsets; eapply nth_error_In; exact Hj').
        assert (Lj : j < length (offsets p (p_poi p) v)) by (apply nth_error_Some; congruence). assert (Li : i < length (offsets p (p_qoi p) u)) by (apply nth_error_Some; congruence).
        cbn [FdModel.f_idxs fpv fp_of].
        assert (E1 : nth j (map (FdProofs.colval F0 F1 fadd fmul fsub fopp finv flt true ins phi s0 (fpv v) (out_of u)) (offsets p (p_poi p) v)) []
                     = FdProofs.colval F0 F1 fadd fmul fsub fopp finv flt true ins phi s0 (fpv v) (out_of u) idx).
        { apply nth_error_nth. apply map_nth_error. exact Hidx. }
        change (nth i (nth j (map (FdProofs.colval F0 F1 fadd fmul fsub fopp finv flt true ins phi s0 (fpv v) (out_of u)) (offsets p (p_poi p) v)) []) F0 = X k q).
        rewrite E1. clear E1. unfold FdProofs.colval. cbn [FdModel.o_rows out_of fpv FdModel.f_form FdModel.f_where FdModel.f_start fp_of FdModel.o_start FdModel.read].
        cbv zeta. rewrite Eq. erewrite nth_error_nth; [|apply map_nth_error; exact Ht]. cbv beta. rewrite Ek.
        destruct (proj2 (HX u k v q Hu Ik Hv Iq) Nu) as (o & jj & Hs & Hjj & ->). rewrite (steps_unique v o Hv Hs).
        destruct (names v Hv) as (src & _ & _ & _ & (Hs1 & Hs2) & _).
        assert (Ej : FdProofs.pos_in ins (FdModel.InU, q) = jj).
        { apply (proj1 (NoDup_nth_error ins) Hnd).
          - apply nth_error_Some. rewrite FdProofs.pos_in_ok; [discriminate|]. eapply nth_error_In; exact Hjj.
          - rewrite FdProofs.pos_in_ok; [symmetry; exact Hjj|eapply nth_error_In; exact Hjj]. }
        rewrite Ej. rewrite dval_quotient; [|apply FdProofs.step_nonzero; [exact Hs1|exact Hs2]|exact two]. reflexivity.
    Qed.

    Lemma passing_block : forall X D, table F0 F1 p indep unknown D X ->
      forall u v, In u unknown -> In u indep -> In v indep -> exists m, dget FdModel.key2_eqb (fst serial) (u, tg v) = Some m /\ holds F0 p X m u v.
    Proof.
      intros X D HX u v Hu Nu Hv. destruct Hreq as (_ & _ & Hnu & _ & Hvs & Hus & Hids & Hdis). destruct (Hids u Hu Nu) as (l & El & Hl).
      assert (Hq : In (pass_of u) (map pass_of passing)) by (apply in_map; apply filter_In; split; [exact Hu|apply mem_spec; exact Nu]).
      assert (Hf : In (fpv v) (map fpv indep)) by (apply in_map; exact Hv).
      assert (Hc : NoDup (map FdModel.q_name (map pass_of passing))) by (rewrite pass_names; apply NoDup_filter; exact Hnu).
      assert (Ei : FdModel.q_idxs (pass_of u) = Some (map Z.to_nat l)) by (cbn; rewrite El; reflexivity).
      destruct (Hus u Hu) as (start & size & Ev & _ & Hr). destruct (Hr l El) as (_ & _ & Hrange).
      assert (Eo : offsets p (p_qoi p) u = map Z.to_nat l) by (unfold offsets; rewrite Ev, El; reflexivity).
      assert (Hln : NoDup (map Z.to_nat l)).
      { clear -Hl Hrange. induction Hl as [|z l Hz Hl IH]; [constructor|]. inversion Hrange; subst. cbn [map]. constructor; [|apply IH; assumption].
        rewrite in_map_iff. intros (y & E & Hy). rewrite Forall_forall in H2. specialize (H2 y Hy). apply Hz. assert (y = z) by lia. subst y. exact Hy. }
      destruct (FdProofs2.pass_shape F0 F1 fadd fmul fsub fopp finv flt true run (map out_of computed) (map pass_of passing) Hc apart (map fpv indep) s0 (fpv v) (pass_of u) _ fp_names Hf Hq Ei)
        as (m & Em & Lm & Fm). change (FdModel.q_name (pass_of u)) with u in Em. change (FdModel.f_name (fpv v)) with (tg v) in Em. change (FdModel.f_idxs (fpv v)) with (offsets p (p_poi p) v) in Lm.
      exists m. split; [exact Em|]. unfold holds. rewrite !wanted_offsets, !map_length, Eo. split; [exact Lm|]. split; [exact Fm|].
      intros i j k q Hi Hj. pose proof Hi as Hi'. pose proof Hj as Hj'. apply nth_in_map in Hi. destruct Hi as (t & Ht & Ek). apply nth_in_map in Hj. destruct Hj as (idx & Hidx & Eq).
      assert (Ik : In k (wanted p (p_qoi p) u)) by (rewrite wanted_offsets, Eo; eapply nth_error_In; exact Hi').
      assert (Iq : In q (wanted p (p_poi p) v)) by (rewrite wanted_offsets; eapply nth_error_In; exact Hj').
      pose proof (FdProofs2.pass_identity F0 F1 fadd fmul fsub fopp finv flt true run (map out_of computed) (map pass_of passing) Hc apart (map fpv indep) s0 (fpv v) (pass_of u) _ j idx i t
                    fp_names Hf Hq Ei Hln Hidx Ht) as P.
      change (FdModel.q_name (pass_of u)) with u in P. change (FdModel.f_name (fpv v)) with (tg v) in P. change (FdModel.f_src (fpv v)) with (Some v) in P.
      unfold FdSpec.jac_entry in P. rewrite Em in P. destruct (nth_error m j) as [col|] eqn:Ec; [|discriminate].
      rewrite (nth_error_nth m j [] Ec). rewrite (nth_error_nth col i F0 P). destruct (HX u k v q Hu Ik Hv Iq) as [HX1 _]. rewrite (HX1 Nu).
      destruct (String.eqb_spec u v) as [->|Nuv]; cbn [andb].
      - destruct (Nat.eqb_spec t idx) as [->|Nt]; destruct (Nat.eqb_spec k q); subst; try reflexivity; [congruence|lia].
      - destruct (Nat.eqb_spec k q) as [->|_]; [|reflexivity]. exfalso. apply Nuv. exact (Hdis u v q Hu Nu Hv Ik Iq).
    Qed.

    Lemma fd_holds : forall X, table F0 F1 p indep unknown (quotients F0 F1 fadd fmul fsub fopp fdiv flt r p ins phi s0) X ->
      forall u v, In u unknown -> In v indep -> exists m, dget FdModel.key2_eqb (fst serial) (u, tg v) = Some m /\ holds F0 p X m u v.
    Proof.
      intros X HX u v Hu Hv. destruct (in_dec string_dec u indep) as [Nu|Nu]; [exact (passing_block X _ HX u v Hu Nu Hv)|exact (computed_block X HX u v Hu Nu Hv)].
    Qed.

    Lemma fd_array_ok : forall X dv cn, table F0 F1 p indep unknown (quotients F0 F1 fadd fmul fsub fopp fdiv flt r p ins phi s0) X ->
      exists J, fd_array F0 F1 fadd fmul fsub fopp finv flt r p run indep unknown s0 dv cn = Ok J /\ jacobian fmul p indep unknown dv cn X J.
    Proof.
      intros X dv cn HX. unfold fd_array. rewrite blocks_ok. cbn [bind]. destruct Hreq as (_ & _ & _ & Hne & Hvs & Hus & _).
      apply array_assembled; [|exact (fd_holds X HX)| |exact Hne|exact Hus|].
      - intros v Hv. destruct (names v Hv) as (? & _ & _ & _ & _ & E & _). exact E.
      - intros v Hv. exact (proj1 (proj2 (Hvs v Hv))).
      - intros v Hv. exact (proj1 (Hvs v Hv)).
    Qed.
    Lemma fd_dict_ok : forall X dv cn sp, table F0 F1 p indep unknown (quotients F0 F1 fadd fmul fsub fopp fdiv flt r p ins phi s0) X ->
      (forall u, In u unknown -> match sp with None => True | Some d => exists l : list string, sget d u = Some l end) ->
      exists J, fd_dict F0 F1 fadd fmul fsub fopp finv flt r p run indep unknown s0 dv cn sp = Ok J /\ jacobian_dict fmul p indep unknown dv cn sp X J.
    Proof.
      intros X dv cn sp HX Hsp. unfold fd_dict. rewrite blocks_ok. cbn [bind]. destruct Hreq as (_ & Hni & Hnu & Hne & Hvs & Hus & _).
      apply dict_assembled; [|exact (fd_holds X HX)| |exact Hsp|exact tg_inj|exact Hni|exact Hnu].
      - intros v Hv. destruct (names v Hv) as (? & _ & _ & _ & _ & E & _). exact E.
      - intros v Hv. exact (proj1 (proj2 (Hvs v Hv))).
    Qed.

    (** polynomials of low degree: the quotients are the derivatives *)
    Lemma exact_table : forall e X, (forall k x, asked k -> phi k x = FdSpec.peval fadd fmul fopp (FdSpec.at_list F0 x) (e k)) ->
      (forall v o k, In v indep -> steps_by r p v o -> asked k ->
         FdSpec.pdeg (e k) <= FdSpec.deg_bound (t_form o) /\ (t_form o <> FdModel.Central -> nth k (FdModel.s_u s0) F0 = phi k (FdSpec.inputs F0 ins s0))) ->
      table F0 F1 p indep unknown (derivatives F0 F1 fadd fmul fopp ins e s0) X ->
      table F0 F1 p indep unknown (quotients F0 F1 fadd fmul fsub fopp fdiv flt r p ins phi s0) X.
    Proof.
      intros e X Hphi Hdeg HX u k v q Hu Hk Hv Hq. destruct (HX u k v q Hu Hk Hv Hq) as [H1 H2]. split; [exact H1|]. intros Nu. destruct (H2 Nu) as (j & Hj & ->).
      destruct (names v Hv) as (src & Hr & Ho & _ & (Hs1 & Hs2) & _). exists (set_of v), j. split; [exists src, (tg v); auto|]. split; [exact Hj|].
      assert (Ha : asked k) by (exists u; auto). destruct (Hdeg v (set_of v) k Hv (ex_intro _ src (ex_intro _ (tg v) (conj Hr Ho))) Ha) as [D1 D2].
      assert (Hn : step_at fmul flt (set_of v) (nth q (FdModel.s_u s0) F0) <> F0).
      { pose proof (FdProofs.step_nonzero F0 fmul flt (fpv v) (nth q (FdModel.s_u s0) F0) Hs1 Hs2) as G. exact G. }
      rewrite <- dval_quotient; [|exact Hn|exact two]. symmetry. destruct Hmodel as (Hev & Hin & Hni & Hnd & _).
      apply (FdProofs.dval_exact F0 F1 fadd fmul fsub fopp fdiv finv Fth true ins asked phi s0 two e Hphi); [exact Ha|exact Hn|apply nth_error_Some; congruence|exact D1|exact D2].
    Qed.
  End Request.
End Names.

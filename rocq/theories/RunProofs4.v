(** Running a model: the theorems in terms of run_model and apply_model, and
    NLGaussSeidel as a solver. *)
From Verif Require Import Base RunModel RunSpec RunProofs RunProofs2 RunProofs3.
Local Open Scope string_scope.
Local Open Scope nat_scope.
Local Open Scope list_scope.

Section Final.
  Context {V : Type} (vadd vsub : V -> V -> V) (vopp : V -> V).
  Context (Hr : restores vadd vsub vopp).
  Notation run_model := (run_model vadd vsub vopp).
  Notation apply_model := (apply_model vadd vsub vopp).

  Lemma run_est : forall root conns s s', legal_model root conns -> parallel_independent conns root -> solvers_sweep root ->
      run_model root conns s = Ok s' ->
      framed conns (sys_params root) (sys_unks root) s s' /\
      est conns (in_order root) (sys_params root) (sys_unks root) (comps root) s'.
  Proof.
    intros root conns s s' L Hp Hs H. unfold run_model, RunModel.run_model in H.
    destruct (get_ubc root conns) as [m|]; [|discriminate]. cbn [bind] in H.
    apply (run_establishes vadd vsub vopp conns (in_order root) m (lm_targets _ _ L) Hr root (root_ordered root conns L) Hs Hp
             (lm_params _ _ L) (lm_unks _ _ L)). exact H.
  Qed.

  Lemma conn_internal : forall (root : sys V) conns k, legal_model root conns -> In k conns -> internal (sys_params root) (sys_unks root) k.
  Proof.
    intros root conns k L Hk. destruct (lm_ends _ _ L k Hk) as (a & b & Ha & Hb & _ & Hs & Ht).
    split; apply in_flat_map; [exists b|exists a]; split; assumption.
  Qed.

  Lemma serial_independent : forall conns (t : sys V), serial t -> parallel_independent conns t.
  Proof.
    intros conns. induction t as [c|par nl subs IH] using sys_ind2; intros H; [exact I|]. destruct H as [-> H].
    split; [discriminate|]. induction subs as [|x l IHl]; [exact I|]. destruct H as [H1 H2].
    split; [apply IH; [left; reflexivity|assumption]|]. apply IHl; [intros y Hy; apply IH; right; assumption|assumption].
  Qed.

  (** feed-forward models *)
  Lemma ff_run : forall root conns s s', legal_model root conns -> parallel_independent conns root -> solvers_sweep root ->
      feed_forward root conns -> run_model root conns s = Ok s' ->
      consistent conns s' /\ (forall c, In c (comps root) -> solved c s').
  Proof.
    intros root conns s s' L Hp Hs Hf H. destruct (run_est root conns s s' L Hp Hs H) as [_ [E1 E2]]. split.
    - intros k Hk. apply E1; [assumption|apply Hf; assumption|apply (conn_internal root conns); assumption].
    - intros c Hc. apply E2; [assumption|]. intros k Hk _. apply Hf. assumption.
  Qed.

  Lemma inputs_kept : forall root conns s s', legal_model root conns -> parallel_independent conns root -> solvers_sweep root ->
      run_model root conns s = Ok s' ->
      (forall p, ~ In p (map k_tgt conns) -> pv s' p = pv s p) /\
      (forall u, ~ In u (flat_map c_unks (comps root)) -> uv s' u = uv s u) /\
      (forall c u, In c (comps root) -> indep c -> In u (c_unks c) -> uv s' u = uv s u).
  Proof.
    intros root conns s s' L Hp Hs H. destruct (run_est root conns s s' L Hp Hs H) as [(F1 & F2 & F3) _].
    split; [|split; [exact F1|]].
    - intros p Hn. apply F3. intros k Hk E _. apply Hn. rewrite <- E. apply in_map. assumption.
    - intros c u Hc Hi Hu. unfold run_model, RunModel.run_model in H.
      destruct (get_ubc root conns) as [m|]; [|discriminate]. cbn [bind] in H.
      assert (Hcs : forall d a b, In d (comps root) -> run_comp d a = Ok b -> uv b u = uv a u).
      { intros d a b Hd Hrun. destruct (in_dec string_dec u (c_unks d)) as [Hin|Hout].
        - assert (d = c) by (apply (owner_unique c_unks (comps root) d c u (lm_unks _ _ L)); assumption). subst d.
          unfold run_comp in Hrun. rewrite Hi in Hrun. cbn [bind] in Hrun. unfold read in Hrun. rewrite map_length, Nat.eqb_refl in Hrun.
          injection Hrun as <-. simpl. clear. induction (c_unks c) as [|n l IH]; [reflexivity|]. simpl.
          destruct (String.eqb_spec u n) as [->|]; [reflexivity|exact IH].
        - apply (proj1 (run_comp_framed conns d a b Hrun)). assumption. }
      assert (Nu : NoDup (sys_unks root)) by exact (lm_unks _ _ L).
      assert (G : forall t, incl (comps t) (comps root) -> NoDup (sys_unks t) -> solvers_sweep t ->
                forall a b, run_sys vadd vsub vopp conns m t a = Ok b -> uv b u = uv a u).
      { induction t as [d|par nl subs IH] using sys_ind2; intros Hsub Nt Hsw a b Hrun.
        - simpl in Hrun. apply (Hcs d); [apply Hsub; left; reflexivity|assumption].
        - destruct Hsw as [Hnl Hss]. destruct (run_grp vadd vsub vopp conns m par nl subs a) as (ch & Ech & Erun).
          rewrite Erun in Hrun. clear Erun.
          assert (IH' : forall x, In x subs -> forall a b, run_sys vadd vsub vopp conns m x a = Ok b -> uv b u = uv a u).
          { intros x Hx. apply IH; [assumption| | |apply (all_in solvers_sweep subs Hss x Hx)].
            - intros d Hd. apply Hsub. simpl. apply in_flat_map. exists x. split; assumption.
            - rewrite sys_unks_grp in Nt. apply (nodup_part _ subs); assumption. }
          assert (Gch : forall a b, ch a = Ok b -> uv b u = uv a u).
          { intros a0 b0 E. rewrite Ech in E. unfold children in E. destruct par.
            - assert (K : forall l, incl l subs -> forall a b, ch_par vadd vsub vopp conns m l a = Ok b -> uv b u = uv a u).
              { induction l as [|x l IHl]; intros Hl a1 b1 E1; simpl in E1; [injection E1 as <-; reflexivity|].
                destruct (run_sys vadd vsub vopp conns m x a1) as [c1|] eqn:Ex; [|discriminate]. cbn [bind] in E1.
                rewrite (IHl (fun y Hy => Hl y (or_intror Hy)) _ _ E1). apply (IH' x (Hl x (or_introl eq_refl)) _ _ Ex). }
              exact (K subs (incl_refl _) _ _ E).
            - assert (K : forall l, incl l subs -> forall a b, ch_ser vadd vsub vopp conns m (flat_map sys_unks subs) l a = Ok b -> uv b u = uv a u).
              { induction l as [|x l IHl]; intros Hl a1 b1 E1; simpl in E1; [injection E1 as <-; reflexivity|].
                destruct (run_sys vadd vsub vopp conns m x _) as [c1|] eqn:Ex; [|discriminate]. cbn [bind] in E1.
                rewrite (IHl (fun y Hy => Hl y (or_intror Hy)) _ _ E1). apply (IH' x (Hl x (or_introl eq_refl)) _ _ Ex). }
              exact (K subs (incl_refl _) _ _ E). }
          assert (Gap : forall a b, apply_sys vadd vsub vopp conns m true (Grp par nl subs) a = Ok b -> uv b u = uv a u).
          { intros a0 b0 E. apply (apply_refreshed vadd vsub vopp conns m Hr _ Nt _ _ _ E). }
          destruct (Hnl _ _ _ _ Hrun) as (s1 & s2 & Hc1 & Hch & Hend).
          assert (K : uv s1 u = uv a u).
          { clear -Hc1 Gch Gap. induction Hc1 as [|s s1 s2 H1 IH E|s s1 s2 H1 IH E]; [reflexivity| |].
            - rewrite (Gch _ _ E). exact IH.
            - rewrite (Gap _ _ E). exact IH. }
          destruct Hend as [->|Hap]; [|rewrite (Gap _ _ Hap)]; rewrite (Gch _ _ Hch); exact K. }
      apply (G root (incl_refl _) Nu Hs _ _ H).
  Qed.

  Lemma solution_unique : forall (root : sys V) conns a b, legal_model root conns -> feed_forward root conns ->
      (forall c, In c (comps root) -> explicit c \/ indep c) -> same_inputs root conns a b ->
      consistent conns a -> consistent conns b ->
      (forall c, In c (comps root) -> solved c a) -> (forall c, In c (comps root) -> solved c b) -> same_values root a b.
  Proof.
    intros root conns a b L Hf He (S1 & S2) Ca Cb Sa Sb.
    assert (G : forall l2 l1, comps root = l1 ++ l2 ->
        (forall c, In c l1 -> (forall p, In p (c_params c) -> pv a p = pv b p) /\ (forall u, In u (c_unks c) -> uv a u = uv b u)) ->
        forall c, In c (comps root) -> (forall p, In p (c_params c) -> pv a p = pv b p) /\ (forall u, In u (c_unks c) -> uv a u = uv b u)).
    { induction l2 as [|c l2 IH]; intros l1 E H1.
      - rewrite app_nil_r in E. rewrite E. exact H1.
      - apply (IH (l1 ++ [c])); [rewrite <- app_assoc; exact E|]. intros d Hd. apply in_app_or in Hd. destruct Hd as [Hd|[<-|[]]]; [apply H1; assumption|].
        assert (Hc : In c (comps root)) by (rewrite E; apply in_or_app; right; left; reflexivity).
        assert (Hp : forall p, In p (c_params c) -> pv a p = pv b p).
        { intros p Hp. destruct (in_dec string_dec p (map k_tgt conns)) as [Hi|Hi].
          - apply in_map_iff in Hi. destruct Hi as (k & <- & Hk). rewrite (Ca k Hk), (Cb k Hk). f_equal.
            destruct (Hf k Hk) as (x & y & (m1 & m2 & m3 & Em) & Hs & Ht).
            assert (Em' : comps root = (m1 ++ x :: m2) ++ y :: m3) by (rewrite Em, <- app_assoc; reflexivity).
            destruct (split_unique c_params _ y (k_tgt k) (m1 ++ x :: m2) m3 l1 c l2 (lm_params _ _ L) Em' E Ht Hp) as (El & _ & _).
            assert (Hx : In x l1) by (rewrite <- El; apply in_or_app; right; left; reflexivity).
            apply (H1 x Hx). assumption.
          - apply S1; [|assumption]. apply in_flat_map. exists c. split; assumption. }
        split; [assumption|]. intros u Hu. destruct (He c Hc) as [Hex|Hin]; [|apply (S2 c); assumption].
        destruct (Sa c Hc) as (g1 & E1). destruct (Sb c Hc) as (g2 & E2).
        rewrite (map_ext_in (pv a) (pv b)) in E1 by assumption. rewrite (Hex _ g1 g2), E2 in E1. injection E1 as E1.
        clear -E1 Hu. induction (c_unks c) as [|n l IHl]; [destruct Hu|]. injection E1 as E1 E3.
        destruct Hu as [<-|Hu]; [symmetry; assumption|apply IHl; assumption]. }
    specialize (G (comps root) [] eq_refl (fun c H => match H with end)).
    split; intros v Hv; apply in_flat_map in Hv; destruct Hv as (c & Hc & Hv); apply (G c Hc); assumption.
  Qed.

  Lemma same_inputs_trans : forall root conns (a b c : st V), same_inputs root conns a b -> same_inputs root conns b c -> same_inputs root conns a c.
  Proof.
    intros root conns a b c (A1 & A2) (B1 & B2). split; intros.
    - rewrite A1, B1 by assumption. reflexivity.
    - rewrite (A2 c0), (B2 c0) by assumption. reflexivity.
  Qed.
  Lemma same_inputs_sym : forall root conns (a b : st V), same_inputs root conns a b -> same_inputs root conns b a.
  Proof. intros root conns a b (A1 & A2). split; intros; symmetry; [apply A1|apply (A2 c)]; assumption. Qed.
  Lemma run_same_inputs : forall root conns s s', legal_model root conns -> parallel_independent conns root -> solvers_sweep root ->
      run_model root conns s = Ok s' -> same_inputs root conns s' s.
  Proof.
    intros root conns s s' L Hp Hs H. destruct (inputs_kept root conns s s' L Hp Hs H) as (K1 & _ & K3).
    split; intros; [apply K1; assumption|apply (K3 c); assumption].
  Qed.

  Lemma ff_history : forall root conns s t s' t', legal_model root conns -> parallel_independent conns root -> solvers_sweep root ->
      feed_forward root conns -> (forall c, In c (comps root) -> explicit c \/ indep c) ->
      same_inputs root conns s t -> run_model root conns s = Ok s' -> run_model root conns t = Ok t' -> same_values root s' t'.
  Proof.
    intros root conns s t s' t' L Hp Hs Hf He Hi H1 H2.
    destruct (ff_run root conns s s' L Hp Hs Hf H1) as [C1 S1]. destruct (ff_run root conns t t' L Hp Hs Hf H2) as [C2 S2].
    apply (solution_unique root conns); try assumption.
    apply (same_inputs_trans root conns s' s); [apply run_same_inputs; assumption|].
    apply (same_inputs_trans root conns s t); [assumption|]. apply same_inputs_sym. apply run_same_inputs; assumption.
  Qed.

  (** the order of the tree does not matter *)
  Lemma ff_order : forall root root' conns s t s' t', legal_model root conns -> legal_model root' conns ->
      parallel_independent conns root -> parallel_independent conns root' -> solvers_sweep root -> solvers_sweep root' ->
      feed_forward root conns -> feed_forward root' conns -> (forall c, In c (comps root) <-> In c (comps root')) ->
      (forall c, In c (comps root) -> explicit c \/ indep c) ->
      same_inputs root conns s t -> run_model root conns s = Ok s' -> run_model root' conns t = Ok t' -> same_values root s' t'.
  Proof.
    intros root root' conns s t s' t' L L' Hp Hp' Hs Hs' Hf Hf' Hcs He Hi H1 H2.
    destruct (ff_run root conns s s' L Hp Hs Hf H1) as [C1 S1]. destruct (ff_run root' conns t t' L' Hp' Hs' Hf' H2) as [C2 S2].
    assert (T : same_inputs root conns t t').
    { destruct (inputs_kept root' conns t t' L' Hp' Hs' H2) as (K1 & _ & K3). split; intros; symmetry; [apply K1; assumption|].
      apply (K3 c); [apply Hcs|..]; assumption. }
    apply (solution_unique root conns); try assumption; [|intros c Hc; apply S2; apply Hcs; assumption].
    apply (same_inputs_trans root conns s' s); [apply run_same_inputs; assumption|].
    apply (same_inputs_trans root conns s t); assumption.
  Qed.

  (** ** residuals after a run *)
  Lemma residuals_faithful : forall par nl subs conns s s1 s2, let root := Grp par nl subs in
      legal_model root conns -> serial root -> solvers_sweep root ->
      run_model root conns s = Ok s1 -> apply_model root conns s1 = Ok s2 ->
      (forall u, uv s2 u = uv s1 u) /\ consistent conns s2 /\
      exists m, get_ubc root conns = Ok m /\ forall c, In c (comps root) ->
        (c_states c = true \/ In (c_name c) m -> residual_shown vadd vopp c s2) /\
        (~ In (c_name c) m -> solved c s2).
  Proof.
    intros par nl subs conns s s1 s2 root L Hser Hs H1 H2.
    destruct (run_est root conns s s1 L (serial_independent conns root Hser) Hs H1) as [_ E].
    unfold apply_model, RunModel.apply_model in H2.
    destruct (ubc_exact root conns L) as (m & Em & Hm). rewrite Em in H2. cbn [bind] in H2.
    assert (Hmark : forall c, In c (comps root) -> ~ In (c_name c) m -> forall k, In k conns -> In (k_tgt k) (c_params c) -> in_order root k).
    { intros c Hc Hn k Hk Ht. destruct (out_of_order_spec root conns L k Hk) as (b & Hb & Hbt & [[Hio _]|[Hno _]]); [assumption|].
      exfalso. apply Hn. apply Hm. exists c, k. repeat split; assumption. }
    assert (Hself : forall c k, In c (comps root) -> In k conns -> In (k_tgt k) (c_params c) -> In (k_src k) (c_unks c) -> False).
    { intros c k Hc Hk Ht Hsr. destruct (lm_ends _ _ L k Hk) as (a & b & Ha & Hb & Hne & Hs' & Ht').
      assert (a = c) by (apply (owner_unique c_unks (comps root) a c (k_src k) (lm_unks _ _ L)); assumption).
      assert (b = c) by (apply (owner_unique c_params (comps root) b c (k_tgt k) (lm_params _ _ L)); assumption). congruence. }
    destruct (apply_refreshed vadd vsub vopp conns m Hr root (lm_unks _ _ L) _ _ _ H2) as [Rf _].
    destruct (apply_shows vadd vsub vopp root conns L m Hr root Hser (lm_params _ _ L) (lm_unks _ _ L)) with (s := s1) (s' := s2) as [A1 A2];
      try assumption; [|exact I|].
    { intros c Hc Hn. apply Hmark; [assumption|]. simpl in Hn. apply orb_false_iff in Hn. apply smem_out. apply Hn. }
    split; [apply Rf|]. split; [intros k Hk; apply A1; [assumption|apply (conn_internal root conns); assumption]|].
    exists m. split; [exact Em|]. intros c Hc. split.
    - intros Hv. apply A2; [assumption|]. simpl. apply orb_true_iff. destruct Hv as [Hv|Hv]; [left; assumption|right; apply smem_in; assumption].
    - intros Hn. destruct (est_refreshed conns (in_order root) (lm_targets _ _ L) _ _ _ _ _ E Rf) as [_ E2].
      apply E2; [assumption|]. apply Hmark; assumption.
  Qed.

  (** residuals of zero: everything is solved *)
  Lemma zero_means_solved : forall zero par nl subs conns s s1 s2, let root := Grp par nl subs in
      (forall x y, vadd (vopp x) y = zero -> y = x) ->
      legal_model root conns -> serial root -> solvers_sweep root ->
      (forall c, In c (comps root) -> forall v x, c_scale c v x = zero -> x = zero) ->
      (forall c, In c (comps root) -> c_states c = false -> c_resid c = None) ->
      run_model root conns s = Ok s1 -> apply_model root conns s1 = Ok s2 ->
      (forall u, In u (flat_map c_unks (comps root)) -> rv s2 u = zero) ->
      consistent conns s2 /\ forall c, In c (comps root) ->
        match c_resid c with
        | None => solved c s2
        | Some f => f (map (pv s2) (c_params c)) (map (uv s2) (c_unks c)) = Ok (map (fun _ => zero) (c_unks c))
        end.
  Proof.
    intros zero par nl subs conns s s1 s2 root Hz L Hser Hs Hsc Hex H1 H2 Hzero.
    destruct (residuals_faithful par nl subs conns s s1 s2 L Hser Hs H1 H2) as (_ & C & m & _ & G).
    split; [exact C|]. intros c Hc. destruct (G c Hc) as [Gs Gn]. 
    assert (K : residual_shown vadd vopp c s2 ->
              match c_resid c with
              | None => solved c s2
              | Some f => f (map (pv s2) (c_params c)) (map (uv s2) (c_unks c)) = Ok (map (fun _ => zero) (c_unks c))
              end).
    { intros (rs & T & Hv & Hl).
      assert (Hz2 : rs = map (fun _ => zero) (c_unks c)).
      { assert (Hcs : forall v x, c_scale c v x = zero -> x = zero) by (apply Hsc; assumption).
        assert (Hrz : forall u, In u (c_unks c) -> rv s2 u = zero) by (intros u Hu; apply Hzero; apply in_flat_map; exists c; split; assumption).
        clear -Hcs Hrz Hv Hl. revert rs Hv Hl. induction (c_unks c) as [|n l IH]; intros [|r rs] Hv Hl; try discriminate; [reflexivity|].
        simpl in Hv. injection Hv as Hv1 Hv2. simpl. f_equal.
        - apply (Hcs n). rewrite <- Hv1. apply Hrz. left. reflexivity.
        - apply IH; [intros u Hu; apply Hrz; right; assumption|assumption|]. simpl in Hl. lia. }
      unfold true_residual in T. destruct (c_resid c) as [f|]; [rewrite Hz2 in T; exact T|].
      destruct T as (us & T1 & T2 & T3). exists (map (uv s2) (c_unks c)). rewrite T1. f_equal.
      assert (Hlen : length us = length (map (uv s2) (c_unks c))) by (rewrite map_length; assumption).
      rewrite T3 in Hz2. revert Hz2 Hlen. clear -Hz. revert us. induction (c_unks c) as [|n l IH]; intros [|u us] Hz2 Hlen; try discriminate; [reflexivity|].
      simpl in *. injection Hz2 as E1 E2. f_equal; [apply Hz; exact E1|]. apply IH; [assumption|]. lia. }
    destruct (c_states c) eqn:Es; [apply K; apply Gs; left; reflexivity|].
    destruct (in_dec string_dec (c_name c) m) as [Hi|Hi]; [apply K; apply Gs; right; assumption|].
    rewrite (Hex c Hc Es). apply Gn. assumption.
  Qed.

  (** a feed-forward model has no residuals after a run *)
  Lemma ff_residuals : forall zero par nl subs conns s s1 s2, let root := Grp par nl subs in
      (forall x, vadd (vopp x) x = zero) ->
      legal_model root conns -> serial root -> solvers_sweep root -> feed_forward root conns ->
      (forall c, In c (comps root) -> explicit c \/ indep c) -> (forall c, In c (comps root) -> c_resid c = None) ->
      run_model root conns s = Ok s1 -> apply_model root conns s1 = Ok s2 ->
      (forall u, uv s2 u = uv s1 u) /\ (forall p, pv s2 p = pv s1 p) /\
      forall c, In c (comps root) -> c_states c = true -> forall u, In u (c_unks c) -> rv s2 u = c_scale c u zero.
  Proof.
    intros zero par nl subs conns s s1 s2 root Hz L Hser Hs Hf He Hn H1 H2.
    destruct (residuals_faithful par nl subs conns s s1 s2 L Hser Hs H1 H2) as (Hu & C & m & Em & G).
    destruct (ff_run root conns s s1 L (serial_independent conns root Hser) Hs Hf H1) as [C1 S1].
    split; [exact Hu|].
    assert (Hp : forall p, pv s2 p = pv s1 p).
    { change (get_ubc root conns = Ok m) in Em. intros p. unfold apply_model, RunModel.apply_model in H2. rewrite Em in H2. cbn [bind] in H2.
      destruct (apply_refreshed vadd vsub vopp conns m Hr root (lm_unks _ _ L) _ _ _ H2) as [(_ & Rp) _].
      destruct (Rp p) as [->|(k & Hk & <- & _ & ->)]; [reflexivity|]. symmetry. apply C1. assumption. }
    split; [exact Hp|]. intros c Hc Hst. destruct (G c Hc) as [Gs _]. destruct (Gs (or_introl Hst)) as (rs & T & Hv & Hl).
    unfold true_residual in T. rewrite (Hn c Hc) in T. destruct T as (us & T1 & T2 & T3).
    assert (Eu : us = map (uv s2) (c_unks c)).
    { destruct (He c Hc) as [Hex|Hin].
      - destruct (S1 c Hc) as (g & Es). rewrite (map_ext (pv s2) (pv s1)), (Hex _ _ g), Es in T1 by exact Hp.
        injection T1 as <-. apply map_ext. intros u. symmetry. apply Hu.
      - rewrite Hin in T1. injection T1 as <-. reflexivity. }
    assert (Ez : rs = map (fun _ => zero) (c_unks c)).
    { rewrite T3, Eu. clear -Hz. induction (c_unks c) as [|n l IH]; [reflexivity|]. simpl. rewrite Hz, IH. reflexivity. }
    rewrite Ez in Hv. clear -Hv. induction (c_unks c) as [|n l IH]; intros u Hu; [destruct Hu|]. simpl in Hv. injection Hv as H1 H2.
    destruct Hu as [<-|Hu]; [assumption|apply IH; assumption].
  Qed.
End Final.

From Coq Require Import Lqa Qfield.
From Verif Require Import Base BaseFacts VecModel VecSpec VecProofs OptionsModel SolveModel SolveSpec SolveProofs.
Local Open Scope nat_scope.

(** ** steps keep the bounds *)
Lemma add_step_nth : forall u al du, length al = length u -> length du = length u ->
    (forall j f, nth_error al j = Some f -> finite f) ->
    exists u', add_step u al du = Some u' /\ length u' = length u /\
      forall j x f d, nth_error u j = Some x -> nth_error al j = Some (Fin f) -> nth_error du j = Some d ->
        nth_error u' j = Some (x + f * d)%Q.
Proof.
  induction u as [|x u IH]; intros al du Ha Hd Hf.
  - exists []. split; [reflexivity|]. split; [reflexivity|]. intros [|j]; discriminate.
  - destruct al as [|a al]; [discriminate|]. destruct du as [|d du]; [discriminate|].
    destruct (Hf 0 a eq_refl) as [q ->].
    destruct (IH al du) as (u' & G1 & G2 & G3); [simpl in *; lia|simpl in *; lia|intros j f; apply (Hf (S j))|].
    exists ((x + q * d)%Q :: u'). cbn [add_step]. rewrite G1. split; [reflexivity|]. split; [simpl; lia|].
    intros [|j] y f e; cbn [nth_error]; intros Hy Hfj He; [congruence|]. eapply G3; eassumption.
Qed.

Lemma add_step_app : forall u1 m1 d1 u2 m2 d2 r1 r2, length m1 = length u1 -> length d1 = length u1 ->
    add_step u1 m1 d1 = Some r1 -> add_step u2 m2 d2 = Some r2 ->
    add_step (u1 ++ u2) (m1 ++ m2) (d1 ++ d2) = Some (r1 ++ r2).
Proof.
  induction u1 as [|x u1 IH]; intros [|m m1] [|d d1] u2 m2 d2 r1 r2 Hm Hd H1 H2; try discriminate.
  - cbn in H1. injection H1 as <-. exact H2.
  - cbn [add_step app] in *. destruct m as [q| | |]; try discriminate.
    destruct (add_step u1 m1 d1) as [r|] eqn:E; [|discriminate]. injection H1 as <-.
    rewrite (IH _ _ _ _ _ r r2); try assumption; try (simpl in *; lia). reflexivity.
Qed.

Lemma map_firstn_const : forall X Y (a : Y) (u : list X) n, firstn n (map (fun _ => a) u) = map (fun _ => a) (firstn n u).
Proof. intros. apply firstn_map. Qed.

Lemma step_bounds : forall vars u du a out, Forall plain_var vars -> in_bounds vars u ->
    length u = total_size vars -> length du = total_size vars -> (0 <= a)%Q ->
    limit_all (attach vars u du) (map (fun _ => Fin a) u) = Ok out ->
    exists u', add_step u out du = Some u' /\ in_bounds vars u' /\ length u' = length u.
Proof.
  induction vars as [|v vars IH]; intros u du a out HF Hb Hu Hd Ha H.
  - destruct u; [|discriminate]. exists []. repeat split; reflexivity.
  - inversion HF as [|v' vars' (Hr & Hp & Hlo & Hup) HF']; subst.
    cbn [attach limit_all d_val d_du] in H. cbn [in_bounds] in Hb. destruct Hb as [Hb1 Hb2].
    unfold total_size in Hu, Hd. cbn [map list_sum fold_right] in Hu, Hd. fold (list_sum (map n_size vars)) in Hu, Hd.
    set (n := n_size v) in *.
    assert (Ln : length (firstn n u) = n) by (rewrite firstn_length; lia).
    assert (Ld : length (firstn n du) = n) by (rewrite firstn_length; lia).
    rewrite Ln in H.
    match type of H with context [limit_var ?X (firstn n ?A)] => set (x := X) in *; destruct (limit_var x (firstn n A)) as [mine|] eqn:E1; [|discriminate] end.
    cbn [bind] in H. rewrite skipn_map in H.
    destruct (limit_all (attach vars (skipn n u) (skipn n du)) (map (fun _ => Fin a) (skipn n u))) as [others|] eqn:E2; [|discriminate].
    cbn [bind] in H. injection H as <-.
    destruct (IH (skipn n u) (skipn n du) a others) as (u2 & K1 & K2 & K3); try assumption;
      try (rewrite skipn_length; unfold total_size; lia).
    assert (Hg : good_dvar x).
    { unfold good_dvar, x. cbn. rewrite Ln, Ld. split; [reflexivity|]. split; assumption. }
    rewrite map_firstn_const in E1.
    destruct (limit_var_nth x _ _ Hg Hr Hp E1) as [L1 L2]. rewrite map_length, Ln in L1.
    assert (Hent : forall j y, nth_error (firstn n u) j = Some y ->
       exists d e, nth_error (firstn n du) j = Some d /\ e = (opt_at (n_lower v) j, opt_at (n_upper v) j, y, d) /\ dentry x j e /\
         within e (moved e 0) /\ nth_error mine j = Some (limit_entry e (Fin a))).
    { intros j y Hy. destruct (nth_same_len _ _ (firstn n u) (firstn n du) j y) as [d Hdj]; [lia|assumption|].
      exists d, (opt_at (n_lower v) j, opt_at (n_upper v) j, y, d). split; [assumption|]. split; [reflexivity|].
      assert (De : dentry x j (opt_at (n_lower v) j, opt_at (n_upper v) j, y, d)) by (exists y, d; repeat split; assumption).
      split; [exact De|]. destruct (Hb1 j y Hy) as [B1 B2]. split.
      - unfold within, moved. split.
        + intros l Hl. unfold opt_at in Hl. destruct (n_lower v) as [ll|] eqn:El; [|discriminate].
          specialize (B1 _ _ eq_refl Hl). lra.
        + intros l Hl. unfold opt_at in Hl. destruct (n_upper v) as [ll|] eqn:El; [|discriminate].
          specialize (B2 _ _ eq_refl Hl). lra.
      - apply (L2 j _ (Fin a) De). rewrite nth_error_map, Hy. reflexivity. }
    assert (Hfin : forall j f, nth_error mine j = Some f -> finite f).
    { intros j f Hf. destruct (nth_same_len _ _ mine (firstn n u) j f) as [y Hy]; [lia|assumption|].
      destruct (Hent j y Hy) as (d & e & _ & _ & _ & W & M). rewrite Hf in M. injection M as ->.
      destruct (limit_entry_ok e a W Ha) as (b & -> & _). exists b. reflexivity. }
    destruct (add_step_nth (firstn n u) mine (firstn n du)) as (u1 & M1 & M2 & M3); [lia|lia|exact Hfin|].
    exists (u1 ++ u2). split; [|split].
    + rewrite <- (firstn_skipn n u), <- (firstn_skipn n du) at 1. apply add_step_app; try assumption; lia.
    + cbn [in_bounds]. fold n. rewrite firstn_app, skipn_app, M2, Ln, Nat.sub_diag. cbn [firstn skipn].
      rewrite firstn_all2 by lia. rewrite skipn_all2 by lia. rewrite app_nil_r. cbn [app]. split; [|assumption].
      intros j z Hz. destruct (nth_same_len _ _ u1 (firstn n u) j z) as [y Hy]; [lia|assumption|].
      destruct (Hent j y Hy) as (d & e & D1 & D2 & D3 & W & M).
      destruct (limit_entry_ok e a W Ha) as (b & Eb & _ & Wb & _). rewrite Eb in M.
      rewrite (M3 j y b d Hy M D1) in Hz. injection Hz as <-. subst e. cbn [moved within] in Wb. destruct Wb as [W1 W2].
      split; intros l c Hl Hc; [apply W1|apply W2]; unfold opt_at; rewrite Hl; exact Hc.
    + rewrite app_length, M2, K3, Ln, skipn_length. lia.
Qed.

Section Newton.
  Context {S : Type} (ns : nsystem S).
  Let get := get_u (n_sys ns).

  (** ** iteration limits *)
  Lemma ls_bound : forall fuel l base_u bn it a f s pts s' pts' k e,
      ls_loop fuel ns l base_u bn it a f s pts = (s', pts', k, e) -> l_maxiter l - it < fuel -> it <= l_maxiter l ->
      k <= l_maxiter l /\ e <> LsFuel.
  Proof.
    induction fuel as [|fuel IH]; intros l base_u bn it a f s pts s' pts' k e H Hf Hi; [lia|].
    cbn [ls_loop] in H.
    destruct ((it <? l_maxiter l) && f_lt (fl_sub bn f) (fl_scale (l_c l * a) bn)) eqn:E.
    - apply andb_prop in E. destruct E as [E _]. apply Nat.ltb_lt in E.
      destruct (step_to ns _ _) as [[u|]|]; try (injection H as <- <- <- <-; split; [lia|discriminate]).
      destruct (evaluate _ _ _) as [s1 [e1|]]; [injection H as <- <- <- <-; split; [lia|discriminate]|].
      apply IH in H; [exact H|lia|lia].
    - destruct (((l_maxiter l <=? it) || is_nan f) && l_err l); injection H as <- <- <- <-; split; try lia; discriminate.
  Qed.

  Lemma n_bound : forall fuel o base nrm un r r' x, n_loop fuel ns o base nrm un r = (r', x) ->
      n_maxiter o - v_iter r < fuel -> v_iter r <= n_maxiter o ->
      (forall l, n_ls o = Some l -> Forall (fun k => k <= l_maxiter l) (v_ls r)) -> length (v_ls r) <= v_iter r ->
      v_iter r' <= n_maxiter o /\ (forall l, n_ls o = Some l -> Forall (fun k => k <= l_maxiter l) (v_ls r')) /\
      length (v_ls r') <= v_iter r' /\ snd x <> Some OutOfFuel.
  Proof.
    induction fuel as [|fuel IH]; intros o base nrm un r r' x H Hf Hi Hl Hn; [lia|].
    cbn [n_loop] in H. destruct ((v_iter r <? n_maxiter o) && n_going o base nrm un) eqn:E.
    2:{ injection H as <- <-. repeat split; try assumption. discriminate. }
    apply andb_prop in E. destruct E as [E _]. apply Nat.ltb_lt in E.
    destruct (linearize ns (v_st r)) as [s1 [e1|]]; [injection H as <- <-; cbn; repeat split; try assumption; discriminate|].
    destruct (direction ns s1) as [s2 [e2|]]; [injection H as <- <-; cbn; repeat split; try assumption; discriminate|].
    destruct (step_to ns s2 (n_alpha o)) as [[u|]|];
      [|injection H as <- <-; cbn; repeat split; try assumption; try lia; discriminate
       |injection H as <- <-; cbn; repeat split; try assumption; try lia; discriminate].
    destruct (evaluate _ _ _) as [s3 [e3|]]; [injection H as <- <-; cbn; repeat split; try assumption; try lia; discriminate|].
    cbv zeta in H. destruct (n_ls o) as [l|] eqn:El.
    - destruct (ls_loop _ _ _ _ _ _ _ _ _ _) as [[[s4 pts4] k] e4] eqn:Els.
      apply ls_bound in Els; [|lia|lia]. destruct Els as [Hk He].
      assert (HF : Forall (fun k => k <= l_maxiter l) (v_ls r ++ [k])).
      { apply Forall_app. split; [apply Hl; reflexivity|]. constructor; [assumption|constructor]. }
      destruct e4 as [f4|e4| |]; [|injection H as <- <-|injection H as <- <-|congruence].
      + apply IH in H; cbn [v_iter v_ls]; rewrite ?app_length; cbn [length]; try lia.
        * rewrite El in H. exact H.
        * intros l' G. rewrite El in G. injection G as <-. exact HF.
      + cbn. rewrite app_length. cbn. repeat split; try lia; [|discriminate]. intros l' G. injection G as <-. exact HF.
      + cbn. rewrite app_length. cbn. repeat split; try lia; [|discriminate]. intros l' G. injection G as <-. exact HF.
    - apply IH in H; cbn [v_iter v_ls]; try lia; [rewrite El in H; exact H|]. rewrite El. intros l G. discriminate.
  Qed.

  Lemma newton_bound : forall o d s r d' e, newton ns o d s = (r, d', e) ->
      v_iter r <= n_maxiter o /\ (forall l, n_ls o = Some l -> Forall (fun k => k <= l_maxiter l) (v_ls r)) /\
      length (v_ls r) <= v_iter r /\ e <> OutOfFuel.
  Proof.
    intros o d s r d' e H. unfold newton in H.
    destruct (children _ s) as [s1 [e1|]]; [injection H as <- <- <-; cbn; repeat split; try lia; [constructor|discriminate]|].
    destruct (apply_nl _ s1) as [s2 [e2|]]; [injection H as <- <- <-; cbn; repeat split; try lia; [constructor|discriminate]|].
    cbv zeta in H.
    destruct (getitem d "type") as [save|]; [|injection H as <- <- <-; cbn; repeat split; try lia; [constructor|discriminate]].
    destruct (setitem false _ _ _) as [d2 [[]|e3]]; [|injection H as <- <- <-; cbn; repeat split; try lia; [constructor|discriminate]].
    destruct (n_loop _ _ _ _ _ _ _) as [r3 [n3 e3]] eqn:E.
    apply n_bound in E; cbn [v_iter v_ls]; try lia; [|constructor|cbn; lia]. destruct E as (B1 & B2 & B3 & B4). cbn [snd] in B4.
    destruct e3 as [e3|]; [injection H as <- <- <-; repeat split; try assumption; congruence|].
    destruct (setitem false d2 "type" save) as [d3 [[]|e4]]; injection H as <- <- <-; repeat split; try assumption; try discriminate.
    destruct (((n_maxiter o <=? v_iter r3) || is_nan n3) && n_err o); discriminate.
  Qed.

  (** ** what is reported *)
  Lemma n_run : forall fuel o base nrm un r r' nrm' h, n_loop fuel ns o base nrm un r = (r', (nrm', None)) ->
      v_hist r = h ++ [(nrm, un)] -> length (v_hist r) = Datatypes.S (v_iter r) ->
      exists h' un' mid, v_hist r' = h' ++ [(nrm', un')] /\ length (v_hist r') = Datatypes.S (v_iter r') /\
        (v_iter r' < n_maxiter o -> n_going o base nrm' un' = false) /\
        h' = h ++ mid /\ Forall (fun p => n_going o base (fst p) (snd p) = true) mid.
  Proof.
    induction fuel as [|fuel IH]; intros o base nrm un r r' nrm' h H Hh Hn; [discriminate|].
    cbn [n_loop] in H. destruct ((v_iter r <? n_maxiter o) && n_going o base nrm un) eqn:E.
    2:{ injection H as <- <-. exists h, un, []. repeat split; try assumption.
        - intros G. apply Nat.ltb_lt in G. rewrite G in E. exact E.
        - rewrite app_nil_r. reflexivity.
        - constructor. }
    apply andb_prop in E. destruct E as [_ E].
    destruct (linearize ns (v_st r)) as [s1 [e1|]]; [discriminate|].
    destruct (direction ns s1) as [s2 [e2|]]; [discriminate|].
    destruct (step_to ns s2 (n_alpha o)) as [[u|]|]; try discriminate.
    destruct (evaluate _ _ _) as [s3 [e3|]]; [discriminate|].
    cbv zeta in H.
    assert (K : forall r1 f1 u1, n_loop fuel ns o base f1 u1 r1 = (r', (nrm', None)) -> v_hist r1 = v_hist r ++ [(f1, u1)] ->
      v_iter r1 = v_iter r + 1 ->
      exists h' un' mid, v_hist r' = h' ++ [(nrm', un')] /\ length (v_hist r') = Datatypes.S (v_iter r') /\
        (v_iter r' < n_maxiter o -> n_going o base nrm' un' = false) /\
        h' = h ++ mid /\ Forall (fun p => n_going o base (fst p) (snd p) = true) mid).
    { intros r1 f1 u1 G1 G2 G3. eapply (IH _ _ _ _ _ _ _ (v_hist r)) in G1; [|exact G2|rewrite G2, app_length, G3; cbn [length]; lia].
      destruct G1 as (h' & un' & mid & A1 & A2 & A3 & A4 & A5). exists h', un', ((nrm, un) :: mid). repeat split; try assumption.
      - rewrite A4, Hh, <- app_assoc. reflexivity.
      - constructor; assumption. }
    destruct (n_ls o) as [l|].
    - destruct (ls_loop _ _ _ _ _ _ _ _ _ _) as [[[s4 pts4] k] [f4|e4| |]]; try discriminate.
      eapply K; [exact H|reflexivity|reflexivity].
    - eapply K; [exact H|reflexivity|reflexivity].
  Qed.

  (** the loop itself never reports *)
  Lemma n_no_report : forall o fuel base nrm un r r' n e, n_loop fuel ns o base nrm un r = (r', (n, Some e)) ->
      forall fail, e <> Reported fail.
  Proof.
    intros o. induction fuel as [|fuel IH]; intros base nrm un r0 r' n e E fail; cbn [n_loop] in E; [injection E as <- <- <-; discriminate|].
    destruct ((v_iter r0 <? n_maxiter o) && n_going o base nrm un); [|discriminate].
    destruct (linearize ns (v_st r0)) as [a [b|]]; [injection E as <- <- <-; discriminate|].
    destruct (direction ns a) as [a2 [b2|]]; [injection E as <- <- <-; discriminate|].
    destruct (step_to ns a2 (n_alpha o)) as [[u|]|]; try (injection E as <- <- <-; discriminate).
    destruct (evaluate _ _ _) as [a3 [b3|]]; [injection E as <- <- <-; discriminate|]. cbv zeta in E.
    destruct (n_ls o) as [l|]; [|eapply IH; exact E].
    destruct (ls_loop _ _ _ _ _ _ _ _ _ _) as [[[a4 pts4] k] [f4|e4| |]]; try (injection E as <- <- <-; discriminate).
    eapply IH; exact E.
  Qed.

  Lemma newton_faithful : forall o d s r d' fail, newton ns o d s = (r, d', Reported fail) ->
      norms_ok (n_sys ns) -> (0 <= n_atol o)%Q -> (forall p, In p (v_hist r) -> finite (fst p) /\ finite (snd p)) ->
      exists first, fst (hd (huge, huge) (v_hist r)) = Fin first /\
        let n := v_iter r in
        n <= n_maxiter o /\ length (v_hist r) = Datatypes.S n /\
        (forall k p, k < n -> nth_error (v_hist r) k = Some p -> ~ met (n_atol o) (n_rtol o) (n_utol o) first p) /\
        (forall p, n < n_maxiter o -> nth_error (v_hist r) n = Some p -> met (n_atol o) (n_rtol o) (n_utol o) first p) /\
        fail = (n =? n_maxiter o).
  Proof.
    intros o d s r d' fail H [Hn1 Hn2] Ha Hfin. pose proof (newton_bound _ _ _ _ _ _ H) as (HB & _). unfold newton in H.
    destruct (children _ s) as [s1 [e1|]]; [discriminate|].
    destruct (apply_nl _ s1) as [s2 [e2|]]; [discriminate|].
    cbv zeta in H.
    destruct (getitem d "type") as [save|]; [|discriminate].
    destruct (setitem false _ _ _) as [d2 [[]|e3]]; [|discriminate].
    destruct (n_loop _ _ _ _ _ _ _) as [r3 [n3 e3]] eqn:E.
    destruct e3 as [e3|].
    { injection H as -> <- ->. exfalso. eapply n_no_report; [exact E|reflexivity]. }
    destruct (setitem false d2 "type" save) as [d3 [[]|e4]]; [|discriminate].
    injection H as <- <- Hfail.
    assert (Hfst : exists t, v_hist r3 = (rnorm (n_sys ns) s2, huge) :: t).
    { clear - E. revert E. 
      assert (K : forall fuel base nrm un r0 r' y, n_loop fuel ns o base nrm un r0 = (r', y) ->
        forall x t, v_hist r0 = x :: t -> exists t', v_hist r' = x :: t').
      { induction fuel as [|fuel IH]; intros base nrm un r0 r' y E x t Ht; cbn [n_loop] in E; [injection E as <- <-; eauto|].
        destruct ((v_iter r0 <? n_maxiter o) && n_going o base nrm un); [|injection E as <- <-; eauto].
        destruct (linearize ns (v_st r0)) as [a [b|]]; [injection E as <- <-; eauto|].
        destruct (direction ns a) as [a2 [b2|]]; [injection E as <- <-; eauto|].
        destruct (step_to ns a2 (n_alpha o)) as [[u|]|]; try (injection E as <- <-; eauto; fail).
        destruct (evaluate _ _ _) as [a3 [b3|]]; [injection E as <- <-; eauto|]. cbv zeta in E.
        destruct (n_ls o) as [l|].
        - destruct (ls_loop _ _ _ _ _ _ _ _ _ _) as [[[a4 pts4] k] [f4|e4| |]]; try (injection E as <- <-; eauto; fail).
          eapply IH in E; [exact E|]. cbn [v_hist]. rewrite Ht. reflexivity.
        - eapply IH in E; [exact E|]. cbn [v_hist]. rewrite Ht. reflexivity. }
      intros E. eapply K in E; [exact E|reflexivity]. }
    destruct Hfst as [t Ht].
    eapply (n_run _ _ _ _ _ _ _ _ []) in E; [|reflexivity|reflexivity].
    destruct E as (h & un & mid & G1 & G2 & G3 & G4 & G5). cbn [app] in G4. subst mid.
    destruct (Hfin (rnorm (n_sys ns) s2, huge)) as [[f Hf] _]; [rewrite Ht; left; reflexivity|]. cbn [fst] in Hf.
    assert (H0 : (0 <= f)%Q) by (apply (Hn1 s2); assumption).
    rewrite Hf in *. exists f. split; [rewrite Ht; reflexivity|]. cbv zeta.
    assert (Hlen : length h = v_iter r3) by (rewrite G1, app_length in G2; simpl in G2; lia).
    (* a zero reference norm stops at once *)
    assert (Hzero : (f == 0)%Q -> h = []).
    { intros Z. destruct h as [|[a b] h]; [reflexivity|]. exfalso. inversion G5 as [|p ps G _]; subst.
      rewrite G1 in Ht. injection Ht as -> -> _. cbn [fst snd] in G. unfold n_going in G.
      apply andb_prop in G. destruct G as [G _]. apply andb_prop in G. destruct G as [G _]. apply f_gt_fin in G. lra. }
    split; [assumption|]. split; [assumption|]. split; [|split].
    - intros k [a b] Hk Hp. rewrite G1, nth_error_app1 in Hp by lia.
      rewrite Forall_forall in G5. pose proof (G5 _ (nth_error_In _ _ Hp)) as G. cbn [fst snd] in G.
      destruct (Hfin (a, b)) as [[x Hx] [y Hy]]; [rewrite G1; apply in_or_app; left; eapply nth_error_In; eassumption|].
      cbn [fst snd] in Hx, Hy. subst a b. intros K.
      apply (stop_iff (n_atol o) (n_rtol o)) in K; [|assumption|lra|intros Z; rewrite (Hzero Z) in Hp; destruct k; discriminate].
      unfold n_going in G. congruence.
    - intros [a b] Hk Hp. rewrite <- Hlen, G1, nth_error_app2, Nat.sub_diag in Hp by lia. injection Hp as <- <-.
      destruct (Hfin (n3, un)) as [[x Hx] [y Hy]]; [rewrite G1; apply in_or_app; right; left; reflexivity|].
      cbn [fst snd] in Hx, Hy. subst n3 un. apply stop_iff; [assumption|lra| |apply G3; lia].
      intros Z. pose proof (Hzero Z) as Hnil. subst h. rewrite G1 in Ht. injection Ht as -> _ _. lra.
    - destruct (Hfin (n3, un)) as [[x Hx] _]; [rewrite G1; apply in_or_app; right; left; reflexivity|].
      cbn [fst] in Hx. subst n3. cbn [is_nan] in Hfail. rewrite orb_false_r in Hfail.
      destruct (Nat.eqb_spec (v_iter r3) (n_maxiter o)) as [Q|Q].
      + rewrite Q, Nat.leb_refl in Hfail. destruct (n_err o); cbn in Hfail; [discriminate|]. injection Hfail as <-. reflexivity.
      + rewrite (proj2 (Nat.leb_gt _ _)) in Hfail by lia. cbn in Hfail. injection Hfail as <-. reflexivity.
  Qed.

  (** err_on_maxiter turns exactly the reported failure into an exception *)
  Lemma n_loop_err : forall b fuel o base nrm un r,
      n_loop fuel ns (mkN (n_atol o) (n_rtol o) (n_utol o) (n_maxiter o) b (n_alpha o) (n_sub o) (n_ls o)) base nrm un r =
      n_loop fuel ns o base nrm un r.
  Proof.
    intros b. induction fuel as [|fuel IH]; intros o base nrm un r; [reflexivity|].
    cbn [n_loop n_maxiter n_ls n_alpha n_sub]. unfold n_going at 1. cbn [n_atol n_rtol n_utol]. fold (n_going o base nrm un).
    destruct ((v_iter r <? n_maxiter o) && n_going o base nrm un); [|reflexivity].
    destruct (linearize ns (v_st r)) as [a [b'|]]; [reflexivity|].
    destruct (direction ns a) as [a2 [b2|]]; [reflexivity|].
    destruct (step_to ns a2 (n_alpha o)) as [[u|]|]; try reflexivity.
    destruct (evaluate _ _ _) as [a3 [b3|]]; [reflexivity|]. cbv zeta.
    destruct (n_ls o) as [l|] eqn:El.
    - destruct (ls_loop _ _ _ _ _ _ _ _ _ _) as [[[a4 pts4] k] [f4|e4| |]]; try reflexivity.
      rewrite <- El. apply IH.
    - rewrite <- El. apply IH.
  Qed.

  Definition with_err (o : nopts) (b : bool) : nopts :=
    mkN (n_atol o) (n_rtol o) (n_utol o) (n_maxiter o) b (n_alpha o) (n_sub o) (n_ls o).
  Lemma newton_err : forall o d s,
      newton ns (with_err o true) d s =
      let '(r, d', e) := newton ns (with_err o false) d s in
      (r, d', match e with Reported true => Raised AnalysisError | _ => e end).
  Proof.
    intros o d s. unfold newton.
    destruct (children _ s) as [s1 [e1|]]; [reflexivity|].
    destruct (apply_nl _ s1) as [s2 [e2|]]; [reflexivity|].
    destruct (getitem d "type") as [save|]; [|reflexivity].
    destruct (setitem false _ _ _) as [d2 [[]|e3]]; [|reflexivity].
    cbn [n_maxiter with_err]. unfold with_err. rewrite !n_loop_err.
    destruct (n_loop _ _ _ _ _ _ _) as [r3 [n3 [e3|]]] eqn:E.
    - destruct e3 as [|[]| | |]; try reflexivity. exfalso. eapply n_no_report; [exact E|reflexivity].
    - destruct (setitem false d2 "type" save) as [d3 [[]|e4]]; [|reflexivity].
      cbn [n_maxiter n_err]. destruct ((n_maxiter o <=? v_iter r3) || is_nan n3); reflexivity.
  Qed.

  (** ** bounds *)
  Definition ok_u (u : list Q) : Prop := in_bounds (n_vars ns) u /\ length u = total_size (n_vars ns).

  Lemma step_to_ok : forall s a, frames ns -> Forall plain_var (n_vars ns) -> ok_u (get s) -> (0 <= a)%Q ->
      match step_to ns s a with Ok (Some u) => ok_u u | Ok None => False | Err _ => True end.
  Proof.
    intros s a (_ & _ & _ & _ & Hd) HF [Hb Hl] Ha. unfold step_to. fold get.
    destruct (limit_all _ _) as [out|e] eqn:E; cbn [bind]; [|exact I].
    destruct (step_bounds (n_vars ns) (get s) (get_du ns s) a out) as (u' & -> & G1 & G2); try assumption; [apply Hd|].
    split; [assumption|]. unfold get in *. congruence.
  Qed.

  Lemma ls_bounds : forall l, frames ns -> Forall plain_var (n_vars ns) -> l_sub l = false -> (0 <= l_rho l)%Q ->
      forall fuel base_u bn it a f s pts s' pts' k e,
      ls_loop fuel ns l base_u bn it a f s pts = (s', pts', k, e) -> (0 <= a)%Q -> ok_u base_u -> ok_u (get s) -> Forall ok_u pts ->
      Forall ok_u pts' /\ e <> LsNonFinite /\ (forall f', e = LsOk f' -> ok_u (get s')).
  Proof.
    intros l Hfr HF Hs Hr. pose proof Hfr as (F1 & F2 & _).
    induction fuel as [|fuel IH]; intros base_u bn it a f s pts s' pts' k e H Ha Hbu Hu Hp.
    { injection H as <- <- <- <-. repeat split; try assumption; discriminate. }
    cbn [ls_loop] in H.
    destruct ((it <? l_maxiter l) && f_lt (fl_sub bn f) (fl_scale (l_c l * a) bn)).
    - assert (Ha' : (0 <= a * l_rho l)%Q) by (apply Qmult_le_0_compat; assumption).
      pose proof (step_to_ok (set_u (n_sys ns) s base_u) (a * l_rho l) Hfr HF) as K. unfold get in K. rewrite F1 in K.
      specialize (K Hbu Ha'). destruct (step_to ns _ _) as [[u|]|]; [|destruct K|].
      + unfold evaluate in H. rewrite Hs in H.
        destruct (apply_nl (n_sys ns) _) as [s1 [e1|]] eqn:E1.
        * injection H as <- <- <- <-. repeat split; try discriminate. apply Forall_app. split; [assumption|]. constructor; [assumption|constructor].
        * apply F2 in E1. rewrite F1 in E1. eapply IH in H; try eassumption.
          -- unfold get. rewrite E1. exact K.
          -- apply Forall_app. split; [assumption|]. constructor; [assumption|constructor].
      + injection H as <- <- <- <-. repeat split; try assumption; discriminate.
    - destruct (((l_maxiter l <=? it) || is_nan f) && l_err l); injection H as <- <- <- <-; repeat split; try assumption; try discriminate; intros; first [apply Hu|discriminate].
  Qed.

  Lemma n_bounds : forall o, frames ns -> Forall plain_var (n_vars ns) -> n_sub o = false -> (0 <= n_alpha o)%Q ->
      (forall l, n_ls o = Some l -> l_sub l = false /\ (0 <= l_rho l)%Q) ->
      forall fuel base nrm un r r' x, n_loop fuel ns o base nrm un r = (r', x) ->
      ok_u (get (v_st r)) -> Forall ok_u (v_pts r) ->
      Forall ok_u (v_pts r') /\ snd x <> Some NonFinite /\ (snd x = None -> ok_u (get (v_st r'))).
  Proof.
    intros o Hfr HF Hs Ha Hls. pose proof Hfr as (F1 & F2 & F3 & F4 & F5).
    induction fuel as [|fuel IH]; intros base nrm un r r' x H Hu Hp.
    { injection H as <- <-. repeat split; try assumption; discriminate. }
    cbn [n_loop] in H. destruct ((v_iter r <? n_maxiter o) && n_going o base nrm un).
    2:{ injection H as <- <-. split; [assumption|]. split; [discriminate|]. intros _. exact Hu. }
    destruct (linearize ns (v_st r)) as [s1 [e1|]] eqn:E1; [injection H as <- <-; repeat split; try assumption; discriminate|].
    destruct (direction ns s1) as [s2 [e2|]] eqn:E2; [injection H as <- <-; repeat split; try assumption; discriminate|].
    apply F3 in E1. apply F4 in E2.
    assert (Hu2 : ok_u (get s2)) by (unfold get in *; rewrite E2, E1; exact Hu).
    pose proof (step_to_ok s2 (n_alpha o) Hfr HF Hu2 Ha) as K.
    destruct (step_to ns s2 (n_alpha o)) as [[u|]|]; [|destruct K|injection H as <- <-; repeat split; try assumption; discriminate].
    assert (Hp' : Forall ok_u (v_pts r ++ [u])) by (apply Forall_app; split; [assumption|constructor; [assumption|constructor]]).
    unfold evaluate in H. rewrite Hs in H.
    destruct (apply_nl (n_sys ns) _) as [s3 [e3|]] eqn:E3; [injection H as <- <-; repeat split; try assumption; discriminate|].
    apply F2 in E3. rewrite F1 in E3.
    assert (Hu3 : ok_u (get s3)) by (unfold get; rewrite E3; exact K).
    cbv zeta in H. destruct (n_ls o) as [l|].
    - destruct (Hls l eq_refl) as [L1 L2].
      destruct (ls_loop _ _ _ _ _ _ _ _ _ _) as [[[s4 pts4] k] e4] eqn:Els.
      eapply (ls_bounds l Hfr HF L1 L2) in Els; try eassumption. destruct Els as (Q1 & Q2 & Q3).
      destruct e4 as [f4|e4| |]; try (injection H as <- <-; repeat split; try assumption; try discriminate; congruence).
      apply IH in H; cbn [v_st v_pts]; [exact H| |assumption]. eapply Q3. reflexivity.
    - apply IH in H; cbn [v_st v_pts]; assumption.
  Qed.

  Lemma newton_bounds : forall o d s r d' e, newton ns o d s = (r, d', e) ->
      frames ns -> Forall plain_var (n_vars ns) -> n_sub o = false -> (0 <= n_alpha o)%Q ->
      (forall l, n_ls o = Some l -> l_sub l = false /\ (0 <= l_rho l)%Q) ->
      (forall s1, children (n_sys ns) s = (s1, None) ->
         in_bounds (n_vars ns) (get s1) /\ length (get s1) = total_size (n_vars ns)) ->
      Forall (in_bounds (n_vars ns)) (v_pts r) /\ e <> NonFinite /\
      (forall fail, e = Reported fail -> in_bounds (n_vars ns) (get (v_st r))).
  Proof.
    intros o d s r d' e H Hfr HF Hs Ha Hls H0. unfold newton in H.
    destruct (children _ s) as [s1 [e1|]] eqn:E0; [injection H as <- <- <-; repeat split; try discriminate; constructor|].
    specialize (H0 s1 eq_refl). pose proof Hfr as (F1 & F2 & F3 & F4 & F5).
    destruct (apply_nl _ s1) as [s2 [e2|]] eqn:E1; [injection H as <- <- <-; repeat split; try discriminate; constructor|].
    apply F2 in E1. cbv zeta in H.
    destruct (getitem d "type") as [save|]; [|injection H as <- <- <-; repeat split; try discriminate; constructor].
    destruct (setitem false _ _ _) as [d2 [[]|e3]]; [|injection H as <- <- <-; repeat split; try discriminate; constructor].
    destruct (n_loop _ _ _ _ _ _ _) as [r3 [n3 e3]] eqn:E. pose proof E as E0'.
    apply (n_bounds o Hfr HF Hs Ha Hls) in E; cbn [v_st v_pts]; [|unfold get in *; rewrite E1; exact H0|constructor].
    destruct E as (Q1 & Q2 & Q3). cbn [snd] in Q2, Q3.
    assert (Q1' : Forall (in_bounds (n_vars ns)) (v_pts r3)) by (eapply Forall_impl; [|exact Q1]; intros u [A _]; exact A).
    destruct e3 as [e3|].
    - injection H as <- <- <-. split; [exact Q1'|]. split; [congruence|]. intros fail ->.
      exfalso. eapply n_no_report; [exact E0'|reflexivity].
    - destruct (Q3 eq_refl) as [A _].
      destruct (setitem false d2 "type" save) as [d3 [[]|e4]]; injection H as <- <- <-;
        (split; [exact Q1'|]; split; [|intros; exact A]); try discriminate.
      destruct (((n_maxiter o <=? v_iter r3) || is_nan n3) && n_err o); discriminate.
  Qed.
End Newton.

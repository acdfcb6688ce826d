(** Running a model: sweeps over the children establish the connections that are
    in order and run every component on its final parameters. *)
From Verif Require Import Base RunModel RunSpec RunProofs.
Local Open Scope string_scope.
Local Open Scope nat_scope.
Local Open Scope list_scope.

Section Main.
  Context {V : Type} (vadd vsub : V -> V -> V) (vopp : V -> V).
  Context (conns : list (conn V)) (io : conn V -> Prop) (marked : list string).
  Context (Htgt : NoDup (map k_tgt conns)).
  Context (Hr : restores vadd vsub vopp).

  Notation framed := (framed conns).
  Notation refreshed := (refreshed conns).
  Notation apply_sys := (apply_sys vadd vsub vopp conns marked).
  Notation run_sys := (run_sys vadd vsub vopp conns marked).

  (** ** the loops over the children by name *)
  Fixpoint ap_par (l : list (sys V)) (s : st V) : res (st V) :=
    match l with [] => Ok s | x :: l' => let! s := apply_sys false x s in ap_par l' s end.
  Fixpoint ap_ser (all : list string) (l : list (sys V)) (s : st V) : res (st V) :=
    match l with
    | [] => Ok s
    | x :: l' => if run_apply marked x then let! s := apply_sys true x (transfer conns all x s) in ap_ser all l' s else ap_ser all l' s
    end.
  Fixpoint ch_par (l : list (sys V)) (s : st V) : res (st V) :=
    match l with [] => Ok s | x :: l' => let! s := run_sys x s in ch_par l' s end.
  Fixpoint ch_ser (all : list string) (l : list (sys V)) (s : st V) : res (st V) :=
    match l with [] => Ok s | x :: l' => let! s := run_sys x (transfer conns all x s) in ch_ser all l' s end.
  Definition children (par : bool) (subs : list (sys V)) (s : st V) : res (st V) :=
    if par then ch_par subs (transfer_all conns (flat_map sys_unks subs) subs s) else ch_ser (flat_map sys_unks subs) subs s.

  Lemma apply_grp : forall sc par nl subs s, apply_sys sc (Grp par nl subs) s =
      if par then ap_par subs (transfer_all conns (flat_map sys_unks subs) subs s) else ap_ser (flat_map sys_unks subs) subs s.
  Proof.
    intros sc par nl subs s. cbn [RunModel.apply_sys]. cbv zeta. destruct par.
    - generalize (transfer_all conns (flat_map sys_unks subs) subs s). clear s.
      induction subs as [|x l IH]; intros s; [reflexivity|]. cbn [ap_par].
      destruct (apply_sys false x s); [apply IH|reflexivity].
    - generalize (flat_map sys_unks subs) as all. intros all. revert s.
      induction subs as [|x l IH]; intros s; [reflexivity|]. cbn [ap_ser].
      destruct (run_apply marked x); [|apply IH]. destruct (apply_sys true x _); [apply IH|reflexivity].
  Qed.
  Lemma run_grp : forall par nl subs s, exists ch, (forall s, ch s = children par subs s) /\
      run_sys (Grp par nl subs) s = nl ch (apply_sys true (Grp par nl subs)) s.
  Proof.
    intros par nl subs s. eexists. split; [|cbn [RunModel.run_sys]; cbv zeta; reflexivity].
    intros s0. unfold children. simpl. destruct par.
    - generalize (transfer_all conns (flat_map sys_unks subs) subs s0). clear s s0.
      induction subs as [|x l IH]; intros s; [reflexivity|]. cbn [ch_par]. destruct (run_sys x s); [apply IH|reflexivity].
    - generalize (flat_map sys_unks subs) as all. intros all. revert s0.
      induction subs as [|x l IH]; intros s0; [reflexivity|]. cbn [ch_ser].
      destruct (run_sys x (transfer conns all x s0)); [apply IH|reflexivity].
  Qed.

  Lemma incl_params : forall (x : sys V) subs, In x subs -> incl (sys_params x) (flat_map sys_params subs).
  Proof. intros x subs H p Hp. apply in_flat_map. exists x. split; assumption. Qed.
  Lemma incl_unks : forall (x : sys V) subs, In x subs -> incl (sys_unks x) (flat_map sys_unks subs).
  Proof. intros x subs H p Hp. apply in_flat_map. exists x. split; assumption. Qed.
  Lemma nodup_part : forall {A B} (f : A -> list B) l x, NoDup (flat_map f l) -> In x l -> NoDup (f x).
  Proof.
    induction l as [|y l IH]; intros x H []; simpl in H; apply NoDup_app_inv in H; [subst; tauto|apply IH; tauto].
  Qed.
  Lemma comp_unks_nodup : forall (c : comp V), NoDup (sys_unks (Comp c)) -> NoDup (c_unks c).
  Proof. intros c H. unfold sys_unks in H. simpl in H. rewrite app_nil_r in H. assumption. Qed.
  Lemma comp_unks : forall (c : comp V), sys_unks (Comp c) = c_unks c.
  Proof. intros c. unfold sys_unks. simpl. apply app_nil_r. Qed.
  Lemma comp_params : forall (c : comp V), sys_params (Comp c) = c_params c.
  Proof. intros c. unfold sys_params. simpl. apply app_nil_r. Qed.

  (** ** evaluating residuals *)
  Definition residual_frame (t : sys V) : Prop := forall sc s s', apply_sys sc t s = Ok s' ->
      refreshed (sys_params t) (sys_unks t) s s' /\ (forall v, ~ In v (sys_unks t) -> rv s' v = rv s v).

  Lemma apply_refreshed : forall t, NoDup (sys_unks t) -> residual_frame t.
  Proof.
    induction t as [c|par nl subs IH] using sys_ind2; intros Hn sc s s' H.
    - simpl in H. apply comp_unks_nodup in Hn.
      destruct (apply_comp_spec vadd vsub vopp conns Hr _ _ _ _ Hn H) as (Hu & Hp & Ho & _).
      split; [split; [assumption|intros p; left; apply Hp]|]. rewrite comp_unks. assumption.
    - rewrite sys_params_grp, sys_unks_grp in *. rewrite apply_grp in H.
      assert (IH' : forall x, In x subs -> residual_frame x) by (intros x Hx; apply IH; [assumption|apply (nodup_part _ subs); assumption]).
      clear IH. destruct par.
      + assert (G : forall l s s', incl l subs -> ap_par l s = Ok s' -> refreshed (flat_map sys_params subs) (flat_map sys_unks subs) s s' /\
                  (forall v, ~ In v (flat_map sys_unks subs) -> rv s' v = rv s v)).
        { induction l as [|x l IHl]; intros s0 s1 Hl H1; simpl in H1.
          - injection H1 as <-. split; [apply refreshed_refl|reflexivity].
          - destruct (apply_sys false x s0) as [s2|] eqn:E; [|discriminate]. cbn [bind] in H1.
            assert (Hx : In x subs) by (apply Hl; left; reflexivity).
            destruct (IH' x Hx _ _ _ E) as [A1 A2]. destruct (IHl s2 s1) as [B1 B2]; [intros y Hy; apply Hl; right; assumption|assumption|].
            split.
            + eapply refreshed_trans; [|exact B1]. eapply refreshed_mono; [apply (incl_params x); assumption|apply (incl_unks x); assumption|exact A1].
            + intros v Hv. rewrite B2 by assumption. apply A2. intros G. apply Hv. apply (incl_unks x subs Hx). assumption. }
        destruct (G subs _ _ (incl_refl _) H) as [G1 G2]. split; [|exact G2].
        eapply refreshed_trans; [|exact G1]. apply transfer_all_refreshed. intros x Hx. apply incl_params. assumption.
      + assert (G : forall l s s', incl l subs -> ap_ser (flat_map sys_unks subs) l s = Ok s' ->
                  refreshed (flat_map sys_params subs) (flat_map sys_unks subs) s s' /\
                  (forall v, ~ In v (flat_map sys_unks subs) -> rv s' v = rv s v)).
        { induction l as [|x l IHl]; intros s0 s1 Hl H1; simpl in H1.
          - injection H1 as <-. split; [apply refreshed_refl|reflexivity].
          - assert (Hx : In x subs) by (apply Hl; left; reflexivity).
            assert (Hl' : incl l subs) by (intros y Hy; apply Hl; right; assumption).
            destruct (run_apply marked x); [|apply (IHl s0 s1); assumption].
            destruct (apply_sys true x _) as [s2|] eqn:E; [|discriminate]. cbn [bind] in H1.
            destruct (IH' x Hx _ _ _ E) as [A1 A2]. destruct (IHl s2 s1) as [B1 B2]; [assumption|assumption|].
            split.
            + eapply refreshed_trans; [|exact B1]. eapply refreshed_trans; [apply (transfer_refreshed conns (flat_map sys_params subs) _ x); apply incl_params; assumption|].
              eapply refreshed_mono; [apply (incl_params x); assumption|apply (incl_unks x); assumption|exact A1].
            + intros v Hv. rewrite B2 by assumption. rewrite A2; [reflexivity|]. intros G. apply Hv. apply (incl_unks x subs Hx). assumption. }
        apply (G subs); [apply incl_refl|assumption].
  Qed.

  (** ** what a run establishes *)
  Definition est (P U : list string) (cs : list (comp V)) (s : st V) : Prop :=
    (forall k, In k conns -> io k -> internal P U k -> pv s (k_tgt k) = k_conv k (uv s (k_src k))) /\
    (forall c, In c cs -> (forall k, In k conns -> In (k_tgt k) (c_params c) -> io k) -> solved c s).

  Lemma solved_ext : forall (c : comp V) s s', solved c s -> (forall p, In p (c_params c) -> pv s' p = pv s p) ->
      (forall u, In u (c_unks c) -> uv s' u = uv s u) -> solved c s'.
  Proof.
    intros c s s' (g & H) Hp Hu. exists g.
    rewrite (map_ext_in (pv s') (pv s)), (map_ext_in (uv s') (uv s)) by assumption. exact H.
  Qed.

  Lemma est_refreshed : forall P U cs (s s' : st V), est P U cs s -> refreshed P U s s' -> est P U cs s'.
  Proof.
    intros P U cs s s' (E1 & E2) (A1 & A2). split.
    - intros k Hk Hio Hi. rewrite A1. destruct (A2 (k_tgt k)) as [->|(k' & Hk' & Et & _ & ->)]; [apply E1; assumption|].
      rewrite (tgt_unique conns Htgt k' k Hk' Hk Et). reflexivity.
    - intros c Hc Hall. apply (solved_ext c s s'); [apply E2; assumption| |intros u _; apply A1].
      intros p Hp. destruct (A2 p) as [->|(k & Hk & Et & Hi & ->)]; [reflexivity|]. subst p. symmetry.
      apply E1; [assumption|apply Hall; assumption|assumption].
  Qed.

  Lemma est_step : forall P U cs Px Ux csx (s s1 s2 : st V),
      (forall c, In c cs -> incl (c_params c) P /\ incl (c_unks c) U) ->
      (forall p, In p P -> In p Px -> False) -> (forall u, In u U -> In u Ux -> False) ->
      (forall k, In k conns -> In (k_tgt k) P -> In (k_src k) Ux -> ~ io k) ->
      (forall u, uv s1 u = uv s u) -> (forall p, ~ In p Px -> pv s1 p = pv s p) ->
      (forall k, In k conns -> io k -> In (k_tgt k) Px -> In (k_src k) U -> pv s1 (k_tgt k) = k_conv k (uv s (k_src k))) ->
      framed Px Ux s1 s2 -> est P U cs s -> est Px Ux csx s2 ->
      est (P ++ Px) (U ++ Ux) (cs ++ csx) s2.
  Proof.
    intros P U cs Px Ux csx s s1 s2 Hcs Dp Du Hord Hu1 Hp1 Hk1 (F1 & F2 & F3) (E1 & E2) (X1 & X2).
    assert (Gp : forall p, In p P -> pv s2 p = pv s p).
    { intros p Hp. rewrite F3; [apply Hp1; intros Hx; exact (Dp p Hp Hx)|]. intros k Hk E (I1 & _). subst p. exact (Dp _ Hp I1). }
    assert (Gu : forall u, In u U -> uv s2 u = uv s u).
    { intros u Hu. rewrite F1; [apply Hu1|]. intros Hx. exact (Du u Hu Hx). }
    split.
    - intros k Hk Hio (It & Is). apply in_app_or in It. apply in_app_or in Is. destruct It as [It|It], Is as [Is|Is].
      + rewrite Gp, Gu by assumption. apply E1; [assumption|assumption|split; assumption].
      + exfalso. exact (Hord k Hk It Is Hio).
      + rewrite Gu by assumption. rewrite F3; [apply Hk1; assumption|].
        intros k' Hk' E (_ & I2). rewrite (tgt_unique conns Htgt k' k Hk' Hk E) in I2. exact (Du _ Is I2).
      + apply X1; [assumption|assumption|split; assumption].
    - intros c Hc Hall. apply in_app_or in Hc. destruct Hc as [Hc|Hc]; [|apply X2; assumption].
      destruct (Hcs c Hc) as [Ip Iu]. apply (solved_ext c s s2); [apply E2; assumption| |]; intros; [apply Gp|apply Gu]; auto.
  Qed.

  (** sources of later children are not in order *)
  Fixpoint ordered (t : sys V) : Prop :=
    match t with
    | Comp c => forall k, In k conns -> In (k_tgt k) (c_params c) -> In (k_src k) (c_unks c) -> ~ io k
    | Grp par nl subs =>
        (forall pre x post, subs = pre ++ x :: post -> forall k, In k conns -> In (k_tgt k) (flat_map sys_params pre) ->
           In (k_src k) (sys_unks x) -> ~ io k) /\
        (fix all (l : list (sys V)) : Prop := match l with [] => True | x :: l' => ordered x /\ all l' end) subs
    end.

  Lemma comps_grp_incl : forall (subs : list (sys V)) c, In c (flat_map comps subs) ->
      incl (c_params c) (flat_map sys_params subs) /\ incl (c_unks c) (flat_map sys_unks subs).
  Proof.
    intros subs c H. apply in_flat_map in H. destruct H as (x & Hx & Hc). split; intros p Hp; apply in_flat_map; exists x;
      (split; [assumption|]); apply in_flat_map; exists c; split; assumption.
  Qed.

  Definition run_good (t : sys V) : Prop := forall s s', run_sys t s = Ok s' ->
      framed (sys_params t) (sys_unks t) s s' /\ est (sys_params t) (sys_unks t) (comps t) s'.

  Lemma children_good : forall par subs,
      (forall x, In x subs -> run_good x) ->
      NoDup (flat_map sys_params subs) -> NoDup (flat_map sys_unks subs) ->
      (forall pre x post, subs = pre ++ x :: post -> forall k, In k conns -> In (k_tgt k) (flat_map sys_params pre) ->
         In (k_src k) (sys_unks x) -> ~ io k) ->
      (par = true -> forall x k, In x subs -> In k conns -> In (k_tgt k) (sys_params x) ->
           In (k_src k) (flat_map sys_unks subs) -> In (k_src k) (sys_unks x)) ->
      forall s s', children par subs s = Ok s' ->
        framed (flat_map sys_params subs) (flat_map sys_unks subs) s s' /\
        est (flat_map sys_params subs) (flat_map sys_unks subs) (flat_map comps subs) s'.
  Proof.
    intros par subs HG Np Nu Hord Hpar s s' H.
    set (U := flat_map sys_unks subs) in *.
    (* one step, serial or parallel *)
    assert (Step : forall done x l, subs = done ++ x :: l -> forall s0 s1 s2,
              s1 = (if par then s0 else transfer conns U x s0) -> run_sys x s1 = Ok s2 ->
              framed (flat_map sys_params subs) U s0 s2 /\
              (est (flat_map sys_params done) (flat_map sys_unks done) (flat_map comps done) s0 ->
               est (flat_map sys_params (done ++ [x])) (flat_map sys_unks (done ++ [x])) (flat_map comps (done ++ [x])) s2)).
    { intros done x l Es s0 s1 s2 E1 Hrun. assert (Hx : In x subs) by (rewrite Es; apply in_or_app; right; left; reflexivity).
      destruct (HG x Hx _ _ Hrun) as [F E]. split.
      - eapply framed_trans; [|eapply framed_mono; [apply (incl_params x); exact Hx|apply (incl_unks x); exact Hx|exact F]].
        subst s1. destruct par; [apply framed_refl|apply transfer_framed; apply incl_params; exact Hx].
      - intros He. rewrite !flat_map_app. simpl. rewrite !app_nil_r.
        rewrite Es in Np. rewrite flat_map_app in Np. simpl in Np. apply NoDup_app_inv in Np. destruct Np as (_ & Np' & Dp).
        assert (Nu' := Nu). unfold U in Nu'. rewrite Es in Nu'. rewrite flat_map_app in Nu'. simpl in Nu'.
        apply NoDup_app_inv in Nu'. destruct Nu' as (_ & Nu' & Du).
        assert (Du' : forall u, In u (flat_map sys_unks done) -> In u (sys_unks x) -> False)
          by (intros u Hu Hu'; apply (Du u Hu); apply in_or_app; left; assumption).
        apply (est_step _ _ _ _ _ _ s0 s1 s2); try assumption.
        + intros c Hc. apply comps_grp_incl. assumption.
        + intros p Hp Hp'. apply (Dp p Hp). apply in_or_app. left. assumption.
        + intros k Hk. apply (Hord done x l Es k Hk).
        + intros u. subst s1. destruct par; reflexivity.
        + intros p Hp. subst s1. destruct par; [reflexivity|]. apply deliver_not. intros k Hk Ek.
          destruct (moves U x k) eqn:M; [|reflexivity]. exfalso. apply moves_iff in M. apply Hp. rewrite <- Ek. tauto.
        + intros k Hk Hio It Is. assert (Hall : In (k_src k) U).
          { unfold U. rewrite Es, flat_map_app. apply in_or_app. left. assumption. }
          subst s1. destruct par.
          * exfalso. apply (Du' (k_src k) Is). apply (Hpar eq_refl x k Hx Hk It Hall).
          * apply deliver_at; [assumption|assumption|]. apply moves_iff. split; [assumption|]. split; [assumption|].
            intros Hi. exact (Du' _ Is Hi). }
    assert (E0 : forall s, est [] [] [] s).
    { intros s0. split; [intros k _ _ (Hi & _); destruct Hi|intros c []]. }
    unfold children in H. fold U in H. destruct par.
    - assert (G : forall l done s0 s2, subs = done ++ l -> ch_par l s0 = Ok s2 ->
                framed (flat_map sys_params subs) U s0 s2 /\
                (est (flat_map sys_params done) (flat_map sys_unks done) (flat_map comps done) s0 ->
                 est (flat_map sys_params subs) (flat_map sys_unks subs) (flat_map comps subs) s2)).
      { induction l as [|x l IHl]; intros done s0 s2 Es H1; simpl in H1.
        - injection H1 as <-. rewrite app_nil_r in Es. split; [apply framed_refl|]. intros G. rewrite Es. exact G.
        - destruct (run_sys x s0) as [s1|] eqn:E1; [|discriminate]. cbn [bind] in H1.
          destruct (Step done x l Es s0 s0 s1 eq_refl E1) as [A1 A2].
          destruct (IHl (done ++ [x]) s1 s2) as [B1 B2]; [rewrite <- app_assoc; exact Es|exact H1|].
          split; [eapply framed_trans; eassumption|]. intros G. apply B2, A2, G. }
      destruct (G subs [] _ s' eq_refl H) as [G1 G2]. split.
      + eapply framed_trans; [|exact G1]. apply refreshed_framed; [|reflexivity].
        apply transfer_all_refreshed. intros x Hx. apply incl_params. exact Hx.
      + apply G2. apply E0.
    - assert (G : forall l done s0 s2, subs = done ++ l -> ch_ser U l s0 = Ok s2 ->
                framed (flat_map sys_params subs) U s0 s2 /\
                (est (flat_map sys_params done) (flat_map sys_unks done) (flat_map comps done) s0 ->
                 est (flat_map sys_params subs) (flat_map sys_unks subs) (flat_map comps subs) s2)).
      { induction l as [|x l IHl]; intros done s0 s2 Es H1; simpl in H1.
        - injection H1 as <-. rewrite app_nil_r in Es. split; [apply framed_refl|]. intros G. rewrite Es. exact G.
        - destruct (run_sys x (transfer conns U x s0)) as [s1|] eqn:E1; [|discriminate]. cbn [bind] in H1.
          destruct (Step done x l Es s0 _ s1 eq_refl E1) as [A1 A2].
          destruct (IHl (done ++ [x]) s1 s2) as [B1 B2]; [rewrite <- app_assoc; exact Es|exact H1|].
          split; [eapply framed_trans; eassumption|]. intros G. apply B2, A2, G. }
      destruct (G subs [] _ s' eq_refl H) as [G1 G2]. split; [exact G1|]. apply G2. apply E0.
  Qed.

  Lemma run_establishes : forall t, ordered t -> solvers_sweep t -> parallel_independent conns t ->
      NoDup (sys_params t) -> NoDup (sys_unks t) -> run_good t.
  Proof.
    induction t as [c|par nl subs IH] using sys_ind2; intros Ho Hs Hpi Np Nu s s' H.
    - simpl in H. rewrite comp_params, comp_unks in *. split; [apply run_comp_framed; assumption|]. split.
      + intros k Hk Hio (It & Is). exfalso. exact (Ho k Hk It Is Hio).
      + intros c' [<-|[]] _. apply (run_comp_solved c s s'); assumption.
    - destruct Ho as [Ho Hos]. destruct Hs as [Hnl Hss]. destruct Hpi as [Hpi Hpis].
      destruct (run_grp par nl subs s) as (ch & Ech & Erun). rewrite Erun in H. clear Erun.
      assert (Hp : forall x, In x subs -> run_good x).
      { intros x Hx. apply IH; [assumption|apply (all_in ordered subs Hos x Hx)|apply (all_in solvers_sweep subs Hss x Hx)|
          apply (all_in (parallel_independent conns) subs Hpis x Hx)| |].
        - rewrite sys_params_grp in Np. apply (nodup_part _ subs); assumption.
        - rewrite sys_unks_grp in Nu. apply (nodup_part _ subs); assumption. }
      assert (Ha : residual_frame (Grp par nl subs)) by (apply apply_refreshed; assumption).
      assert (Cg := children_good par subs Hp).
      rewrite sys_params_grp in *. rewrite sys_unks_grp in *. specialize (Cg Np Nu Ho).
      assert (Hpi' : par = true -> forall x k, In x subs -> In k conns -> In (k_tgt k) (sys_params x) ->
           In (k_src k) (flat_map sys_unks subs) -> In (k_src k) (sys_unks x)).
      { intros E x k Hx Hk It Is. apply (Hpi E x k Hx Hk It). change (In (k_src k) (sys_unks (Grp par nl subs))).
        rewrite sys_unks_grp. exact Is. }
      specialize (Cg Hpi').
      destruct (Hnl _ _ _ _ H) as (s1 & s2 & Hc & Hch & Hend).
      assert (Fap : forall a b, apply_sys true (Grp par nl subs) a = Ok b ->
                refreshed (flat_map sys_params subs) (flat_map sys_unks subs) a b /\
                framed (flat_map sys_params subs) (flat_map sys_unks subs) a b).
      { intros a b E. destruct (Ha _ _ _ E) as [R1 R2]. rewrite sys_params_grp, sys_unks_grp in *.
        split; [exact R1|]. apply refreshed_framed; assumption. }
      assert (F1 : framed (flat_map sys_params subs) (flat_map sys_unks subs) s s1).
      { clear -Hc Cg Fap Ech. induction Hc as [s|s s1 s2 Hc IHc E|s s1 s2 Hc IHc E]; [apply framed_refl| |].
        - eapply framed_trans; [exact IHc|]. rewrite Ech in E. apply (Cg _ _ E).
        - eapply framed_trans; [exact IHc|]. apply (Fap _ _ E). }
      rewrite Ech in Hch. destruct (Cg _ _ Hch) as [F2 E2].
      destruct Hend as [->|Hap].
      + split; [eapply framed_trans; eassumption|exact E2].
      + destruct (Fap _ _ Hap) as [R F3]. split; [eapply framed_trans; [exact F1|]; eapply framed_trans; eassumption|].
        eapply est_refreshed; eassumption.
  Qed.
End Main.

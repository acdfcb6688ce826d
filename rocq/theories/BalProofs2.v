(** The invariant of the load balanced design of experiments. *)
From Coq Require Import Permutation.
From Verif Require Import Base BaseFacts PermSolve EvalSpec EvalProofs BalModel BalSpec BalProofs.
Local Open Scope nat_scope.

Section Bal.
  Variables C V : Type.
  Variable ev : C -> nat * nat -> result V -> Prop.
  Variable vars : nat * nat -> list string.
  Hypothesis names : forall c kj r, ev c kj r -> forall x, In x (map fst (rdata r)) <-> In x (vars kj).
  Notation worker := (worker C V).
  Notation group := (group C V).
  Notation st := (st C V).
  Notation g_ok := (g_ok C V ev vars).
  Notation g_idle := (g_idle C V vars).
  Notation g_busy := (g_busy C V ev vars).
  Notation g_prog := (g_prog C V ev vars).
  Notation active := (fmi (active1 C V) 0).
  Notation ans := (fmi (ans1 C V) 0).
  Notation fresh := (fresh C V).
  Notation holds := (holds C V ev).
  Variable cs : list C.
  Variable sizes : list nat.
  Hypothesis sizes_pos : Forall (fun n => 1 <= n) sizes.

  Definition cnt (G : group) : nat := count (ginfo G).
  Definition cur1 (G : group) : list C := if cnt G =? 0 then [] else match cur (ginfo G) with Some c => [c] | None => [] end.
  Definition gruns (k : nat) (G : group) : list (C * (nat * nat) * result V) :=
    if cnt G =? 0 then [] else match cur (ginfo G) with Some c => map (fun jr => (c, (k, fst jr), snd jr)) (got (ginfo G) ++ ans (procs G)) | None => [] end.
  Record core (s : st) : Prop := {
    k_cases : Permutation cs (map case_of (finished_cases s) ++ flat_map cur1 (gs s) ++ left s);
    k_done : Forall (ran_by_group ev sizes) (finished_cases s);
    k_runs : Permutation (runs s) (flat_map runs_of (finished_cases s) ++ fmi gruns 0 (gs s));
    k_rec : Forall2 recorded_as (filter nonfatal (finished_cases s)) (recorded s);
    k_sent : sent s = received s + list_sum (map cnt (gs s));
    k_left : left s <> [] -> (exists d, In d (finished_cases s) /\ nonfatal d = false) \/ (more s = true /\ Forall (fun G => 0 < cnt G) (gs s));
    k_sizes : map (fun G => length (procs G)) (gs s) = sizes }.
  Definition told (w : worker) : Prop := w = mkW [None] Idle [] \/ w = mkW [] Exited [].
  Definition inv (s : st) : Prop :=
    s = init cs sizes \/
    (core s /\ match pc s with
               | Start => False
               | Recv => alli g_ok (gs s) /\ received s < sent s
               | Returned => Forall (fun G => cnt G = 0) (gs s) /\ Forall (fun G => Forall told (procs G)) (gs s)
               end).

  Lemma ok_cnt : forall k G, g_ok k G -> cnt G = 0 -> g_idle k G.
  Proof. intros k G [H|(c & _ & H)] Z; [exact H|]. unfold cnt in Z. lia. Qed.
  Lemma zero_cur : forall l, Forall (fun G => cnt G = 0) l -> flat_map cur1 l = [].
  Proof. intros l H. induction H as [|G l Z H IH]; [reflexivity|]. cbn. unfold cur1. rewrite Z. exact IH. Qed.
  Lemma zero_runs : forall l k, Forall (fun G => cnt G = 0) l -> fmi gruns k l = [].
  Proof. intros l k H. apply fmi_nil. intros j G Hj. apply alli_forall in H. unfold gruns. rewrite (H _ _ Hj). reflexivity. Qed.
  Lemma zero_sum : forall l, list_sum (map cnt l) = 0 <-> Forall (fun G => cnt G = 0) l.
  Proof.
    induction l as [|G l IH]; [split; [constructor|reflexivity]|]. split.
    - intros H. unfold list_sum in *. cbn in H. constructor; [lia|]. apply IH. lia.
    - intros H. inversion H; subst. apply IH in H3. unfold list_sum in *. cbn. lia.
  Qed.
  Lemma stop_cnt : forall l, map cnt (stop_all l) = map cnt l.
  Proof. intros l. unfold stop_all. rewrite map_map. reflexivity. Qed.
  Lemma stop_zero : forall l, Forall (fun G => cnt G = 0) l -> Forall (fun G => cnt G = 0) (stop_all l).
  Proof. intros l H. apply zero_sum. rewrite stop_cnt. apply zero_sum. exact H. Qed.
  Lemma stop_sizes : forall l : list group, map (fun G => length (procs G)) (stop_all l) = map (fun G => length (procs G)) l.
  Proof. intros l. unfold stop_all. rewrite map_map. apply map_ext. intros G. cbn. apply map_length. Qed.
  Lemma stop_told : forall l, alli g_ok l -> Forall (fun G => cnt G = 0) l -> Forall (fun G => Forall told (procs G)) (stop_all l).
  Proof.
    intros l H Z. apply alli_forall. intros k G' Hk. unfold stop_all in Hk. rewrite nth_error_map in Hk. destruct (nth_error l k) as [G|] eqn:E; [|discriminate]. injection Hk as <-. apply alli_forall in Z.
    destruct (ok_cnt k G (H _ _ E) (Z _ _ E)) as (_ & F & _). cbn. apply Forall_forall. intros w Hw. apply in_map_iff in Hw. destruct Hw as (w' & <- & Hw). rewrite Forall_forall in F. rewrite (F _ Hw). left. reflexivity.
  Qed.
  (** the master stops the workers when every group is idle *)
  Lemma stop_inv : forall l sn rc m rec g fin rn, core (mkSt Recv l sn rc m rec g fin rn) -> alli g_ok g -> rc = sn ->
      inv (mkSt Returned l sn rc m rec (stop_all g) fin rn).
  Proof.
    intros l sn rc m rec g fin rn [K1 K2 K3 K4 K5 K6 K7] OK E. right. cbn [left recorded gs finished_cases runs sent received more] in *. assert (Z : Forall (fun G => cnt G = 0) g) by (apply zero_sum; lia).
    split; [|split; [apply stop_zero; exact Z|apply stop_told; assumption]]. constructor; cbn [left recorded gs finished_cases runs sent received more].
    - rewrite (zero_cur _ (stop_zero _ Z)). rewrite (zero_cur _ Z) in K1. exact K1.
    - exact K2.
    - rewrite (zero_runs _ 0 (stop_zero _ Z)). rewrite (zero_runs _ 0 Z) in K3. exact K3.
    - exact K4.
    - rewrite stop_cnt. exact K5.
    - intros N. destruct (K6 N) as [K|[K L]]; [left; exact K|]. right. split; [exact K|]. unfold stop_all. apply Forall_map. exact L.
    - rewrite stop_sizes. exact K7.
  Qed.

  (** ** the start *)
  Lemma seed_spec : forall g k l0 l g' n, seed l0 g = (l, g', n) -> alli (fun j G => g_idle (k + j) G) g -> Forall (fun G => term (ginfo G) = 0 /\ success (ginfo G) = true /\ procs G <> []) g ->
      l0 = flat_map cur1 g' ++ l /\ n = list_sum (map cnt g') /\ alli (fun j => g_ok (k + j)) g' /\ (l <> [] -> Forall (fun G => 0 < cnt G) g') /\ fmi gruns k g' = [] /\ map (fun G => length (procs G)) g' = map (fun G => length (procs G)) g.
  Proof.
    induction g as [|G g IH]; intros k l0 l g' n H I N.
    - cbn in H. assert (K : (l, g', n) = (l0, [], 0)) by (destruct l0; symmetry; exact H). injection K as -> -> ->. split; [reflexivity|]. split; [reflexivity|]. split; [intros j x Hj; destruct j; discriminate|]. split; [constructor|]. split; reflexivity.
    - destruct l0 as [|c l0].
      + cbn in H. injection H as <- <- <-. assert (Z : Forall (fun G => cnt G = 0) (G :: g)) by (apply alli_forall; intros j x Hj; exact (proj1 (I _ _ Hj))). split; [rewrite (zero_cur _ Z); reflexivity|]. split; [symmetry; apply zero_sum; exact Z|]. split; [intros j x Hj; left; apply I; exact Hj|]. split; [congruence|]. split; [apply zero_runs; exact Z|reflexivity].
      + change (seed (c :: l0) (G :: g)) with (let '(l, r, n) := seed l0 g in (l, deal c G :: r, length (procs G) + n)) in H. destruct (seed l0 g) as [[l1 r] m] eqn:E. injection H as <- <- <-. pose proof (Forall_inv N) as (N1 & N2 & N3). pose proof (I 0 G eq_refl) as I0. cbv beta in I0. rewrite Nat.add_0_r in I0. pose proof (deal_busy C V ev vars k c G I0 N1 N2 N3) as B.
        destruct (IH (S k) l0 l1 r m E) as (H1 & H2 & H3 & H4 & H5 & H6); [intros j x Hj; replace (S k + j) with (k + S j) by lia; apply I; exact Hj|exact (Forall_inv_tail N)|].
        assert (Z : cnt (deal c G) = length (procs G)) by (unfold cnt; cbn; destruct I0 as [I0 _]; rewrite I0; reflexivity). assert (P : 0 < cnt (deal c G)) by (destruct B as [_ B]; exact B). assert (Z0 : (cnt (deal c G) =? 0) = false) by (apply Nat.eqb_neq; lia).
        split; [|split; [|split; [|split; [|split]]]].
        * cbn. unfold cur1 at 1. rewrite Z0. cbn. rewrite H1 at 1. reflexivity.
        * cbn [map]. unfold list_sum. cbn [fold_right]. fold (list_sum (map cnt r)). rewrite Z, H2. reflexivity.
        * intros j x Hj. destruct j as [|j]; cbn in Hj; [injection Hj as <-; rewrite Nat.add_0_r; right; exists c; exact B|]. replace (k + S j) with (S k + j) by lia. apply H3. exact Hj.
        * intros L. constructor; [exact P|apply H4; exact L].
        * cbn [fmi]. rewrite H5, app_nil_r. unfold gruns. rewrite Z0. cbn [deal ginfo cur got procs]. cbn [app]. replace (ans (map (push (Some c)) (procs G))) with (@nil (nat * result V)); [reflexivity|]. symmetry. destruct I0 as (_ & I0 & _). apply fmi_nil. intros j w Hj. rewrite nth_error_map in Hj. destruct (nth_error (procs G) j) as [w'|] eqn:W; [|discriminate]. injection Hj as <-. apply alli_forall in I0. rewrite (I0 _ _ W). reflexivity.
        * cbn. rewrite map_length, H6. reflexivity.
  Qed.
  Lemma new_idle : alli g_idle (map new_group sizes).
  Proof.
    intros k G Hk. rewrite nth_error_map in Hk. destruct (nth_error sizes k) as [n|] eqn:E; [|discriminate]. injection Hk as <-. split; [reflexivity|]. split; [cbn; apply Forall_forall; intros w Hw; apply repeat_spec in Hw; exact Hw|]. intros x v D. discriminate.
  Qed.
  Lemma start_inv : forall l g n, seed cs (map new_group sizes) = (l, g, n) ->
      inv (mkSt (if 0 <? n then Recv else Returned) l n 0 true [] (if 0 <? n then g else stop_all g) [] []).
  Proof.
    intros l g n H. destruct (seed_spec _ 0 _ _ _ _ H) as (H1 & H2 & H3 & H4 & H5 & H6).
    - exact new_idle.
    - apply Forall_map. apply Forall_forall. intros m Hm. cbn. split; [reflexivity|]. split; [reflexivity|]. rewrite Forall_forall in sizes_pos. specialize (sizes_pos m Hm). destruct m; [lia|discriminate].
    - assert (K : forall p, core (mkSt p l n 0 true [] g [] [])).
      { intros p. constructor; cbn.
        - rewrite H1 at 1. reflexivity.
        - constructor.
        - rewrite H5. reflexivity.
        - constructor.
        - exact H2.
        - intros L. right. split; [reflexivity|apply H4; exact L].
        - rewrite H6, map_map. cbn. erewrite map_ext; [apply map_id|]. intros m. apply repeat_length. }
      destruct (0 <? n) eqn:Z; [apply Nat.ltb_lt in Z; right; split; [apply K|split; [exact H3|exact Z]]|]. apply Nat.ltb_ge in Z. apply stop_inv; [apply K|exact H3|lia].
  Qed.

  (** ** the master receives a result *)
  Lemma recv_inv : forall l sn rc m rec pre i p1 q p r o p2 post fin rn,
      inv (mkSt Recv l sn rc m rec (pre ++ mkG i (p1 ++ mkW q p (r :: o) :: p2) :: post) fin rn) ->
      inv (receive (mkSt Recv l sn rc m rec (pre ++ mkG i (p1 ++ mkW q p (r :: o) :: p2) :: post) fin rn) pre (mkG i (p1 ++ mkW q p o :: p2)) post (length p1) r).
  Proof.
    intros l sn rc m rec pre i p1 q p r o p2 post fin rn [I|([K1 K2 K3 K4 K5 K6 K7] & OK & LT)]; [discriminate|]. cbn [EvalModel.left left recorded gs finished_cases runs sent received more] in *.
    set (k := length pre) in *.
    assert (B : exists c, g_busy k c (mkG i (p1 ++ mkW q p (r :: o) :: p2))).
    { apply alli_mid in OK. destruct OK as (_ & [(_ & F & _)|B] & _); [|exact B]. exfalso. cbn in F. apply Forall_app in F. destruct F as [_ F]. apply Forall_inv in F. discriminate. }
    destruct B as (c & PG & PC). pose proof (p_count _ _ _ _ _ _ _ PG) as CNT. pose proof (p_cur _ _ _ _ _ _ _ PG) as CUR. cbn [ginfo procs] in CNT, CUR, PC.
    destruct (absorb_prog C V ev vars names k c i p1 q p r o p2 PG) as (-> & -> & -> & EV & PG').
    assert (N : nth_error sizes k = Some (length (p1 ++ mkW [] Idle [] :: p2))).
    { rewrite <- K7. rewrite nth_error_map. unfold k. rewrite nth_error_app2, Nat.sub_diag by lia. cbn. rewrite !app_length. reflexivity. }
    assert (SZ : forall G, length (procs G) = length (p1 ++ mkW [] Idle [] :: p2) -> map (fun G0 => length (procs G0)) (pre ++ G :: post) = sizes).
    { intros G E. rewrite <- K7, !map_app. cbn. rewrite E, !app_length. reflexivity. }
    rewrite flat_map_app in K1. cbn [flat_map] in K1. rewrite fmi_mid in K3. fold k in K3. rewrite sum_app_mid in K5.
    assert (C0 : cnt (mkG i (p1 ++ mkW [] Idle [r] :: p2)) = count i) by reflexivity. rewrite C0 in K5.
    assert (CU : cur1 (mkG i (p1 ++ mkW [] Idle [r] :: p2)) = [c]) by (unfold cur1; rewrite C0; replace (count i =? 0) with false by (symmetry; apply Nat.eqb_neq; lia); cbn; rewrite CUR; reflexivity). rewrite CU in K1.
    assert (GR : gruns k (mkG i (p1 ++ mkW [] Idle [r] :: p2)) = map (fun jr => (c, (k, fst jr), snd jr)) (got i ++ ans (p1 ++ mkW [] Idle [r] :: p2))) by (unfold gruns; rewrite C0; replace (count i =? 0) with false by (symmetry; apply Nat.eqb_neq; lia); cbn [ginfo]; rewrite CUR; reflexivity).
    assert (GR' : Permutation (map (fun jr => (c, (k, fst jr), snd jr)) (got i ++ ans (p1 ++ mkW [] Idle [r] :: p2))) (map (fun jr => (c, (k, fst jr), snd jr)) ((got i ++ [(length p1, r)]) ++ ans (p1 ++ mkW [] Idle [] :: p2)))).
    { apply Permutation_map. rewrite !fmi_mid. cbn [ans1 wout map app]. perm. }
    rewrite GR, GR' in K3. clear GR GR'.
    unfold receive. cbn [left recorded gs finished_cases runs sent received more ginfo procs]. fold k.
    set (i' := absorb i (length p1) r) in *. assert (CC : count i' = count i - 1) by reflexivity. assert (CR : cur i' = Some c) by exact CUR. assert (CG : got i' = got i ++ [(length p1, r)]) by reflexivity. rewrite <- CG in K3.
    destruct (count i' =? 0) eqn:Z.
    - apply Nat.eqb_eq in Z. rewrite CR. destruct (complete C V ev vars names k c (mkG i' (p1 ++ mkW [] Idle [] :: p2)) sizes PG' Z N) as (ID & RB & NF & RA). cbn [ginfo] in RB, NF, RA.
      assert (AN : ans (p1 ++ mkW [] Idle [] :: p2) = []) by (apply fresh_ans; exact (proj1 (proj2 ID))). rewrite AN, app_nil_r in K3.
      assert (D : Forall (ran_by_group ev sizes) (fin ++ [(c, k, got i')])) by (apply Forall_app; split; [exact K2|]; constructor; [exact RB|constructor]).
      assert (Z' : forall P, cnt (mkG i' P) = 0) by (intros P; exact Z). assert (C1 : forall P, cur1 (mkG i' P) = []) by (intros P; unfold cur1; rewrite Z'; reflexivity). assert (G1 : forall P, gruns k (mkG i' P) = []) by (intros P; unfold gruns; rewrite Z'; reflexivity).
      destruct (0 <? term i') eqn:T.
      + (* fatal *)
        apply Nat.ltb_lt in T. assert (NF' : nonfatal (c, k, got i') = false) by (destruct (nonfatal (c, k, got i')); [|reflexivity]; assert (0 = 1) by (rewrite (proj1 NF eq_refl) in T; lia); discriminate).
        rewrite Nat.add_0_r.
        assert (CO : forall pc0, core (mkSt pc0 l sn (S rc) false (rec ++ []) (pre ++ mkG i' (p1 ++ mkW [] Idle [] :: p2) :: post) (fin ++ [(c, k, got i')]) rn)).
        { intros pc0. constructor; cbn [left recorded gs finished_cases runs sent received more].
          - rewrite K1, map_app, flat_map_app. cbn [map flat_map]. change (case_of (c, k, got i')) with c. rewrite C1. perm.
          - exact D.
          - rewrite K3, flat_map_app, fmi_mid. fold k. rewrite G1. cbn [flat_map]; change (runs_of (c, k, got i')) with (map (fun jr => (c, (k, fst jr), snd jr)) (got i')). perm.
          - rewrite filter_app, app_nil_r. cbn [filter]. rewrite NF', app_nil_r. exact K4.
          - rewrite sum_app_mid, Z'. lia.
          - intros _. left. exists (c, k, got i'). split; [apply in_or_app; right; left; reflexivity|exact NF'].
          - apply SZ. reflexivity. }
        assert (OK' : alli g_ok (pre ++ mkG i' (p1 ++ mkW [] Idle [] :: p2) :: post)) by (eapply alli_put; [exact OK|left; exact ID]).
        destruct (S rc =? sn) eqn:E; [apply Nat.eqb_eq in E; eapply stop_inv; [apply CO|exact OK'|exact E]|]. apply Nat.eqb_neq in E. right. split; [apply CO|]. split; [exact OK'|]. cbn. lia.
      + apply Nat.ltb_ge in T. assert (T0 : term i' = 0) by lia. assert (NF' : nonfatal (c, k, got i') = true) by (apply NF; exact T0).
        assert (RC : forall e, e = entry_of i' -> Forall2 recorded_as (filter nonfatal (fin ++ [(c, k, got i')])) (rec ++ [e])).
        { intros e ->. rewrite filter_app. cbn [filter]. rewrite NF'. apply Forall2_app; [exact K4|]. constructor; [exact RA|constructor]. }
        destruct (if m then l else []) as [|c' l'] eqn:L.
        * (* nothing to send *)
          rewrite Nat.add_0_r.
          assert (CO : forall pc0, core (mkSt pc0 l sn (S rc) false (rec ++ [entry_of i']) (pre ++ mkG i' (p1 ++ mkW [] Idle [] :: p2) :: post) (fin ++ [(c, k, got i')]) rn)).
          { intros pc0. constructor; cbn [left recorded gs finished_cases runs sent received more].
            - rewrite K1, map_app, flat_map_app. cbn [map flat_map]. change (case_of (c, k, got i')) with c. rewrite C1. perm.
            - exact D.
            - rewrite K3, flat_map_app, fmi_mid. fold k. rewrite G1. cbn [flat_map]; change (runs_of (c, k, got i')) with (map (fun jr => (c, (k, fst jr), snd jr)) (got i')). perm.
            - apply RC. reflexivity.
            - rewrite sum_app_mid, Z'. lia.
            - intros NL. left. destruct m; [congruence|]. destruct (K6 NL) as [(d & D1 & D2)|[F _]]; [|discriminate]. exists d. split; [apply in_or_app; left; exact D1|exact D2].
            - apply SZ. reflexivity. }
          assert (OK' : alli g_ok (pre ++ mkG i' (p1 ++ mkW [] Idle [] :: p2) :: post)) by (eapply alli_put; [exact OK|left; exact ID]).
          destruct (S rc =? sn) eqn:E; [apply Nat.eqb_eq in E; eapply stop_inv; [apply CO|exact OK'|exact E]|]. apply Nat.eqb_neq in E. right. split; [apply CO|]. split; [exact OK'|]. cbn. lia.
        * (* the next case *)
          destruct m; [|discriminate]. subst l. set (G' := deal c' (renew (mkG i' (p1 ++ mkW [] Idle [] :: p2)))) in *.
          assert (BG : g_busy k c' G'). { apply deal_busy; [|reflexivity|reflexivity|cbn; destruct p1; discriminate]. destruct ID as (I1 & I2 & I3). split; [exact I1|]. split; [exact I2|exact I3]. }
          assert (CN : cnt G' = length (p1 ++ mkW (C := C) (V := V) [] Idle [] :: p2)) by (unfold cnt, G'; cbn; rewrite CC in *; lia).
          assert (CP : (cnt G' =? 0) = false) by (apply Nat.eqb_neq; rewrite CN, app_length; cbn; lia).
          assert (NS : (S rc =? sn + length (p1 ++ mkW (C := C) (V := V) [] Idle [] :: p2)) = false) by (apply Nat.eqb_neq; rewrite app_length; cbn; lia). rewrite NS.
          right. split.
          -- constructor; cbn [left recorded gs finished_cases runs sent received more].
             ++ rewrite K1, map_app, flat_map_app. cbn [map flat_map]. change (case_of (c, k, got i')) with c. replace (cur1 G') with [c'] by (unfold cur1; rewrite CP; reflexivity). perm.
             ++ exact D.
             ++ rewrite K3, flat_map_app, fmi_mid. fold k. replace (gruns k G') with (@nil (C * (nat * nat) * result V)); [cbn [flat_map]; change (runs_of (c, k, got i')) with (map (fun jr => (c, (k, fst jr), snd jr)) (got i')); perm|]. unfold gruns. rewrite CP. unfold G'. cbn [deal renew ginfo cur got procs app]. replace (ans (map (push (Some c')) (p1 ++ mkW [] Idle [] :: p2))) with (@nil (nat * result V)); [reflexivity|]. symmetry. apply fmi_nil. intros j w Hj. rewrite nth_error_map in Hj. destruct (nth_error (p1 ++ mkW [] Idle [] :: p2) j) as [w'|] eqn:W; [|discriminate]. injection Hj as <-. destruct ID as (_ & F & _). apply alli_forall in F. rewrite (F _ _ W). reflexivity.
             ++ apply RC. reflexivity.
             ++ rewrite sum_app_mid, CN. lia.
             ++ intros NL. destruct (K6 ltac:(discriminate)) as [(d & D1 & D2)|[_ F]]; [left; exists d; split; [apply in_or_app; left; exact D1|exact D2]|]. right. split; [reflexivity|]. apply Forall_app in F. destruct F as [F1 F2]. apply Forall_app. split; [exact F1|]. constructor; [apply Nat.eqb_neq in CP; lia|]. exact (Forall_inv_tail F2).
             ++ apply SZ. unfold G'. cbn. rewrite map_length. reflexivity.
          -- split; [eapply alli_put; [exact OK|right; exists c'; exact BG]|]. cbn. rewrite app_length. cbn. lia.
    - (* not complete *)
      apply Nat.eqb_neq in Z. rewrite Nat.add_0_r.
      assert (CP : forall P, (cnt (mkG i' P) =? 0) = false) by (intros P; apply Nat.eqb_neq; unfold cnt; cbn [ginfo]; exact Z).
      assert (CO : core (mkSt Recv l sn (S rc) m (rec ++ []) (pre ++ mkG i' (p1 ++ mkW [] Idle [] :: p2) :: post) (fin ++ []) rn)).
      { constructor; cbn [left recorded gs finished_cases runs sent received more]; rewrite ?app_nil_r.
        - rewrite K1, flat_map_app. cbn [flat_map]. replace (cur1 (mkG i' (p1 ++ mkW [] Idle [] :: p2))) with [c]; [perm|]. unfold cur1. rewrite CP. cbn [ginfo]. rewrite CR. reflexivity.
        - exact K2.
        - rewrite K3, (fmi_mid _ _ gruns). fold k. assert (GG : gruns k (mkG i' (p1 ++ mkW [] Idle [] :: p2)) = map (fun jr => (c, (k, fst jr), snd jr)) (got i' ++ ans (p1 ++ mkW [] Idle [] :: p2))) by (unfold gruns; rewrite CP; cbn [ginfo procs]; rewrite CR; reflexivity). rewrite GG. reflexivity.
        - exact K4.
        - rewrite sum_app_mid. change (cnt (mkG i' (p1 ++ mkW [] Idle [] :: p2))) with (count i'). lia.
        - intros NL. destruct (K6 NL) as [K|[M F]]; [left; exact K|]. right. split; [exact M|]. apply Forall_app in F. destruct F as [F1 F2]. apply Forall_app. split; [exact F1|]. constructor; [unfold cnt; cbn [ginfo]; lia|exact (Forall_inv_tail F2)].
        - apply SZ. reflexivity. }
      assert (OK' : alli g_ok (pre ++ mkG i' (p1 ++ mkW [] Idle [] :: p2) :: post)) by (eapply alli_put; [exact OK|]; right; exists c; split; [exact PG'|cbn [ginfo]; lia]).
      assert (E : (S rc =? sn) = false) by (apply Nat.eqb_neq; lia). rewrite E. right. split; [exact CO|]. split; [exact OK'|]. cbn. lia.
  Qed.
End Bal.

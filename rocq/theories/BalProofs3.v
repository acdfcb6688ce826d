(** Every load balanced run ends, with every case run. *)
From Coq Require Import Permutation.
From Verif Require Import Base BaseFacts PermSolve EvalSpec EvalProofs BalModel BalSpec BalProofs BalProofs2.
Local Open Scope nat_scope.

Section Bal.
  Variables C V : Type.
  Variable ev : C -> nat * nat -> result V -> Prop.
  Variable vars : nat * nat -> list string.
  Hypothesis names : forall c kj r, ev c kj r -> forall x, In x (map fst (rdata r)) <-> In x (vars kj).
  Notation worker := (worker C V).
  Notation group := (group C V).
  Notation st := (st C V).
  Notation g_ok := (g_ok C V ev vars).
  Notation g_idle := (g_idle C V vars).
  Notation g_busy := (g_busy C V ev vars).
  Notation g_prog := (g_prog C V ev vars).
  Notation active := (fmi (active1 C V) 0).
  Notation ans := (fmi (ans1 C V) 0).
  Notation fresh := (fresh C V).
  Notation holds := (holds C V ev).
  Notation cnt := (cnt C V).
  Notation gruns := (gruns C V).
  Notation told := (told C V).
  Variable cs : list C.
  Variable sizes : list nat.
  Hypothesis sizes_pos : Forall (fun n => 1 <= n) sizes.
  Notation core := (core C V ev cs sizes).
  Notation inv := (inv C V ev vars cs sizes).

  Lemma init_fresh : forall G, In G (gs (init (V := V) cs sizes)) -> Forall fresh (procs G).
  Proof. intros G H. cbn in H. apply in_map_iff in H. destruct H as (n & <- & _). cbn. apply Forall_forall. intros w Hw. apply repeat_spec in Hw. exact Hw. Qed.
  Lemma init_worker : forall pcx l sn rc m rec pre i p1 w p2 post fin rn, mkSt pcx l sn rc m rec (pre ++ mkG i (p1 ++ w :: p2) :: post) fin rn = init cs sizes -> fresh w.
  Proof.
    intros pcx l sn rc m rec pre i p1 w p2 post fin rn E. apply (f_equal gs) in E. cbn [gs] in E. assert (H : Forall fresh (procs (mkG i (p1 ++ w :: p2)))) by (apply init_fresh; rewrite <- E; apply in_or_app; right; left; reflexivity).
    cbn in H. apply Forall_app in H. destruct H as [_ H]. exact (Forall_inv H).
  Qed.
  Lemma move_prog : forall k c i p1 w w' p2, g_prog k c (mkG i (p1 ++ w :: p2)) -> load C V w <> 0 -> load C V w' <> 0 -> holds c k (length p1) w' -> g_prog k c (mkG i (p1 ++ w' :: p2)).
  Proof.
    intros k c i p1 w w' p2 [P1 P2 P3 P4 P5 P6 P7 P8 P9 P10] L L' H. cbn [ginfo procs] in *.
    assert (A : active (p1 ++ w' :: p2) = active (p1 ++ w :: p2)) by (rewrite !fmi_mid; unfold active1 at 2 5; apply Nat.eqb_neq in L, L'; rewrite L, L'; reflexivity).
    assert (N : length (p1 ++ w' :: p2) = length (p1 ++ w :: p2)) by (rewrite !app_length; reflexivity).
    constructor; cbn [ginfo procs]; rewrite ?A, ?N; try assumption. eapply alli_put; [exact P3|]. right. exact H.
  Qed.
  (** an action of worker number j of group number k, while cases are run *)
  Lemma move_inv : forall l sn rc m rec pre i p1 w w' p2 post fin rn c rn',
      inv (mkSt Recv l sn rc m rec (pre ++ mkG i (p1 ++ w :: p2) :: post) fin rn) ->
      g_busy (length pre) c (mkG i (p1 ++ w :: p2)) -> load C V w <> 0 -> load C V w' <> 0 -> holds c (length pre) (length p1) w' ->
      wout w' = wout w ++ map snd rn' -> rn' = map (fun r => (c, (length pre, length p1), r)) (map snd rn') ->
      inv (mkSt Recv l sn rc m rec (pre ++ mkG i (p1 ++ w' :: p2) :: post) fin (rn ++ rn')).
  Proof.
    intros l sn rc m rec pre i p1 w w' p2 post fin rn c rn' [E|([K1 K2 K3 K4 K5 K6 K7] & OK & LT)] [PG PC] L L' H O R; [discriminate|]. cbn [left recorded gs finished_cases runs sent received more] in *. set (k := length pre) in *.
    assert (CUR : cur i = Some c) by exact (p_cur _ _ _ _ _ _ _ PG). cbn [ginfo] in PC.
    pose proof (move_prog k c i p1 w w' p2 PG L L' H) as PG'.
    right. split.
    - constructor; cbn [left recorded gs finished_cases runs sent received more]; try assumption.
      + rewrite flat_map_app in *. exact K1.
      + rewrite K3, !(fmi_mid _ _ gruns). fold k. assert (G : forall P, gruns k (mkG i P) = map (fun jr => (c, (k, fst jr), snd jr)) (got i ++ ans P)) by (intros P; unfold BalProofs2.gruns, BalProofs2.cnt; cbn [ginfo procs]; replace (count i =? 0) with false by (symmetry; apply Nat.eqb_neq; lia); rewrite CUR; reflexivity).
        rewrite !G, !map_app, !(fmi_mid _ _ (ans1 C V)). unfold ans1 at 2 5. rewrite O, !map_app. replace (map (fun jr => (c, (k, fst jr), snd jr)) (map (pair (length p1)) (map snd rn'))) with rn'; [perm|]. rewrite R at 1. rewrite !map_map. reflexivity.
      + rewrite sum_app_mid in *. exact K5.
      + intros NL. destruct (K6 NL) as [K|[M F]]; [left; exact K|]. right. split; [exact M|]. apply Forall_app in F. destruct F as [F1 F2]. apply Forall_app. split; [exact F1|]. constructor; [exact (Forall_inv F2)|exact (Forall_inv_tail F2)].
      + rewrite <- K7, !map_app. cbn. rewrite !app_length. reflexivity.
    - split; [|exact LT]. eapply alli_put; [exact OK|]. right. exists c. split; [exact PG'|exact PC].
  Qed.
  Lemma worker_holds : forall pre i p1 w p2 post, alli g_ok (pre ++ mkG i (p1 ++ w :: p2) :: post) -> ~ fresh w -> exists c, g_busy (length pre) c (mkG i (p1 ++ w :: p2)) /\ holds c (length pre) (length p1) w.
  Proof.
    intros pre i p1 w p2 post OK N. apply alli_mid in OK. destruct OK as (_ & [(_ & F & _)|(c & PG & PC)] & _).
    - exfalso. apply N. cbn in F. apply Forall_app in F. destruct F as [_ F]. exact (Forall_inv F).
    - exists c. split; [split; assumption|]. pose proof (p_procs _ _ _ _ _ _ _ PG) as P. cbn in P. apply alli_mid in P. destruct P as (_ & [P|P] & _); [contradiction|exact P].
  Qed.
  Lemma worker_told : forall pre i p1 w p2 post, Forall (fun G => Forall told (procs G)) (pre ++ mkG i (p1 ++ w :: p2) :: post) -> told w.
  Proof. intros pre i p1 w p2 post H. apply Forall_app in H. destruct H as [_ H]. apply Forall_inv in H. cbn in H. apply Forall_app in H. destruct H as [_ H]. exact (Forall_inv H). Qed.

  Lemma step_inv : forall s t, inv s -> step ev s t -> inv t.
  Proof.
    intros s t I ST. destruct ST.
    - destruct I as [E|(_ & [])]. injection E as -> -> -> -> -> -> -> ->. cbn [Nat.add]. apply start_inv; assumption.
    - apply recv_inv; assumption.
    - (* take *)
      destruct I as [E|(K & P)]; [exfalso; apply init_worker in E; discriminate|]. destruct pc; [destruct P| |].
      + destruct P as (OK & LT). cbn [gs] in OK. destruct (worker_holds _ _ _ _ _ _ OK) as (c' & B & H); [discriminate|]. destruct H as [H|[H|(r & _ & H)]]; [|discriminate|discriminate]. injection H as -> -> ->.
        replace rn with (rn ++ []) by apply app_nil_r. eapply (move_inv _ _ _ _ _ _ _ _ _ (mkW [] (Busy c') []) _ _ _ _ c' []); [right; split; [exact K|split; assumption]|exact B|discriminate|discriminate|right; left; reflexivity|reflexivity|reflexivity].
      + destruct P as (_ & T). cbn [gs] in T. apply worker_told in T. destruct T; discriminate.
    - (* exit *)
      destruct I as [E|(K & P)]; [exfalso; apply init_worker in E; discriminate|]. destruct pc; [destruct P| |].
      + destruct P as (OK & LT). cbn [gs] in OK. destruct (worker_holds _ _ _ _ _ _ OK) as (c' & B & H); [discriminate|]. destruct H as [H|[H|(r & _ & H)]]; discriminate.
      + destruct P as (Z & T). cbn [gs] in Z, T. pose proof (worker_told _ _ _ _ _ _ T) as W. destruct W as [W|W]; [|discriminate]. injection W as -> ->. right.
        assert (Z' : Forall (fun G => cnt G = 0) (pre ++ mkG i (p1 ++ mkW [] Exited [] :: p2) :: post)) by (apply Forall_app in Z; destruct Z as [Z1 Z2]; apply Forall_app; split; [exact Z1|]; constructor; [exact (Forall_inv Z2)|exact (Forall_inv_tail Z2)]).
        split; [|split; [exact Z'|]].
        * destruct K as [K1 K2 K3 K4 K5 K6 K7]. cbn [left recorded gs finished_cases runs sent received more] in *. constructor; cbn [left recorded gs finished_cases runs sent received more]; try assumption.
          -- rewrite flat_map_app in *. exact K1.
          -- rewrite (zero_runs _ _ _ _ Z) in K3. rewrite (zero_runs _ _ _ _ Z'). exact K3.
          -- rewrite sum_app_mid in *. exact K5.
          -- intros NL. destruct (K6 NL) as [KK|[M F]]; [left; exact KK|]. right. split; [exact M|]. apply Forall_app in F. destruct F as [F1 F2]. apply Forall_app. split; [exact F1|]. constructor; [exact (Forall_inv F2)|exact (Forall_inv_tail F2)].
          -- rewrite <- K7, !map_app. cbn. rewrite !app_length. reflexivity.
        * cbn [gs]. apply Forall_app in T. destruct T as [T1 T2]. apply Forall_app. split; [exact T1|]. constructor; [|exact (Forall_inv_tail T2)]. cbn. apply Forall_inv in T2. cbn in T2. apply Forall_app in T2. destruct T2 as [T2 T3]. apply Forall_app. split; [exact T2|]. constructor; [right; reflexivity|exact (Forall_inv_tail T3)].
    - (* run *)
      destruct I as [E|(K & P)]; [exfalso; apply init_worker in E; discriminate|]. destruct pc; [destruct P| |].
      + destruct P as (OK & LT). cbn [gs] in OK. destruct (worker_holds _ _ _ _ _ _ OK) as (c' & B & W); [discriminate|]. destruct W as [W|[W|(r' & _ & W)]]; [discriminate| |discriminate]. injection W as -> -> ->.
        eapply (move_inv _ _ _ _ _ _ _ _ _ (mkW [] Idle [r]) _ _ _ _ c' [(c', (length pre, length p1), r)]); [right; split; [exact K|split; assumption]|exact B|discriminate|discriminate|right; right; exists r; split; [exact H|reflexivity]|reflexivity|reflexivity].
      + destruct P as (_ & T). cbn [gs] in T. apply worker_told in T. destruct T; discriminate.
  Qed.

  (** ** termination *)
  Definition wm (w : worker) : nat := list_sum (map (fun o : option C => match o with Some _ => 4 | None => 1 end) (win w)) + match wst w with Busy _ => 3 | _ => 0 end + 2 * length (wout w).
  Definition gm (G : group) : nat := list_sum (map wm (procs G)).
  Definition total (l : list group) : nat := list_sum (map (fun G => length (procs G)) l).
  Definition measure (s : st) : nat :=
    (4 * total (gs s) + 1) * length (left s) + list_sum (map gm (gs s)) + match pc s with Start => total (gs s) + 3 | Recv => total (gs s) + 2 | Returned => 0 end.
  Lemma wm_push : forall c w, wm (push c w) = wm w + match c with Some _ => 4 | None => 1 end.
  Proof. intros c w. unfold wm, push. cbn [win wst wout]. rewrite map_app, list_sum_app. cbn. unfold list_sum. cbn. destruct c; lia. Qed.
  Lemma push_all : forall c ps, list_sum (map wm (map (push c) ps)) = list_sum (map wm ps) + (match c with Some _ => 4 | None => 1 end) * length ps.
  Proof. intros c ps. induction ps as [|w ps IH]; [cbn; lia|]. cbn [map length]. change (wm (push c w) + list_sum (map wm (map (push c) ps)) = wm w + list_sum (map wm ps) + (match c with Some _ => 4 | None => 1 end) * S (length ps)). rewrite IH, wm_push. destruct c; lia. Qed.
  Lemma gm_deal : forall c G, gm (deal c G) = gm G + 4 * length (procs G).
  Proof. intros c G. unfold gm. cbn. rewrite push_all. reflexivity. Qed.
  Lemma gm_stop : forall l, list_sum (map gm (stop_all l)) = list_sum (map gm l) + total l.
  Proof.
    intros l. unfold total, stop_all. induction l as [|G l IH]; [reflexivity|]. cbn [map]. change (list_sum (gm (stop_group G) :: map gm (map stop_group l)) = list_sum (gm G :: map gm l) + list_sum (length (procs G) :: map (fun G => length (procs G)) l)).
    assert (E : gm (stop_group G) = gm G + length (procs G)) by (unfold gm; cbn [stop_group procs]; rewrite push_all; lia). change (gm (stop_group G) + list_sum (map gm (map stop_group l)) = gm G + list_sum (map gm l) + (length (procs G) + list_sum (map (fun G => length (procs G)) l))). lia.
  Qed.
  Lemma total_stop : forall l, total (stop_all l) = total l.
  Proof. intros l. unfold total. rewrite stop_sizes. reflexivity. Qed.
  Lemma total_mid : forall pre G post, total (pre ++ G :: post) = total pre + length (procs G) + total post.
  Proof. intros. unfold total. rewrite sum_app_mid. reflexivity. Qed.
  Lemma seed_measure : forall T g l0 l g' n, seed l0 g = (l, g', n) -> total g <= T -> total g' = total g /\ (4 * T + 1) * length l + list_sum (map gm g') <= (4 * T + 1) * length l0 + list_sum (map gm g).
  Proof.
    intros T. induction g as [|G g IH]; intros l0 l g' n H HT; [cbn in H; destruct l0; injection H as <- <- <-; lia|]. destruct l0 as [|c l0]; [cbn in H; injection H as <- <- <-; lia|].
    change (seed (c :: l0) (G :: g)) with (let '(l, r, n) := seed l0 g in (l, deal c G :: r, length (procs G) + n)) in H. destruct (seed l0 g) as [[l1 r] m] eqn:E. injection H as <- <- <-.
    pose proof (total_mid [] G g) as TG. cbn [app] in TG. change (total []) with 0 in TG. destruct (IH _ _ _ _ E) as (H1 & H2); [lia|].
    pose proof (total_mid [] (deal c G) r) as TD. cbn [app] in TD. change (total []) with 0 in TD. assert (LD : length (procs (deal c G)) = length (procs G)) by (cbn; apply map_length). split; [lia|].
    pose proof (sum_app_mid _ gm [] (deal c G) r) as S1. pose proof (sum_app_mid _ gm [] G g) as S2. cbn [app map] in S1, S2. change (list_sum []) with 0 in S1, S2. pose proof (gm_deal c G) as GD. cbn [map length]. rewrite Nat.mul_succ_r. rewrite S1, S2. lia.
  Qed.
  Lemma wm_mid : forall i p1 w p2, gm (mkG i (p1 ++ w :: p2)) = list_sum (map wm p1) + wm w + list_sum (map wm p2).
  Proof. intros. unfold gm. cbn [procs]. apply sum_app_mid. Qed.
  Lemma measure_step : forall s t, step ev s t -> measure t < measure s.
  Proof.
    intros s t ST. destruct ST.
    - unfold measure. cbn [BalModel.gs BalModel.left BalModel.pc]. destruct (seed_measure (total gs) gs cs0 l gs' n H (le_n _)) as (H1 & H2). destruct (0 <? sn + n); rewrite ?total_stop, ?gm_stop, ?H1; lia.
    - unfold receive. cbn [BalModel.left BalModel.recorded BalModel.gs BalModel.finished_cases BalModel.runs BalModel.sent BalModel.received BalModel.more BalModel.ginfo BalModel.procs].
      set (i' := absorb i (length p1) r). set (T := total (pre ++ mkG i (p1 ++ mkW q p (r :: o) :: p2) :: post)).
      assert (HT : forall G, length (procs G) = length (p1 ++ mkW q p o :: p2) -> total (pre ++ G :: post) = T) by (intros G E; unfold T; rewrite !total_mid, E; cbn [BalModel.procs]; rewrite !app_length; reflexivity).
      assert (GM : forall ii, gm (mkG ii (p1 ++ mkW q p o :: p2)) + 2 = gm (mkG i (p1 ++ mkW q p (r :: o) :: p2))) by (intros ii; rewrite !wm_mid; unfold wm; cbn [win wst wout length]; lia).
      assert (LE : length (p1 ++ mkW q p o :: p2) <= T) by (rewrite <- (HT (mkG i (p1 ++ mkW q p o :: p2)) eq_refl), total_mid; cbn [procs]; lia).
      assert (ME : forall pcx l' sn' rc' m' rec' G fin' rn', length (procs G) = length (p1 ++ mkW q p o :: p2) -> (4 * T + 1) * length l' + gm G < (4 * T + 1) * length l + gm (mkG i (p1 ++ mkW q p (r :: o) :: p2)) ->
        forall b : bool, pcx = (if b then Returned else Recv) -> measure (mkSt pcx l' sn' rc' m' rec' (if b then stop_all (pre ++ G :: post) else pre ++ G :: post) fin' rn') < measure (mkSt Recv l sn rc m rec (pre ++ mkG i (p1 ++ mkW q p (r :: o) :: p2) :: post) fin rn)).
      { intros pcx l' sn' rc' m' rec' G fin' rn' EL LL b ->. unfold measure. cbn [BalModel.gs BalModel.left BalModel.pc]. fold T. destruct b.
        - rewrite total_stop, gm_stop, (HT G EL), !sum_app_mid. lia.
        - rewrite (HT G EL), !sum_app_mid. lia. }
      destruct (count i' =? 0); [destruct (0 <? term i'); [|destruct (if m then l else []) as [|c' l'] eqn:L]|].
      + apply ME; [reflexivity| |reflexivity]. pose proof (GM i'). lia.
      + apply ME; [reflexivity| |reflexivity]. pose proof (GM i'). lia.
      + apply ME; [cbn; rewrite map_length; reflexivity| |reflexivity]. assert (l = c' :: l') by (destruct m; [exact L|discriminate]). subst l. rewrite gm_deal. change (gm (renew (mkG i' (p1 ++ mkW q p o :: p2)))) with (gm (mkG i' (p1 ++ mkW q p o :: p2))). change (procs (renew (mkG i' (p1 ++ mkW q p o :: p2)))) with (p1 ++ mkW q p o :: p2). cbn [length]. rewrite Nat.mul_succ_r. pose proof (GM i'). lia.
      + apply ME; [reflexivity| |reflexivity]. pose proof (GM i'). lia.
    - unfold measure. cbn [BalModel.gs BalModel.left BalModel.pc]. rewrite !total_mid, !sum_app_mid, !wm_mid. cbn [procs]. rewrite !app_length. cbn [length]. assert (wm (mkW (Some c :: q) Idle o) = S (wm (mkW q (Busy c) o))) by (unfold wm, list_sum; cbn; lia). lia.
    - unfold measure. cbn [BalModel.gs BalModel.left BalModel.pc]. rewrite !total_mid, !sum_app_mid, !wm_mid. cbn [procs]. rewrite !app_length. cbn [length]. assert (wm (mkW (None :: q) Idle o) = S (wm (mkW q Exited o))) by (unfold wm, list_sum; cbn; lia). lia.
    - unfold measure. cbn [BalModel.gs BalModel.left BalModel.pc]. rewrite !total_mid, !sum_app_mid, !wm_mid. cbn [procs]. rewrite !app_length. cbn [length]. assert (wm (mkW q (Busy c) o) = S (wm (mkW q Idle (o ++ [r])))) by (unfold wm; cbn [win wst wout]; rewrite app_length; cbn; lia). lia.
  Qed.

  (** ** progress *)
  Hypothesis answers : forall c kj, exists r, ev c kj r.
  Lemma busy_steps : forall k c G, g_busy k c G -> exists p1 w p2, procs G = p1 ++ w :: p2 /\ holds c k (length p1) w.
  Proof.
    intros k c G [PG PC]. pose proof (p_count _ _ _ _ _ _ _ PG) as N. pose proof (p_procs _ _ _ _ _ _ _ PG) as P. destruct (active (procs G)) as [|j a] eqn:A; [cbn in N; lia|].
    assert (H : In j (active (procs G))) by (rewrite A; left; reflexivity). apply fmi_in in H. destruct H as (x & w & Hx & Hw). cbn in Hw. unfold active1 in Hw. destruct (load C V w =? 0) eqn:L; [destruct Hw|]. apply Nat.eqb_neq in L.
    destruct (P x w Hx) as [F|F]; [exfalso; apply L; rewrite F; reflexivity|]. apply nth_error_split in Hx. destruct Hx as (p1 & p2 & E & LX). subst x. exists p1, w, p2. auto.
  Qed.
  Lemma progress : forall s, inv s -> (forall t, ~ step ev s t) -> finished s.
  Proof.
    intros s I NS. destruct I as [->|(K & P)]; [exfalso; destruct (seed cs (gs (init (V := V) cs sizes))) as [[l g] n] eqn:E; eapply NS; apply s_start; exact E|]. destruct s as [p l sn rc m rec g fin rn]. cbn [pc] in P. destruct p; [destruct P| |].
    - exfalso. destruct P as (OK & LT). cbn [gs sent received] in *. destruct K as [K1 K2 K3 K4 K5 K6 K7]. cbn [gs sent received] in *.
      assert (B : exists pre G post c, g = pre ++ G :: post /\ g_busy (length pre) c G).
      { assert (N : list_sum (map cnt g) <> 0) by lia. clear - N OK. destruct (Exists_dec (fun G : group => 0 < cnt G) g) as [E|E]; [intros G; apply lt_dec| |].
        - apply Exists_exists in E. destruct E as (G & H & Z). apply In_nth_error in H. destruct H as (j & Hj). pose proof (OK _ _ Hj) as O. apply nth_error_split in Hj. destruct Hj as (pre & post & -> & L). subst j. destruct O as [(O & _)|(c & O)]; [unfold BalProofs2.cnt in Z; lia|]. exists pre, G, post, c. auto.
        - exfalso. apply N. apply zero_sum. apply Forall_forall. intros G HG. destruct (Nat.eq_dec (cnt G) 0) as [Z|Z]; [exact Z|]. exfalso. apply E. apply Exists_exists. exists G. split; [exact HG|lia]. }
      destruct B as (pre & [i ps] & post & c & -> & B). destruct (busy_steps _ _ _ B) as (p1 & w & p2 & E & H). cbn in E. subst ps. destruct H as [ ->|[ ->|(r & _ & ->)]].
      + eapply NS. apply s_take.
      + destruct (answers c (length pre, length p1)) as (r & R). eapply NS. apply s_run. exact R.
      + eapply NS. apply s_recv.
    - destruct P as (_ & T). cbn [gs] in T. split; [reflexivity|]. cbn [gs]. apply Forall_forall. intros G HG. rewrite Forall_forall in T. pose proof (T G HG) as TG. apply Forall_forall. intros w Hw. rewrite Forall_forall in TG. destruct (TG w Hw) as [ ->| ->]; [|reflexivity]. exfalso.
      apply in_split in HG. destruct HG as (pre & post & ->). destruct G as [i ps]. cbn in Hw. apply in_split in Hw. destruct Hw as (p1 & p2 & ->). eapply NS. apply s_exit.
  Qed.

  Definition outcome (s : st) : Prop :=
    finished s /\
    Permutation cs (map case_of (finished_cases s) ++ left s) /\
    Forall (ran_by_group ev sizes) (finished_cases s) /\
    Permutation (runs s) (flat_map runs_of (finished_cases s)) /\
    Forall2 recorded_as (filter nonfatal (finished_cases s)) (recorded s) /\
    (left s <> [] -> sizes <> [] -> exists d, In d (finished_cases s) /\ nonfatal d = false).
  Lemma run_outcome : always_ends (step ev) (init cs sizes) outcome.
  Proof.
    apply (ends_by _ inv outcome measure); [left; reflexivity|exact step_inv|intros s t _; apply measure_step|].
    intros s I NS. pose proof (progress s I NS) as F. split; [exact F|]. destruct I as [->|(K & P)]; [destruct F as [F _]; discriminate|]. destruct F as [F _]. rewrite F in P. destruct P as (Z & _). destruct K as [K1 K2 K3 K4 K5 K6 K7].
    rewrite (zero_cur _ _ _ Z) in K1. rewrite (zero_runs _ _ _ _ Z), app_nil_r in K3. split; [exact K1|]. split; [exact K2|]. split; [exact K3|]. split; [exact K4|]. intros NL NE. destruct (K6 NL) as [K|[_ K]]; [exact K|]. exfalso. destruct (gs s) as [|G g]; [apply NE; symmetry; exact K7|]. apply Forall_inv in K, Z. lia.
  Qed.
  (** the processes of a group never work on different cases *)
  Lemma same_case : forall s, exec (step ev) (init cs sizes) s -> forall G w w' c c', In G (gs s) -> In w (procs G) -> In w' (procs G) -> wst w = Busy c -> wst w' = Busy c' -> c = c'.
  Proof.
    intros s E G w w' c c' HG Hw Hw' B B'. assert (I : inv s) by (eapply exec_inv; [exact step_inv|exact E|left; reflexivity]). destruct I as [->|(K & P)].
    - exfalso. apply init_fresh in HG. rewrite Forall_forall in HG. rewrite (HG _ Hw) in B. discriminate.
    - destruct (pc s); [destruct P| |].
      + destruct P as (OK & _). apply In_nth_error in HG. destruct HG as (k & Hk). destruct (OK _ _ Hk) as [(_ & F & _)|(x & PG & _)]; [rewrite Forall_forall in F; rewrite (F _ Hw) in B; discriminate|].
        pose proof (p_procs _ _ _ _ _ _ _ PG) as PP. apply In_nth_error in Hw. destruct Hw as (j & Hj). apply In_nth_error in Hw'. destruct Hw' as (j' & Hj').
        destruct (PP _ _ Hj) as [ ->|[ ->|[ ->|(r & _ & ->)]]]; cbn in B; try discriminate. destruct (PP _ _ Hj') as [ ->|[ ->|[ ->|(r' & _ & ->)]]]; cbn in B'; try discriminate. congruence.
      + destruct P as (_ & T). rewrite Forall_forall in T. specialize (T _ HG). rewrite Forall_forall in T. destruct (T _ Hw) as [ ->| ->]; discriminate.
  Qed.
End Bal.

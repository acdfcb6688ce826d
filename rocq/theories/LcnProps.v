(** C113 list_connections. *)
From Coq Require Import Permutation.
From Verif Require Import Base ExprModel LcnModel LcnSpec LcnProofs.
Local Open Scope list_scope.

Section Loops.
  Variables punits uunits : txt -> unit_.
  Variable prom : txt -> txt.
  Variable conns : list (txt * txt).
  Variable rel : txt.
  Hypothesis Hrel : rel = [] \/ exists c r, rel = c :: r /\ c <> "("%char.
  Notation tcell := (target_cell punits prom rel).
  Definition okd (d : dict) : Prop := NoDup (map fst d) /\ filled d /\ (forall e, In e d -> fine uunits (fst e)).
  Lemma append_okd : forall d s x, okd d -> fine uunits s -> okd (append_to d s x).
  Proof.
    intros d s x (N & F & G) Hs. split; [apply append_nodup; exact N|]. split; [apply append_filled; exact F|]. intros e He. apply (in_map fst) in He. apply append_keys in He. destruct He as [->|He]; [exact Hs|].
    apply in_map_iff in He. destruct He as (e' & <- & He). apply G. exact He.
  Qed.
  Lemma iter_append : forall n d s x, okd d -> fine uunits s ->
    okd (Nat.iter n (fun d => append_to d s x) d) /\ Permutation (flat (Nat.iter n (fun d => append_to d s x) d)) (repeat (s, x) n ++ flat d) /\
    (forall k, In k (map fst (Nat.iter n (fun d => append_to d s x) d)) <-> (n <> 0%nat /\ k = s) \/ In k (map fst d)).
  Proof.
    intros n d s x O Hs. induction n as [|n (I1 & I2 & I3)]; [split; [exact O|]; split; [apply Permutation_refl|]; cbn; intuition congruence|]. cbn [Nat.iter nat_rect]. fold (Nat.iter n (fun d => append_to d s x) d).
    change (nat_rect _ d (fun _ : nat => _) n) with (Nat.iter n (fun d => append_to d s x) d). split; [apply append_okd; assumption|]. split.
    - eapply perm_trans; [apply Permutation_sym; apply append_flat|]. cbn [repeat app]. apply perm_skip. exact I2.
    - intros k. rewrite append_keys, I3. split; [intros [->|[[_ ->]|H]]; [left; split; [discriminate|reflexivity]|left; split; [discriminate|reflexivity]|right; exact H]|]. intros [[_ ->]|H]; [left; reflexivity|right; right; exact H].
  Qed.
  Lemma conn_loop_ok : forall keep cs d, okd d -> (forall t s, In (t, s) cs -> good s /\ has_text (uunits s) /\ has_text (punits t)) ->
    exists d', conn_loop punits prom keep rel cs d = Ok d' /\ okd d' /\
      Permutation (flat d') (flat d ++ flat_map (fun c => repeat (snd c, tcell (fst c) (Some (snd c))) (keep (fst c) (snd c))) cs) /\
      (forall k, In k (map fst d') <-> In k (map fst d) \/ exists t, In (t, k) cs /\ keep t k <> 0%nat).
  Proof.
    intros keep. induction cs as [|[t s] cs IH]; intros d O H.
    - exists d. split; [reflexivity|]. split; [exact O|]. split; [cbn; rewrite app_nil_r; apply Permutation_refl|]. intros k. split; [left; assumption|]. intros [F|(t & [] & _)]. exact F.
    - cbn [conn_loop]. destruct (H t s (or_introl eq_refl)) as (G & Hu & Hp). specialize (fun d O => IH d O (fun a b Hab => H a b (or_intror Hab))). destruct (Nat.eqb_spec (keep t s) 0) as [Ek|Ek].
      + destruct (IH d O) as (d' & E & O' & P & K). exists d'. split; [exact E|]. split; [exact O'|]. split; [cbn [flat_map fst snd]; rewrite Ek; exact P|]. intros k. rewrite K. split; [intros [F|(t' & F & G')]; [left; exact F|right; exists t'; split; [right; exact F|exact G']]|].
        intros [F|(t' & [F|F] & G')]; [left; exact F| |right; exists t'; split; assumption]. injection F as -> ->. contradiction.
      + rewrite (param_str_ok punits prom rel t (Some s) Hp Hrel). cbn [bind]. assert (Fs : fine uunits s) by (right; split; assumption). destruct (iter_append (keep t s) d s (tcell t (Some s)) O Fs) as (O1 & P1 & K1).
        destruct (IH _ O1) as (d' & E & O' & P & K). exists d'. split; [exact E|]. split; [exact O'|]. split.
        * eapply perm_trans; [exact P|]. cbn [flat_map fst snd]. rewrite app_assoc. apply Permutation_app_tail. eapply perm_trans; [exact P1|]. apply Permutation_app_comm.
        * intros k. rewrite K, K1. split.
          -- intros [[[_ ->]|F]|(t' & F & G')]; [right; exists t; split; [left; reflexivity|exact Ek]|left; exact F|right; exists t'; split; [right; exact F|exact G']].
          -- intros [F|(t' & [F|F] & G')]; [left; right; exact F| |right; exists t'; split; assumption]. injection F as -> ->. left. left. split; [exact Ek|reflexivity].
  Qed.
  Lemma conn_loop_none : forall keep cs t s, In (t, s) cs -> keep t s <> 0%nat -> punits t = UnitNone -> forall d, conn_loop punits prom keep rel cs d = Err TypeError.
  Proof.
    intros keep. induction cs as [|[t' s'] cs IH]; intros t s Hin Hk Hu d; [contradiction|]. cbn [conn_loop]. destruct Hin as [E|Hin].
    - injection E as -> ->. destruct (Nat.eqb_spec (keep t s) 0) as [|_]; [contradiction|]. unfold param_str. rewrite Hu. reflexivity.
    - destruct (Nat.eqb (keep t' s') 0); [apply (IH t s Hin Hk Hu)|]. destruct (param_str punits prom t' (Some s') rel) as [x|e] eqn:E; cbn [bind]; [apply (IH t s Hin Hk Hu)|].
      unfold param_str in E. destruct (punits t') as [| |[|]]; cbn in E; try (destruct (negb (teqb rel []) && _); discriminate). congruence.
  Qed.
  Lemma param_loop_ok : forall ps d, okd d -> (forall p, In p ps -> has_text (punits p)) ->
    exists d', param_loop punits prom conns rel ps d = Ok d' /\ okd d' /\
      Permutation (flat d') (flat d ++ map (fun p => (unconnected_, tcell p None)) (filter (fun p => negb (haskey conns p)) ps)) /\
      (forall k, k <> unconnected_ -> In k (map fst d') <-> In k (map fst d)).
  Proof.
    induction ps as [|p ps IH]; intros d O H.
    - exists d. split; [reflexivity|]. split; [exact O|]. split; [cbn; rewrite app_nil_r; apply Permutation_refl|]. intros k _. reflexivity.
    - cbn [param_loop filter]. specialize (fun d O => IH d O (fun a Ha => H a (or_intror Ha))). destruct (haskey conns p); cbn [negb].
      + apply IH. exact O.
      + rewrite (param_str_ok punits prom rel p None (H p (or_introl eq_refl)) Hrel). cbn [bind]. assert (O1 : okd (append_to d unconnected_ (tcell p None))) by (apply append_okd; [exact O|left; reflexivity]).
        destruct (IH _ O1) as (d' & E & O' & P & K). exists d'. split; [exact E|]. split; [exact O'|]. split.
        * eapply perm_trans; [exact P|]. cbn [map]. eapply perm_trans; [apply Permutation_app_tail; apply Permutation_sym; apply append_flat|]. cbn [app]. apply Permutation_middle.
        * intros k Hk. rewrite (K k Hk), append_keys. intuition congruence.
  Qed.
  Lemma unknown_loop_ok : forall us d, okd d -> NoDup us -> (forall u, In u us -> good u /\ has_text (uunits u)) ->
    okd (unknown_loop us d) /\ Permutation (flat (unknown_loop us d)) (flat d ++ map (fun u => (u, unconnected_)) (filter (fun u => negb (haskey d u)) us)).
  Proof.
    induction us as [|u us IH]; intros d O N H; [cbn; rewrite app_nil_r; split; [exact O|apply Permutation_refl]|]. cbn [unknown_loop filter]. inversion N as [|? ? N1 N2]; subst. destruct (haskey d u) eqn:E; cbn [negb].
    - apply IH; [exact O|exact N2|intros a Ha; apply H; right; exact Ha].
    - assert (Hn : ~ In u (map fst d)) by (intros F; apply haskey_iff in F; congruence). destruct O as (O1 & O2 & O3). destruct (H u (or_introl eq_refl)) as (G & Hu).
      assert (O' : okd (put d u [unconnected_])).
      { rewrite (put_new d u _ Hn). split; [rewrite map_app; cbn [map fst]; apply NoDup_Add with (a := u) (l := map fst d); [|split; assumption]; rewrite <- (app_nil_r (map fst d)) at 1; apply Add_app|].
        split; [intros e He; apply in_app_or in He; destruct He as [He|[<-|[]]]; [apply O2; exact He|discriminate]|]. intros e He. apply in_app_or in He. destruct He as [He|[<-|[]]]; [apply O3; exact He|right; split; assumption]. }
      destruct (IH (put d u [unconnected_]) O' N2 (fun a Ha => H a (or_intror Ha))) as (I1 & I2). split; [exact I1|]. eapply perm_trans; [exact I2|]. rewrite (put_new d u _ Hn). unfold flat at 1. rewrite flat_map_app. cbn [flat_map fst snd map app]. rewrite <- app_assoc. cbn [app].
      apply Permutation_app_head. apply perm_skip. replace (filter (fun u0 => negb (haskey (d ++ [(u, [unconnected_])]) u0)) us) with (filter (fun u0 => negb (haskey d u0)) us); [apply Permutation_refl|].
      clear - N1. induction us as [|a us IH]; [reflexivity|]. cbn [filter]. rewrite IH by (intros F; apply N1; right; exact F). replace (haskey (d ++ [(u, [unconnected_])]) a) with (haskey d a); [reflexivity|].
      unfold haskey. rewrite existsb_app. cbn. destruct (teqb_spec u a) as [->|]; [exfalso; apply N1; left; reflexivity|]. rewrite orb_false_r. reflexivity.
  Qed.
End Loops.
Lemma scope_below : forall path n, startswith n (scope_of path) = true <-> below path n.
Proof.
  intros path n. rewrite startswith_iff. unfold below, scope_of. destruct path as [|c p]; [split; [left; reflexivity|intros _; exists n; reflexivity]|]. split.
  - intros (r & ->). right. exists r. rewrite <- app_assoc. reflexivity.
  - intros [F|(r & ->)]; [discriminate|]. exists r. rewrite <- app_assoc. reflexivity.
Qed.
Lemma okd_nil : forall uunits, okd uunits [].
Proof. intros. split; [constructor|]. split; [intros e []|intros e []]. Qed.
Lemma cell_of_good : forall uunits prom rel s, good s -> cell_of uunits prom rel s = source_cell uunits prom rel s.
Proof. intros. unfold cell_of. destruct (text_dec s unconnected_) as [E|_]; [destruct (good_not_un s H E)|reflexivity]. Qed.
Lemma filter_repeat : forall {A B} (f : A -> bool) (g : A -> B) l, flat_map (fun c => repeat (g c) (if f c then 1 else 0)%nat) l = map g (filter f l).
Proof. intros A B f g. induction l as [|a l IH]; [reflexivity|]. cbn. destruct (f a); cbn; [f_equal|]; exact IH. Qed.

(** The report of one system: every connection with an end below the system once, every
    param without a source below "{unconnected}" and every unknown without a target with it;
    sources and targets in order. *)
Theorem C113_system : forall punits uunits prom conns unconnected s rel,
  rel = [] \/ (exists c r, rel = c :: r /\ c <> "("%char) ->
  (forall t x, In (t, x) conns -> good x /\ has_text (uunits x) /\ has_text (punits t)) ->
  (forall p, In p (s_params s) -> has_text (punits p)) ->
  (forall u, In u (s_unknowns s) -> good u /\ has_text (uunits u) /\ below (s_path s) u) -> NoDup (s_unknowns s) ->
  exists items kept open free,
    list_conns punits uunits prom conns unconnected s rel = Ok items /\ ordered None items /\
    (forall c, kept c = true <-> touching (s_path s) c) /\
    (forall p, open p = true <-> unconnected = true /\ ~ In p (map fst conns)) /\
    (forall u, free u = true <-> unconnected = true /\ ~ In u (map snd conns)) /\
    forall cur, Permutation (rows cur items)
      (map (conn_row punits uunits prom rel) (filter kept conns) ++
       map (fun p => (unconnected_, target_cell punits prom rel p None)) (filter open (s_params s)) ++
       map (fun u => (source_cell uunits prom rel u, unconnected_)) (filter free (s_unknowns s))).
Proof.
  intros punits uunits prom conns unconnected s rel Hrel Hc Hp Hu N. unfold list_conns. set (scope := scope_of (s_path s)).
  set (kept := fun c : txt * txt => startswith (snd c) scope || startswith (fst c) scope).
  destruct (conn_loop_ok punits uunits prom rel Hrel (fun tgt src => if startswith src scope || startswith tgt scope then 1%nat else 0%nat) conns [] (okd_nil uunits) Hc) as (d & E & O & P & K). rewrite E. cbn [bind].
  assert (Ek : forall c, kept c = true <-> touching (s_path s) c) by (intros c; unfold kept, touching; rewrite orb_true_iff; unfold scope; rewrite !scope_below; reflexivity).
  assert (P' : Permutation (flat d) (map (fun c => (snd c, target_cell punits prom rel (fst c) (Some (snd c)))) (filter kept conns))).
  { eapply perm_trans; [exact P|]. cbn [flat flat_map app]. rewrite <- (filter_repeat kept). apply Permutation_refl. }
  assert (C1 : map (fun r => (cell_of uunits prom rel (fst r), snd r)) (map (fun c => (snd c, target_cell punits prom rel (fst c) (Some (snd c)))) (filter kept conns)) = map (conn_row punits uunits prom rel) (filter kept conns)).
  { rewrite map_map. apply map_ext_in. intros [t x] Hin. apply filter_In in Hin. destruct Hin as [Hin _]. cbn [fst snd]. unfold conn_row. cbn [fst snd]. rewrite cell_of_good; [reflexivity|]. apply (Hc t x Hin). }
  destruct unconnected.
  - destruct (param_loop_ok punits uunits prom conns rel Hrel (s_params s) d O Hp) as (d1 & E1 & O1 & P1 & K1). rewrite E1. cbn [bind].
    destruct (unknown_loop_ok uunits (s_unknowns s) d1 O1 N) as (O2 & P2); [intros u Hin; destruct (Hu u Hin) as (G & H & _); split; assumption|].
    destruct O2 as (A1 & A2 & A3). destruct (write_ok uunits prom rel _ A1 A2 A3) as (items & Ew & Ow & Pw). set (fr := fun u : txt => negb (existsb (fun c : txt * txt => teqb (snd c) u) conns)). exists items, kept, (fun p => negb (haskey conns p)), fr.
    split; [exact Ew|]. split; [exact Ow|]. split; [exact Ek|]. split; [intros p; rewrite negb_true_iff, <- haskey_iff; destruct (haskey conns p); intuition congruence|].
    assert (Fr : forall u, existsb (fun c : txt * txt => teqb (snd c) u) conns = true <-> In u (map snd conns)).
    { intros u. rewrite existsb_exists, in_map_iff. split; intros (c & X & Y); exists c; [destruct (teqb_spec (snd c) u); [split; assumption|discriminate]|split; [exact Y|rewrite X; apply teqb_refl]]. }
    split; [intros u; unfold fr; rewrite negb_true_iff; split; [intros X; split; [reflexivity|intros Y; apply Fr in Y; pose proof (eq_trans (eq_sym X) Y); discriminate]|intros [_ X]; apply not_true_is_false; intros Y; apply X; apply Fr; exact Y]|].
    intros cur. eapply perm_trans; [apply Pw|]. eapply perm_trans; [apply Permutation_map; exact P2|]. rewrite map_app. eapply perm_trans; [apply Permutation_app_tail; apply Permutation_map; exact P1|]. rewrite map_app. rewrite <- app_assoc.
    apply Permutation_app; [eapply perm_trans; [apply Permutation_map; exact P'|]; rewrite C1; apply Permutation_refl|]. apply Permutation_app.
    + rewrite map_map. cbn [fst snd]. apply Permutation_refl.
    + rewrite map_map. cbn [fst snd]. replace (filter (fun u => negb (haskey d1 u)) (s_unknowns s)) with (filter fr (s_unknowns s)).
      * assert (X : forall u, In u (filter fr (s_unknowns s)) -> good u) by (intros u Hin; apply filter_In in Hin; apply (Hu u); apply Hin).
        revert X. generalize (filter fr (s_unknowns s)). intros l X. rewrite (map_ext_in _ (fun u => (source_cell uunits prom rel u, unconnected_))); [apply Permutation_refl|]. intros u Hin. rewrite cell_of_good; [reflexivity|apply X; exact Hin].
      * apply filter_ext_in. intros u Hin. unfold fr. f_equal. destruct (Hu u Hin) as (G & _ & B). apply eq_true_iff_eq. rewrite Fr, haskey_iff. rewrite (K1 u (good_not_un u G)), K. split.
        -- intros H. right. apply in_map_iff in H. destruct H as ([t x] & Ex & Hx). cbn in Ex. subst x. exists t. split; [exact Hx|]. apply scope_below in B. fold scope in B. rewrite B. discriminate.
        -- intros [[]|(t & Ht & _)]. apply in_map_iff. exists (t, u). split; [reflexivity|exact Ht].
  - destruct O as (A1 & A2 & A3). destruct (write_ok uunits prom rel _ A1 A2 A3) as (items & Ew & Ow & Pw). exists items, kept, (fun _ => false), (fun _ => false).
    split; [exact Ew|]. split; [exact Ow|]. split; [exact Ek|]. split; [intuition discriminate|]. split; [intuition discriminate|]. intros cur. eapply perm_trans; [apply Pw|]. eapply perm_trans; [apply Permutation_map; exact P'|]. rewrite C1.
    assert (Fn : forall l : list txt, filter (fun _ => false) l = []) by (induction l; [reflexivity|assumption]). rewrite !Fn. cbn [map app]. rewrite app_nil_r. apply Permutation_refl.
Qed.
Print Assumptions C113_system.

(** Grouped by component: the report of every component, each below its path. *)
Theorem C113_components : forall punits uunits prom conns unconnected comps,
  (forall c, In c comps -> exists items, list_conns punits uunits prom conns unconnected c (s_path c) = Ok items) ->
  exists items, by_comp punits uunits prom conns unconnected comps = Ok items /\
    forall c, In c comps -> exists x b y, items = x ++ Head (s_path c) :: b ++ y /\ list_conns punits uunits prom conns unconnected c (s_path c) = Ok b /\ (y = [] \/ exists p z, y = Head p :: z).
Proof.
  intros punits uunits prom conns unconnected. induction comps as [|c comps IH]; intros H; [exists []; split; [reflexivity|intros c []]|]. cbn [by_comp]. destruct (H c (or_introl eq_refl)) as (a & Ea). rewrite Ea. cbn [bind].
  destruct IH as (b & Eb & Hb); [intros x Hx; apply H; right; exact Hx|]. rewrite Eb. cbn [bind]. eexists. split; [reflexivity|]. intros x [<-|Hx].
  - exists [], a, b. split; [reflexivity|]. split; [exact Ea|]. destruct comps as [|c' comps]; [injection Eb as <-; left; reflexivity|]. cbn [by_comp] in Eb. destruct (list_conns _ _ _ _ _ c' _); cbn [bind] in Eb; [|discriminate]. destruct (by_comp _ _ _ _ _ comps); cbn [bind] in Eb; [|discriminate]. injection Eb as <-. right. eauto.
  - destruct (Hb x Hx) as (p & q & y & -> & Eq & Hy). exists (Head (s_path c) :: a ++ p), q, y. split; [cbn [app]; rewrite <- app_assoc; reflexivity|]. split; assumption.
Qed.
Print Assumptions C113_components.

(** For one variable or pattern: as often as ends of the connection are among the names. *)
Definition isin (n : txt) (a : list txt) : nat := if in_dec text_dec n a then 1%nat else 0%nat.
Lemma count_ends : forall (a : list txt) (tgt src : txt), NoDup a -> length (filter (fun n => teqb tgt n || teqb src n) a) = (isin tgt a + if text_dec tgt src then 0 else isin src a)%nat.
Proof.
  assert (Z : forall x a, ~ In x a -> isin x a = 0%nat) by (intros x a H; unfold isin; destruct (in_dec text_dec x a); [contradiction|reflexivity]).
  assert (O : forall x a, In x a -> isin x a = 1%nat) by (intros x a H; unfold isin; destruct (in_dec text_dec x a); [reflexivity|contradiction]).
  assert (S : forall x y a, x <> y -> isin x (y :: a) = isin x a) by (intros x y a H; unfold isin; destruct (in_dec text_dec x (y :: a)) as [[F|F]|F]; destruct (in_dec text_dec x a); try reflexivity; [congruence|contradiction|exfalso; apply F; right; assumption]).
  induction a as [|n a IH]; intros tgt src N; [cbn; unfold isin; cbn; destruct (text_dec tgt src); reflexivity|]. inversion N as [|? ? N1 N2]; subst. cbn [filter]. specialize (IH tgt src N2).
  destruct (teqb_spec tgt n) as [->|Ht]; cbn [orb].
  - cbn [length]. rewrite IH, (Z n a N1), (O n (n :: a)) by (left; reflexivity). destruct (text_dec n src) as [|Hs]; [reflexivity|]. rewrite (S src n a); [reflexivity|congruence].
  - destruct (teqb_spec src n) as [->|Hs]; cbn [length]; rewrite IH, (S tgt n a Ht).
    + destruct (text_dec tgt n) as [E|_]; [contradiction|]. rewrite (Z n a N1), (O n (n :: a)) by (left; reflexivity). lia.
    + destruct (text_dec tgt src) as [E|_]; [reflexivity|]. rewrite (S src n a Hs). reflexivity.
Qed.
Theorem C113_variable : forall punits uunits prom conns fnm all_names seen name,
  (forall t x, In (t, x) conns -> good x /\ has_text (uunits x) /\ has_text (punits t)) ->
  exists names, NoDup names /\
    (forall n, In n names <-> (In name all_names /\ n = name) \/ (~ In name all_names /\ exists v, In (v, n) seen /\ fnm v name = true)) /\
    (names = [] -> list_var punits uunits prom conns fnm all_names seen name = Err KeyError) /\
    (names <> [] -> exists items, list_var punits uunits prom conns fnm all_names seen name = Ok items /\ ordered None items /\
       forall cur, Permutation (rows cur items)
         (flat_map (fun c => repeat (conn_row punits uunits prom [] c) (isin (fst c) names + if text_dec (fst c) (snd c) then 0 else isin (snd c) names)) conns)).
Proof.
  intros punits uunits prom conns fnm all_names seen name Hc. exists (absnames fnm all_names seen name). assert (Nd : NoDup (absnames fnm all_names seen name)).
  { unfold absnames. destruct (existsb (teqb name) all_names); [repeat constructor; intros []|apply NoDup_nodup]. }
  split; [exact Nd|]. split; [|split].
  - intros n. unfold absnames. assert (Ea : existsb (teqb name) all_names = true <-> In name all_names).
    { rewrite existsb_exists. split; [intros (x & Hx & E); destruct (teqb_spec name x); [subst; exact Hx|discriminate]|intros H; exists name; split; [exact H|apply teqb_refl]]. }
    destruct (existsb (teqb name) all_names).
    + split; [intros [<-|[]]; left; split; [apply Ea; reflexivity|reflexivity]|]. intros [[_ ->]|[F _]]; [left; reflexivity|exfalso; apply F; apply Ea; reflexivity].
    + rewrite nodup_In, in_map_iff. split.
      * intros ([v m] & E & H). cbn in E. subst m. apply filter_In in H. right. split; [intros F; apply Ea in F; discriminate|]. exists v. exact H.
      * intros [[F _]|(_ & v & H)]; [apply Ea in F; discriminate|]. exists (v, n). split; [reflexivity|]. apply filter_In. exact H.
  - intros E. unfold list_var. rewrite E. reflexivity.
  - intros Hne. unfold list_var. destruct (absnames fnm all_names seen name) as [|n0 l0] eqn:Ea; [contradiction|]. rewrite <- Ea in *. 
    destruct (conn_loop_ok punits uunits prom [] (or_introl eq_refl) (fun tgt src => length (filter (fun n => teqb tgt n || teqb src n) (absnames fnm all_names seen name))) conns [] (okd_nil uunits) Hc) as (d & E & (A1 & A2 & A3) & P & K).
    rewrite E. cbn [bind]. destruct (write_ok uunits prom [] d A1 A2 A3) as (items & Ew & Ow & Pw). exists items. split; [exact Ew|]. split; [exact Ow|]. intros cur. eapply perm_trans; [apply Pw|]. eapply perm_trans; [apply Permutation_map; exact P|].
    cbn [flat flat_map app]. clear - Nd Hc. induction conns as [|[t x] cs IH]; [apply perm_nil|]. cbn [flat_map fst snd]. rewrite map_app. apply Permutation_app; [|apply IH; intros t' x' H; apply Hc; right; exact H].
    rewrite (count_ends _ t x Nd). destruct (Hc t x (or_introl eq_refl)) as (G & _). assert (M : forall (r : txt * txt) k, map (fun r => (cell_of uunits prom [] (fst r), snd r)) (repeat r k) = repeat (cell_of uunits prom [] (fst r), snd r) k) by (intros r k; induction k as [|k IHk]; [reflexivity|cbn; f_equal; exact IHk]).
    rewrite M. cbn [fst snd]. rewrite (cell_of_good uunits prom [] x G). apply Permutation_refl.
Qed.
Print Assumptions C113_variable.

(** So a connection both ends of which match a pattern is listed twice. *)
Theorem C113_once_refuted : forall punits uunits prom t x fnm seen name vt vx,
  good x -> has_text (uunits x) -> has_text (punits t) -> t <> x -> In (vt, t) seen -> In (vx, x) seen -> fnm vt name = true -> fnm vx name = true ->
  exists items, list_var punits uunits prom [(t, x)] fnm [] seen name = Ok items /\
    forall cur, Permutation (rows cur items) [conn_row punits uunits prom [] (t, x); conn_row punits uunits prom [] (t, x)].
Proof.
  intros punits uunits prom t x fnm seen name vt vx G Hu Hp D It Ix Ft Fx. destruct (C113_variable punits uunits prom [(t, x)] fnm [] seen name) as (names & Nd & Hn & _ & H).
  { intros t' x' [E|[]]. injection E as <- <-. repeat split; try assumption; apply G. }
  assert (Nt : In t names) by (apply Hn; right; split; [intros []|exists vt; split; assumption]). assert (Nx : In x names) by (apply Hn; right; split; [intros []|exists vx; split; assumption]).
  destruct H as (items & E & _ & P); [intros ->; contradiction|]. exists items. split; [exact E|]. intros cur. eapply perm_trans; [apply P|]. cbn [flat_map fst snd]. rewrite app_nil_r. destruct (text_dec t x); [contradiction|].
  unfold isin. destruct (in_dec text_dec t names); [|contradiction]. destruct (in_dec text_dec x names); [|contradiction]. apply Permutation_refl.
Qed.
Print Assumptions C113_once_refuted.

(** units=None for a connected param ends every report of a system it concerns. *)
Theorem C113_units_refuted : forall punits uunits prom conns unconnected s rel t x, In (t, x) conns -> touching (s_path s) (t, x) -> punits t = UnitNone ->
  list_conns punits uunits prom conns unconnected s rel = Err TypeError.
Proof.
  intros punits uunits prom conns unconnected s rel t x Hin T Hu. unfold list_conns. rewrite (conn_loop_none punits prom rel _ conns t x Hin); [reflexivity| |exact Hu].
  destruct T as [T|T]; apply scope_below in T; cbn [fst snd] in T; rewrite T; [discriminate|]. rewrite orb_true_r. discriminate.
Qed.
Print Assumptions C113_units_refuted.

(** The cells tell the variables apart. *)
Lemma rtrim_tail : forall u, exists n, u = rtrim u ++ repeat space n.
Proof.
  intros u. unfold rtrim. assert (H : forall l, exists n, l = repeat space n ++ trim_left l).
  { induction l as [|c l (n & IH)]; [exists 0%nat; reflexivity|]. cbn. unfold is_space. destruct (Ascii.eqb_spec c space) as [->|]; [exists (S n); cbn; f_equal; exact IH|exists 0%nat; reflexivity]. }
  destruct (H (rev u)) as (n & E). exists n. rewrite <- (rev_involutive u) at 1. rewrite E at 1. rewrite rev_app_distr. f_equal. clear. induction n as [|n IH]; [reflexivity|]. cbn. rewrite IH. clear. induction n as [|n IH]; [reflexivity|]. cbn. f_equal. exact IH.
Qed.
Theorem C113_cells : forall punits uunits prom rel a b s s', good a -> good b ->
  (target_cell punits prom rel a s = target_cell punits prom rel b s' -> a = b) /\ (source_cell uunits prom rel a = source_cell uunits prom rel b -> a = b).
Proof.
  intros punits uunits prom rel a b s s' Ga Gb. split; intros E; apply (shown_inj rel a b Ga Gb).
  - unfold target_cell, words in E. exact (word_inj _ _ _ _ (shown_nospace rel a Ga) (shown_nospace rel b Gb) E).
  - unfold source_cell in E. set (u := words (shown rel a) _ _) in E. set (v := words (shown rel b) _ _) in E. destruct (rtrim_tail u) as (n & Eu). destruct (rtrim_tail v) as (m & Ev).
    assert (X : u ++ repeat space m = v ++ repeat space n) by (rewrite Eu, Ev, E, <- !app_assoc, <- !repeat_app, (Nat.add_comm n m); reflexivity).
    unfold u, v, words in X. rewrite <- !app_assoc in X. cbn [app] in X. exact (word_inj _ _ _ _ (shown_nospace rel a Ga) (shown_nospace rel b Gb) X).
Qed.
Print Assumptions C113_cells.

(** A component "c" with a param from "p.x", one without a source, and an unknown. *)
Definition ex_pu (n : txt) : unit_ := if teqb n (t_ "c.a") then Unit_ (t_ "ft") else NoUnit.
Definition ex_prom (n : txt) : txt := if teqb n (t_ "c.a") then t_ "x" else if teqb n (t_ "p.x") then t_ "x" else n.
Definition ex_sys := mkSys (t_ "c") [t_ "c.a"; t_ "c.b"] [t_ "c.y"].
Example C113_ex :
  (forall t x, In (t, x) [(t_ "c.a", t_ "p.x")] -> good x /\ has_text NoUnit /\ has_text (ex_pu t)) /\
  (forall u, In u (s_unknowns ex_sys) -> good u /\ has_text NoUnit /\ below (s_path ex_sys) u) /\ NoDup (s_unknowns ex_sys) /\
  list_conns ex_pu (fun _ => NoUnit) ex_prom [(t_ "c.a", t_ "p.x")] true ex_sys (t_ "c") =
    Ok [Line (t_ ".y             ") (t_ "{unconnected}"); Line (t_ "p.x (x)        ") (t_ ".a (*) [ft]"); Line (t_ "{unconnected}  ") (t_ ".b  ")].
Proof.
  assert (G : forall c r, ~ In space (c :: r) -> c <> "."%char -> c <> "{"%char -> good (c :: r)) by (intros c r H1 H2 H3; split; [exact H1|exists c, r; repeat split; assumption]).
  split; [intros t x [E|[]]; injection E as <- <-; split; [apply G; [cbn; intuition discriminate|discriminate|discriminate]|split; discriminate]|].
  split; [intros u [<-|[]]; split; [apply G; [cbn; intuition discriminate|discriminate|discriminate]|split; [discriminate|right; exists (t_ "y"); reflexivity]]|]. split; [repeat constructor; intros []|vm_compute; reflexivity].
Qed.

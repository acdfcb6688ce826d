(** C112 Memory of the derivative vectors. *)
From Verif Require Import Base BaseFacts ShmModel ShmSpec ShmProofs.
Local Open Scope nat_scope.
Local Open Scope list_scope.

Lemma separate_weaken : forall {K} n (mem mem' : K -> Prop) size cells, (forall k, mem' k -> mem k) -> separate n mem size cells -> separate n mem' size cells.
Proof. intros K n mem mem' size cells H [S1 S2]. split; [intros k Hk; apply S1; apply H; exact Hk|intros k l r s Hk Hl; apply S2; apply H; assumption]. Qed.
Lemma size_of_in : forall l m, NoDup (map v_path l) -> In m l -> size_of l (v_path m) = v_size m.
Proof.
  intros l m N H. unfold size_of. induction l as [|x l IH]; [contradiction|]. inversion N as [|? ? N1 N2]; subst. cbn. destruct (String.eqb (v_path m) (v_path x)) eqn:E.
  - apply String.eqb_eq in E. destruct H as [->|H]; [reflexivity|]. exfalso. apply N1. rewrite <- E. apply in_map. exact H.
  - destruct H as [->|H]; [rewrite String.eqb_refl in E; discriminate|]. apply IH; assumption.
Qed.

(** dunknowns and dresids: within one solve, which is that of None or that of one group of
    variables of interest, every unknown of every vector has cells of its own, as many as
    its size. *)
Theorem C112_unknowns : forall tlg rel groups udict g,
  NoDup (map v_path udict) -> NoDup (concat groups) -> (forall v, In v (concat groups) -> sget rel v <> None) -> together groups tlg g ->
  separate (du_size tlg rel groups udict)
    (fun k => In (fst k) g /\ exists m, In m udict /\ v_path m = snd k /\ is_relevant rel (fst k) (v_top m) = true /\ v_pbo m = false /\ v_remote m = false)
    (fun k => size_of udict (snd k))
    (fun k => okv (du_region true tlg rel groups udict (fst k) (snd k))).
Proof.
  intros tlg rel groups udict g N Ng R T. destruct (shared_ranges tlg rel groups None udict g Ng R T) as (n & offs & E & off & Ho & Rg).
  unfold du_size. rewrite E. eapply separate_weaken; [|apply (separate_lays n g (need rel (metas_of None udict)) off (src_adv rel) (src_put rel) udict _ _ Rg N)].
  - intros [v path] [Hv (m & Hm & Ep & H1 & H2 & H3)]. cbn [fst snd] in *. split; [exact Hv|]. exists m. split; [exact Hm|]. split; [exact Ep|]. unfold src_put. rewrite H1, H2, H3. reflexivity.
  - intros v Hv. apply src_need.
  - intros v path Hv. cbn [fst snd]. unfold du_region. rewrite E. cbn [bind]. rewrite (Ho v Hv). cbn [bind]. rewrite src_lay. destruct (lay _ _ 0 udict) as [dat e]. reflexivity.
  - intros v m Hv Hm Pm. cbn [snd]. rewrite (size_of_in _ _ N Hm). unfold src_adv. unfold src_put in Pm. rewrite Pm. reflexivity.
Qed.
Print Assumptions C112_unknowns.

(** dparams of a group: the same for the params it owns, if params and sources agree. *)
Theorem C112_params : forall tlg rel groups conns my pdict g,
  NoDup (map v_path pdict) -> NoDup (concat groups) -> (forall v, In v (concat groups) -> sget rel v <> None) -> together groups tlg g ->
  (forall m, In m pdict -> elem (v_path m) my = true -> exists c, conns (v_path m) = Some c /\ agrees m c) ->
  separate (dp_size tlg rel groups my pdict)
    (fun k => In (fst k) g /\ exists m c, In m pdict /\ v_path m = snd k /\ elem (v_path m) my = true /\ is_relevant rel (fst k) (v_top m) = true /\ v_remote m = false /\ conns (v_path m) = Some c /\ c_pbo c = false)
    (fun k => size_of pdict (snd k))
    (fun k => okv (dp_region true tlg rel groups conns my pdict (fst k) (snd k))).
Proof.
  intros tlg rel groups conns my pdict g N Ng R T Ag. destruct (shared_ranges tlg rel groups (Some my) pdict g Ng R T) as (n & offs & E & off & Ho & Rg).
  assert (Cn : forall m, In m pdict -> elem (v_path m) my = true -> conns (v_path m) <> None) by (intros m Hm He; destruct (Ag m Hm He) as (c & -> & _); discriminate).
  assert (Ag' : forall m c, In m pdict -> elem (v_path m) my = true -> conns (v_path m) = Some c -> agrees m c) by (intros m c Hm He Hc; destruct (Ag m Hm He) as (c' & Hc' & A); congruence).
  set (pdict1 := map (upd conns my) pdict).
  assert (P1 : map (fun m => if is_relevant rel None (v_top m) then upd conns my m else m) pdict = pdict1) by reflexivity.
  assert (Np : map v_path pdict1 = map v_path pdict) by (unfold pdict1; rewrite map_map; apply map_ext; intros m; apply upd_fields).
  assert (Cn1 : forall m, In m pdict1 -> elem (v_path m) my = true -> conns (v_path m) <> None).
  { intros m Hm He. apply in_map_iff in Hm. destruct Hm as (m0 & <- & Hm). destruct (upd_fields conns my m0) as (Ep & _). rewrite Ep in *. apply Cn; assumption. }
  assert (Adv : forall v m, tgt_adv rel conns my v (upd conns my m) = tgt_adv rel conns my v m).
  { intros v m. unfold tgt_adv. destruct (upd_fields conns my m) as (-> & -> & -> & _). rewrite upd_again. reflexivity. }
  assert (Put : forall v m, tgt_put rel conns my v (upd conns my m) = tgt_put rel conns my v m).
  { intros v m. unfold tgt_put. destruct (upd_fields conns my m) as (-> & -> & -> & _). rewrite upd_again. reflexivity. }
  assert (Plain : forall m c, In m pdict -> elem (v_path m) my = true -> conns (v_path m) = Some c -> c_pbo c = false -> v_pbo (upd conns my m) = false /\ v_size (upd conns my m) = v_size m).
  { intros m c Hm He Hc Hp. destruct (Ag' m c Hm He Hc) as (_ & _ & A). destruct (A Hp) as (A1 & A2). unfold upd. rewrite He, Hc. unfold setup_var_meta. rewrite Hp. cbn. split; [exact A1|].
    destruct (v_idx m); destruct (c_idx c); cbn; try reflexivity. symmetry. apply A2; reflexivity. }
  unfold dp_size. rewrite E.
  eapply separate_weaken; [|apply (separate_lays n g (need rel (metas_of (Some my) pdict)) off (tgt_adv rel conns my) (tgt_put rel conns my) pdict1 _ _ Rg)].
  - intros [v path] [Hv (m & c & Hm & Ep & H1 & H2 & H3 & H4 & H5)]. cbn [fst snd] in *. split; [exact Hv|]. exists (upd conns my m). split; [apply in_map; exact Hm|]. destruct (upd_fields conns my m) as (Eu & _). split; [congruence|].
    rewrite Put. unfold tgt_put. rewrite H1, H2, H3. destruct (Plain m c Hm H1 H4 H5) as [-> _]. reflexivity.
  - rewrite Np. exact N.
  - intros v Hv. eapply Nat.le_trans; [|apply (tgt_need rel conns my v pdict Ag' Cn)]. unfold suma, pdict1. rewrite map_map. apply Nat.eq_le_incl. f_equal. apply map_ext. intros m. apply Adv.
  - intros v path Hv. cbn [fst snd]. unfold dp_region. rewrite E. cbn [bind]. rewrite (tgt_lay rel conns my None pdict 0 Cn). cbn [bind]. rewrite (Ho v Hv). cbn [bind]. rewrite P1, (tgt_lay rel conns my v pdict1 0 Cn1). reflexivity.
  - intros v m1 Hv Hm1 Pm. apply in_map_iff in Hm1. destruct Hm1 as (m & <- & Hm). rewrite Put in Pm. rewrite Adv. cbn [snd]. destruct (upd_fields conns my m) as (-> & _). rewrite (size_of_in _ _ N Hm).
    unfold tgt_put in Pm. unfold tgt_adv. destruct (is_relevant rel v (v_top m)); cbn [andb] in *; [|discriminate]. destruct (elem (v_path m) my) eqn:He; cbn [andb] in *; [|discriminate].
    destruct (v_remote m); cbn [negb andb] in *; [discriminate|]. destruct (Ag m Hm He) as (c & Hc & _). destruct (c_pbo c) eqn:Eb.
    + exfalso. unfold upd in Pm. rewrite He, Hc in Pm. unfold setup_var_meta in Pm. rewrite Eb in Pm. discriminate.
    + destruct (Plain m c Hm He Hc Eb) as [_ ->]. reflexivity.
Qed.
Print Assumptions C112_params.

(** So, however the vectors of one solve are assigned, each variable has what was last
    assigned to it in its own vector. *)
Theorem C112_memory : forall {K V} (dec : forall a b : K, {a = b} + {a <> b}) n mem size cells, separate n mem size cells ->
  forall ws (buf : list V), length buf = n -> (forall k vals, In (k, vals) ws -> mem k /\ length vals = size k) ->
  exists buf', assigns cells buf ws = Ok buf' /\ length buf' = n /\
    (forall k, mem k -> exists c, cells k = Some c /\ length (read buf' c) = size k /\ read buf' c = last_to dec k ws (read buf c)).
Proof.
  intros K V dec n mem size cells S ws buf L H. destruct (assigns_ok dec n mem size cells S ws buf L H) as (buf' & E & L' & R). exists buf'. split; [exact E|]. split; [exact L'|].
  intros k Hk. destruct (proj1 S k Hk) as (b & Ck & Bk). exists (b, size k). split; [exact Ck|]. split; [|apply R; assumption]. unfold read. cbn [fst snd]. rewrite firstn_length, skipn_length. lia.
Qed.
Print Assumptions C112_memory.

(** The array is as large as the largest collection of vectors of one solve, no larger. *)
Lemma all_groups_max : forall rel metas groups mx offs, (forall v, In v (concat groups) -> sget rel v <> None) ->
  exists offs', all_groups rel metas groups mx offs = Ok (fold_left Nat.max (map (needs rel metas) groups) mx, offs').
Proof.
  assert (One : forall rel metas vois n offs, (forall v, In v vois -> sget rel v <> None) -> exists offs', one_group rel metas vois n offs = Ok (n + needs rel metas vois, offs')).
  { intros rel metas. induction vois as [|v vois IH]; intros n offs H; [exists offs; cbn; rewrite Nat.add_0_r; reflexivity|]. cbn [one_group]. destruct (sget rel v) as [names|] eqn:E; [|destruct (H v (or_introl eq_refl) E)].
    rewrite <- (need_some rel metas v names E). destruct (IH (n + need rel metas (Some v)) (sset offs v n)) as (o & ->); [intros w Hw; apply H; right; exact Hw|]. exists o. unfold needs. cbn [map]. rewrite ls_cons. f_equal. f_equal. lia. }
  intros rel metas. induction groups as [|g groups IH]; intros mx offs H; [exists offs; reflexivity|]. cbn [all_groups concat map fold_left] in *.
  destruct (One rel metas g 0 offs) as (o & ->); [intros v Hv; apply H; apply in_or_app; left; exact Hv|]. cbn [bind Nat.add]. destruct (IH (if mx <? needs rel metas g then needs rel metas g else mx) o) as (o' & ->); [intros v Hv; apply H; apply in_or_app; right; exact Hv|].
  exists o'. f_equal. f_equal. f_equal. destruct (Nat.ltb_spec mx (needs rel metas g)); lia.
Qed.
Lemma fold_max : forall l a, (a <= fold_left Nat.max l a /\ forall x, In x l -> x <= fold_left Nat.max l a) /\ (fold_left Nat.max l a = a \/ In (fold_left Nat.max l a) l).
Proof.
  induction l as [|x l IH]; intros a; [cbn; split; [split; [lia|contradiction]|left; reflexivity]|]. cbn [fold_left]. destruct (IH (Nat.max a x)) as [[H1 H2] H3]. split; [split; [lia|]|].
  - intros y [<-|Hy]; [lia|apply H2; exact Hy].
  - destruct H3 as [H3|H3]; [|right; right; exact H3]. rewrite H3. destruct (Nat.max_spec a x) as [[_ ->]|[_ ->]]; [right; left; reflexivity|left; reflexivity].
Qed.
Lemma need_cells : forall rel udict v, need rel (metas_of None udict) v = cells_for rel udict v.
Proof.
  intros. unfold need, cells_for, metas_of. f_equal. f_equal. induction udict as [|m l IH]; [reflexivity|]. cbn. destruct (v_pbo m); cbn; [exact IH|]. destruct (is_relevant rel v (v_top m)); cbn; [f_equal|]; exact IH.
Qed.
Theorem C112_size : forall rel groups udict, (forall v, In v (concat groups) -> sget rel v <> None) ->
  du_size false rel groups udict = cells_for rel udict None /\
  (forall g, together groups true g -> list_sum (map (cells_for rel udict) g) <= du_size true rel groups udict) /\
  (exists g, together groups true g /\ list_sum (map (cells_for rel udict) g) = du_size true rel groups udict).
Proof.
  intros rel groups udict H.
  assert (Full : list_sum (map v_size (metas_of None udict)) = cells_for rel udict None).
  { rewrite <- need_cells. unfold need. f_equal. f_equal. generalize (metas_of None udict). induction l as [|m l IH]; [reflexivity|]. cbn. f_equal. exact IH. }
  assert (Grp : forall vois, needs rel (metas_of None udict) vois = list_sum (map (cells_for rel udict) (map Some vois))).
  { intros vois. unfold needs. rewrite map_map. f_equal. apply map_ext. intros v. apply need_cells. }
  assert (E : du_size true rel groups udict = fold_left Nat.max (map (needs rel (metas_of None udict)) groups) (cells_for rel udict None)).
  { unfold du_size, shared_info. cbn [negb]. rewrite Full. destruct (all_groups_max rel (metas_of None udict) groups (cells_for rel udict None) [] H) as (o & ->). reflexivity. }
  assert (S1 : list_sum (map (cells_for rel udict) [None]) = cells_for rel udict None) by (cbn [map]; rewrite ls_cons; apply Nat.add_0_r).
  split; [unfold du_size, shared_info; cbn [negb]; exact Full|]. rewrite E. destruct (fold_max (map (needs rel (metas_of None udict)) groups) (cells_for rel udict None)) as [[H1 H2] H3]. split.
  - intros g [->|(_ & vois & Hg & ->)]; [rewrite S1; exact H1|]. rewrite <- Grp. apply H2. apply in_map. exact Hg.
  - destruct H3 as [H3|H3].
    + exists [None]. split; [left; reflexivity|]. rewrite H3. apply S1.
    + apply in_map_iff in H3. destruct H3 as (vois & <- & Hg). exists (map Some vois). split; [right; split; [reflexivity|]; exists vois; split; [exact Hg|reflexivity]|]. symmetry. apply Grp.
Qed.
Print Assumptions C112_size.

(** Without derivatives nothing is allocated: no variable has a cell. *)
Theorem C112_alloc : forall tlg rel groups udict conns my pdict voi path r,
  (du_region false tlg rel groups udict voi path = Ok (Some r) -> snd r = 0) /\
  (dp_region false tlg rel groups conns my pdict voi path = Ok (Some r) -> snd r = 0).
Proof.
  assert (Z : forall off n s, snd (region 0 off n s) = 0) by (intros; unfold region; cbn; lia).
  intros. split; intros H.
  - unfold du_region in H. destruct (shared_info _ _ _ _ _) as [[mx offs]|]; cbn [bind] in H; [|discriminate]. destruct (offset offs voi) as [off|]; cbn [bind] in H; [|discriminate]. destruct (src_setup _ _ _ _) as [dat n].
    destruct (sget dat path) as [s|]; cbn [option_map] in H; [|discriminate]. injection H as <-. apply Z.
  - unfold dp_region in H. destruct (shared_info _ _ _ _ _) as [[mx offs]|]; cbn [bind] in H; [|discriminate]. destruct (tgt_setup _ _ _ None 0 pdict) as [[[pd da] n]|]; cbn [bind] in H; [|discriminate].
    destruct (offset offs voi) as [off|]; cbn [bind] in H; [|discriminate]. destruct (tgt_setup _ _ _ voi 0 pd) as [[[pd' dat] n']|]; cbn [bind] in H; [|discriminate].
    destruct (sget dat path) as [s|]; cbn [option_map] in H; [|discriminate]. injection H as <-. apply Z.
Qed.
Print Assumptions C112_alloc.

(** A param passed by object (size 0) whose source is not: the setup of params gives it its
    source's size after the array has been sized without it, and the params behind it lose
    their cells without an error.  check_connections (core/_checks.py 35) asks the
    source for pass_by_obj twice and lets the connection pass. *)
Theorem C112_params_refuted : forall rel p q k n, p <> q -> 0 < k -> 0 < n ->
  let pdict := [mkV p p 0 true false false; mkV q q n false false false] in
  let conns := fun x => if String.eqb x p then Some (mkC k false false) else if String.eqb x q then Some (mkC n false false) else None in
  dp_size false rel [] [p; q] pdict = n /\
  exists b, dp_region true false rel [] conns [p; q] pdict None q = Ok (Some (b, n - Nat.min k n)).
Proof.
  intros rel p q k n Hpq Hk Hn pdict conns. assert (Eq : String.eqb q p = false) by (apply String.eqb_neq; congruence). assert (Eq' : String.eqb p q = false) by (apply String.eqb_neq; congruence).
  unfold dp_size, dp_region, shared_info, metas_of, pdict, conns. cbn. rewrite ?Eq, ?Eq', ?String.eqb_refl. cbn. rewrite ?Eq, ?Eq', ?String.eqb_refl. cbn.
  rewrite ?Eq, ?Eq', ?String.eqb_refl. cbn. split; [lia|]. rewrite ?Eq, ?Eq', ?String.eqb_refl. cbn. unfold region. cbn. eexists. f_equal. f_equal. f_equal. lia.
Qed.
Print Assumptions C112_params_refuted.

(** Two variables of interest solved together; v is relevant to both, w to y only. *)
Definition ex_u := [mkV "v" "v" 2 false false false; mkV "w" "w" 3 false false false; mkV "o" "o" 0 true false false]%string.
Definition ex_rel : relevance := [("x", ["v"; "o"]); ("y", ["v"; "w"])]%string.
Example C112_ex :
  NoDup (map v_path ex_u) /\ NoDup (concat [["x"; "y"]]%string) /\ (forall v, In v (concat [["x"; "y"]]%string) -> sget ex_rel v <> None) /\ together [["x"; "y"]]%string true [Some "x"; Some "y"]%string /\
  du_size true ex_rel [["x"; "y"]]%string ex_u = 7 /\
  map (fun k => du_region true true ex_rel [["x"; "y"]]%string ex_u (fst k) (snd k)) [(Some "x", "v"); (Some "y", "v"); (Some "y", "w"); (Some "x", "w"); (None, "w")]%string
    = [Ok (Some (0, 2)); Ok (Some (2, 2)); Ok (Some (4, 3)); Ok None; Ok (Some (2, 3))] /\
  (forall m, In m ex_u -> elem (v_path m) ["w"]%string = true -> agrees m (mkC 3 false false)) /\
  dp_region true true ex_rel [["x"; "y"]]%string (fun x => Some (mkC 3 false false)) ["w"]%string ex_u (Some "y")%string "w"%string = Ok (Some (0, 3)).
Proof.
  split; [repeat constructor; cbn; intuition discriminate|]. split; [repeat constructor; cbn; intuition discriminate|]. split; [intros v [<-|[<-|[]]]; discriminate|].
  split; [right; split; [reflexivity|]; exists ["x"; "y"]%string; split; [left; reflexivity|reflexivity]|]. split; [reflexivity|]. split; [reflexivity|]. split; [|reflexivity].
  intros m [<-|[<-|[<-|[]]]] H; try discriminate H. repeat split; discriminate.
Qed.

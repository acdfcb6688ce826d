(** Lemmas about the training of a metamodel. *)
From Verif Require Import Base BaseFacts MetaModel MetaSpec.
Local Open Scope string_scope.
Local Open Scope nat_scope.
Local Open Scope list_scope.

Lemma combine_seq : forall {A B} (a : list A) (b : list B) da db k, length a = length b ->
    combine a b = map (fun r => (nth (r - k) a da, nth (r - k) b db)) (seq k (length a)).
Proof.
  induction a as [|x a IH]; intros [|y b] da db k E; try discriminate; [reflexivity|]. cbn [combine length seq map]. rewrite Nat.sub_diag. cbn [nth]. f_equal.
  rewrite (IH b da db (S k)) by (injection E as E; exact E). apply map_ext_in. intros r I. apply in_seq in I. replace (r - k) with (S (r - S k)) by lia. reflexivity.
Qed.
Lemma nth_map_in : forall {A B} (f : A -> B) l d d' r, r < length l -> nth r (map f l) d = f (nth r l d').
Proof. intros A B f l d d' r L. rewrite (nth_indep _ d (f d')) by (rewrite map_length; exact L). apply map_nth. Qed.
Lemma nth_map_seq : forall {B} (f : nat -> B) n d r, r < n -> nth r (map f (seq 0 n)) d = f r.
Proof. intros B f n d r L. rewrite (nth_map_in f (seq 0 n) d 0) by (rewrite seq_length; exact L). rewrite seq_nth by exact L. reflexivity. Qed.
Lemma splice_pad : forall pre v w, length v <= w -> splice (pre ++ repeat 0%Q w) (length pre) (length v) v = Ok (pre ++ v ++ repeat 0%Q (w - length v)).
Proof.
  intros pre v w L. unfold splice. rewrite app_length, repeat_length. replace (length pre + w - length pre) with w by lia. rewrite Nat.min_l by lia. rewrite Nat.eqb_refl.
  rewrite firstn_app, firstn_all, Nat.sub_diag. cbn [firstn]. rewrite app_nil_r. rewrite skipn_app. rewrite (skipn_all2 pre) by lia. cbn [app]. replace (length pre + length v - length pre) with (length v) by lia. do 3 f_equal.
  clear pre. revert L. generalize (length v). intros m L. replace w with (m + (w - m)) at 1 by lia. generalize (w - m). intros k. clear. induction m; cbn; auto.
Qed.
Lemma put_rows_ok : forall idx sz w val pres, length pres = length val -> (forall p, In p pres -> length p = idx) -> (forall v, In v val -> length (flat v) = sz) -> sz <= w ->
    put_rows idx sz val (map (fun p => p ++ repeat 0%Q w) pres) = (map (fun a => (fst a ++ flat (snd a)) ++ repeat 0%Q (w - sz)) (combine pres val), None).
Proof.
  intros idx sz w. induction val as [|v val IH]; intros [|p pres] L Hp Hv W; try discriminate; [reflexivity|]. cbn [put_rows map combine fst snd].
  assert (S : splice (p ++ repeat 0%Q w) idx sz (flat v) = Ok (p ++ flat v ++ repeat 0%Q (w - sz))).
  { rewrite <- (Hp p (or_introl eq_refl)), <- (Hv v (or_introl eq_refl)). apply splice_pad. rewrite (Hv v (or_introl eq_refl)). exact W. }
  rewrite S. rewrite IH; [|injection L as L; exact L|intros q I; apply Hp; right; exact I|intros q I; apply Hv; right; exact I|exact W]. rewrite <- app_assoc. reflexivity.
Qed.
Lemma scalars_ok : forall val, (forall v, In v val -> is_float v = true) -> scalars val = Some (flat_map flat val).
Proof. induction val as [|v val IH]; intros H; [reflexivity|]. assert (V := H v (or_introl eq_refl)). destruct v; try discriminate. cbn [scalars flat_map]. rewrite IH by (intros u I; apply H; right; exact I). reflexivity. Qed.
Lemma set_col_ok : forall idx w val pres, length pres = length val -> (forall p, In p pres -> length p = idx) -> (forall v, In v val -> is_float v = true) ->
    set_col idx (flat_map flat val) (map (fun p => p ++ repeat 0%Q (S w)) pres) = map (fun a => (fst a ++ flat (snd a)) ++ repeat 0%Q w) (combine pres val).
Proof.
  intros idx w. induction val as [|v val IH]; intros [|p pres] L Hp Hv; try discriminate; [reflexivity|]. assert (V := Hv v (or_introl eq_refl)). destruct v as [q| |]; try discriminate.
  cbn [flat_map flat app set_col map combine fst snd]. f_equal.
  - rewrite <- (Hp p (or_introl eq_refl)). rewrite firstn_app, firstn_all, Nat.sub_diag. cbn [firstn]. rewrite app_nil_r. rewrite skipn_app. rewrite (skipn_all2 p) by lia. replace (S (length p) - length p) with 1 by lia. cbn. rewrite <- app_assoc. reflexivity.
  - apply IH; [injection L as L; exact L|intros u I; apply Hp; right; exact I|intros u I; apply Hv; right; exact I].
Qed.
Lemma first_float_iff : forall val b, val <> [] -> (forall v, In v val -> is_float v = b) -> first_float val = b.
Proof. intros [|v val] b N H; [contradiction|]. apply H. left. reflexivity. Qed.

Lemma fill_ok : forall W data n params idx pres, 0 < n -> length pres = n -> (forall p, In p pres -> length p = idx) -> W = idx + width_of params ->
    supplied params data n -> floats_first params data ->
    fill W params data idx (map (fun p => p ++ repeat 0%Q (width_of params)) pres) = (map (fun r => nth r pres [] ++ point params data r) (seq 0 n), None).
Proof.
  intros W data n. induction params as [|[name sz] ps IH]; intros idx pres N L Hp HW SU FF.
  - cbn [fill]. f_equal. subst n. apply (nth_ext _ _ [] []); [rewrite !map_length, seq_length; reflexivity|]. intros r Lr. rewrite map_length in Lr. cbn [width_of list_sum map repeat fold_right].
    rewrite (nth_map_in _ pres [] []) by exact Lr. rewrite nth_map_seq by exact Lr. reflexivity.
  - cbn [fill]. destruct (SU name sz (or_introl eq_refl)) as (Ld & Hs & U).
    assert (NE : data name <> []) by (intros E; rewrite E in Ld; cbn in Ld; lia).
    change (width_of ((name, sz) :: ps)) with (sz + width_of ps) in *.
    assert (CS := combine_seq pres (data name) [] (VFloat 0) 0). specialize (CS ltac:(lia)). rewrite L in CS.
    set (pres' := map (fun r => nth r pres [] ++ flat (value_at data r name)) (seq 0 n)).
    assert (FORM : map (fun a => (fst a ++ flat (snd a)) ++ repeat 0%Q (width_of ps)) (combine pres (data name)) = map (fun p => p ++ repeat 0%Q (width_of ps)) pres').
    { rewrite CS. unfold pres'. rewrite !map_map. apply map_ext_in. intros r I. cbn [fst snd]. rewrite Nat.sub_0_r. reflexivity. }
    assert (POINT : forall r, In r (seq 0 n) -> nth r pres' [] ++ point ps data r = nth r pres [] ++ point ((name, sz) :: ps) data r).
    { intros r I. apply in_seq in I. unfold pres'. rewrite nth_map_seq by lia. rewrite <- app_assoc. reflexivity. }
    assert (LP : length pres' = n) by (unfold pres'; rewrite map_length, seq_length; reflexivity).
    assert (HP : forall p, In p pres' -> length p = idx + sz).
    { intros p I. unfold pres' in I. apply in_map_iff in I. destruct I as (r & <- & Ir). apply in_seq in Ir. rewrite app_length. rewrite (Hp (nth r pres [])) by (apply nth_In; lia). rewrite (Hs (value_at data r name)) by (apply nth_In; lia). reflexivity. }
    assert (SU' : supplied ps data n) by (intros m s I; apply SU; right; exact I).
    assert (FF' : floats_first ps data). { intros m s v I Iv. apply (FF m s v); [|exact Iv]. destruct ps as [|q ps]; [destruct I|]. right. exact I. }
    destruct U as [U|U]; rewrite (first_float_iff _ _ NE U).
    + assert (S1 : sz = 1). { destruct (data name) as [|v l]; [contradiction|]. specialize (Hs v (or_introl eq_refl)). specialize (U v (or_introl eq_refl)). destruct v; try discriminate. cbn in Hs. lia. } subst sz.
      unfold put_col. replace (W <=? idx) with false by (symmetry; apply Nat.leb_gt; lia). rewrite scalars_ok by exact U.
      cbn [Nat.add]. rewrite (set_col_ok idx (width_of ps) (data name) pres) by (assumption || lia). rewrite FORM.
      rewrite (IH (idx + 1) pres' N LP HP ltac:(lia) SU' FF'). f_equal. apply map_ext_in. exact POINT.
    + assert (PS : ps = []). { destruct ps as [|q ps]; [reflexivity|]. exfalso. destruct (data name) as [|v l] eqn:E; [contradiction|]. assert (X : is_float v = true) by (apply (FF name sz v); [left; reflexivity|rewrite E; left; reflexivity]). rewrite (U v (or_introl eq_refl)) in X. discriminate. } subst ps.
      change (width_of []) with 0 in *. rewrite (put_rows_ok idx sz (sz + 0) (data name) pres) by (assumption || lia). cbn [fill]. f_equal. replace (sz + 0 - sz) with 0 by lia. rewrite FORM. rewrite <- (map_ext_in _ _ _ POINT). 
      cbn [repeat]. unfold point. cbn [flat_map]. apply (nth_ext _ _ [] []); [rewrite !map_length, seq_length; exact LP|]. intros r Lr. rewrite map_length, LP in Lr.
      rewrite (nth_map_in _ pres' [] []) by lia. rewrite nth_map_seq by exact Lr. reflexivity.
Qed.
Lemma zeros_pad : forall n w, zeros n w = map (fun p => p ++ repeat 0%Q w) (repeat [] n).
Proof. intros n w. unfold zeros. induction n; cbn; [reflexivity|]. f_equal. assumption. Qed.
Lemma nth_nil : forall n r, nth r (repeat (@nil Q) n) [] = [].
Proof. induction n; intros [|r]; cbn; auto. Qed.
Lemma fill_zeros : forall params data n, 0 < n -> supplied params data n -> floats_first params data ->
    fill (width_of params) params data 0 (zeros n (width_of params)) = (points params data n, None).
Proof.
  intros params data n N SU FF. rewrite zeros_pad. rewrite (fill_ok _ data n params 0 (repeat [] n) N (repeat_length _ _)); [| |reflexivity|exact SU|exact FF].
  - f_equal. unfold points. apply map_ext. intros r. rewrite nth_nil. reflexivity.
  - intros p I. apply repeat_spec in I. subst p. reflexivity.
Qed.
(** outputs *)
Lemma combine_nil_flat : forall val, map (fun a : list Q * tval => (fst a ++ flat (snd a)) ++ []) (combine (repeat [] (length val)) val) = map (fun v => flat v) val.
Proof. induction val as [|v val IH]; [reflexivity|]. cbn [length repeat combine map fst snd]. rewrite app_nil_r. cbn [app]. f_equal. exact IH. Qed.
Lemma output_rows : forall val sz n, 0 < n -> length val = n -> (forall v, In v val -> length (flat v) = sz) ->
    ((forall v, In v val -> is_float v = true) \/ (forall v, In v val -> is_float v = false)) ->
    (if first_float val then put_col sz 0 val (zeros n sz) else put_rows 0 sz val (zeros n sz)) = (map (fun v => flat v) val, None).
Proof.
  intros val sz n N L Hs U. assert (NE : val <> []) by (intros E; rewrite E in L; cbn in L; lia).
  assert (HP : forall p : list Q, In p (repeat [] n) -> length p = 0) by (intros p I; apply repeat_spec in I; subst p; reflexivity).
  destruct U as [U|U]; rewrite (first_float_iff _ _ NE U).
  - assert (S1 : sz = 1). { destruct val as [|v l]; [contradiction|]. specialize (Hs v (or_introl eq_refl)). specialize (U v (or_introl eq_refl)). destruct v; try discriminate. cbn in Hs. lia. } subst sz.
    unfold put_col. cbn [Nat.leb]. rewrite scalars_ok by exact U. f_equal. rewrite zeros_pad. rewrite (set_col_ok 0 0 val) by (rewrite ?repeat_length; auto). rewrite <- L. apply combine_nil_flat.
  - rewrite zeros_pad. rewrite (put_rows_ok 0 sz sz val) by (rewrite ?repeat_length; auto). f_equal. rewrite Nat.sub_diag. rewrite <- L. apply combine_nil_flat.
Qed.
Lemma points_length : forall vars data n, length (points vars data n) = n.
Proof. intros. unfold points. rewrite map_length, seq_length. reflexivity. Qed.

Lemma out_of_set : forall p o w t i d name M name', out_of (mkMeta p o w t i (sset d name M)) name' = if String.eqb name' name then M else match dget String.eqb d name' with Some M => M | None => [] end.
Proof.
  intros. unfold out_of. cbn [m_out]. unfold sset. destruct (String.eqb_spec name' name) as [-> |NE].
  - rewrite dget_dset_eq by (intros; apply String.eqb_eq). reflexivity.
  - rewrite dget_dset_ne; [reflexivity|intros; apply String.eqb_eq|exact NE].
Qed.
Lemma train_outputs_ok : forall data n (X : list (list Q)) Y old outs st, 0 < n -> m_warm st = true \/ old = 0 -> NoDup (map fst outs) ->
    (m_warm st = true -> old = length X) ->
    (forall name sz, In (name, sz) outs -> out_of st name = Y name /\ length (Y name) = length X) -> supplied outs data n ->
    exists st', train_outputs st data n old outs = (st', (map (fun o => (fst o, (m_in st, (if m_warm st then Y (fst o) else []) ++ map (fun v => flat v) (data (fst o))))) outs, None)) /\
      m_params st' = m_params st /\ m_outputs st' = m_outputs st /\ m_warm st' = m_warm st /\ m_in st' = m_in st /\ m_train st' = m_train st /\
      (forall name, ~ In name (map fst outs) -> out_of st' name = out_of st name) /\
      (forall name, In name (map fst outs) -> out_of st' name = (if m_warm st then Y name else []) ++ map (fun v => flat v) (data name)).
Proof.
  intros data n X Y old. induction outs as [|[name sz] outs IH]; intros st N W ND O HY SU.
  - exists st. cbn. repeat split; auto. intros name [].
  - cbn [train_outputs]. destruct (SU name sz (or_introl eq_refl)) as (Ld & Hs & U). destruct (HY name sz (or_introl eq_refl)) as (EY & LY).
    assert (T : train_output st data n old name sz = ((if m_warm st then Y name else []) ++ map (fun v => flat v) (data name), None)).
    { unfold train_output. replace (n =? 0) with false by (symmetry; apply Nat.eqb_neq; lia). rewrite (output_rows (data name) sz n N Ld Hs U).
      destruct (m_warm st) eqn:Ew; [|reflexivity]. rewrite (O eq_refl). rewrite EY. destruct (0 <? length X) eqn:EL.
      - unfold copy_old. rewrite LY, Nat.eqb_refl. reflexivity.
      - apply Nat.ltb_ge in EL. assert (Y name = []) as -> by (apply length_zero_iff_nil; lia). reflexivity. }
    rewrite T. inversion ND as [|? ? NI ND']; subst.
    set (st1 := mkMeta (m_params st) (m_outputs st) (m_warm st) (m_train st) (m_in st) (sset (m_out st) name ((if m_warm st then Y name else []) ++ map (fun v => flat v) (data name)))).
    destruct (IH st1 N W ND' O) as (st' & E & P1 & P2 & P3 & P4 & P5 & P6 & P7).
    + intros m s I. unfold st1. rewrite out_of_set. destruct (String.eqb_spec m name) as [-> |NE]; [exfalso; apply NI; apply in_map_iff; exists (name, s); auto|]. destruct (HY m s (or_intror I)) as (H1 & H2). auto.
    + intros m s I. apply SU. right. exact I.
    + rewrite E. cbn [fst snd]. exists st'. split; [reflexivity|]. rewrite P1, P2, P3, P4, P5. do 5 (split; [reflexivity|]). split.
      * intros m NM. cbn [map fst In] in NM. rewrite P6 by tauto. unfold st1. rewrite out_of_set. destruct (String.eqb_spec m name) as [-> |NE]; [exfalso; tauto|reflexivity].
      * intros m IM. cbn [map fst] in IM. destruct (in_dec String.string_dec m (map fst outs)) as [Im|Nm]; [apply P7; exact Im|]. destruct IM as [<- |Im]; [|contradiction]. rewrite P6 by exact Nm. unfold st1. rewrite out_of_set, String.eqb_refl. reflexivity.
Qed.
Lemma train_ok : forall st data n X Y, m_params st <> [] -> 0 < n -> NoDup (map fst (m_outputs st)) -> supplied (m_params st) data n -> supplied (m_outputs st) data n -> floats_first (m_params st) data ->
    holds st X Y -> trained_well st data n X Y.
Proof.
  intros st data n X Y NP N ND SP SO FF (HX & HY). unfold trained_well, train. destruct (m_params st) as [|[p0 s0] ps] eqn:EP; [contradiction|].
  assert (L0 : length (data p0) = n) by (apply (SP p0 s0); left; reflexivity). rewrite L0.
  assert (FA : forallb (fun p => length (data (fst p)) =? n) (((p0, s0) :: ps) ++ m_outputs st) = true).
  { apply forallb_forall. intros [m s] I. apply Nat.eqb_eq. apply in_app_or in I. destruct I as [I|I]; [apply (SP m s I)|apply (SO m s I)]. }
  rewrite FA. cbn [negb]. replace (n =? 0) with false by (symmetry; apply Nat.eqb_neq; lia). rewrite (fill_zeros _ data n N SP FF).
  set (params := (p0, s0) :: ps) in *. set (X' := (if m_warm st then X else []) ++ points params data n). rewrite HX. fold X'.
  set (st1 := mkMeta params (m_outputs st) (m_warm st) (m_train st) X' (m_out st)).
  destruct (train_outputs_ok data n X Y (if m_warm st then length X else 0) (m_outputs st) st1 N) as (st2 & E & P1 & P2 & P3 & P4 & P5 & P6 & P7).
  - cbn [m_warm st1]. destruct (m_warm st); auto.
  - exact ND.
  - cbn [m_warm st1]. intros ->. reflexivity.
  - intros m s I. apply (HY m s I).
  - exact SO.
  - rewrite E. cbn [snd]. eexists. split; [reflexivity|]. cbn [m_params m_outputs m_warm m_train]. rewrite P1, P2, P3. cbn [st1 m_params m_outputs m_warm]. split; [|auto].
    split; [cbn [m_in]; exact P4|]. intros m s I. change (In (m, s) (m_outputs st)) in I. split.
    + unfold out_of. cbn [m_out]. change (out_of st2 m = (if m_warm st1 then Y m else []) ++ map (fun v => flat v) (data m)). apply P7. apply in_map_iff. exists (m, s). auto.
    + destruct (HY m s I) as (_ & LY). destruct (SO m s I) as (Ld & _). unfold X'. rewrite !app_length, map_length, points_length, Ld. destruct (m_warm st); [rewrite LY|]; reflexivity.
Qed.
(** prediction *)
Lemma to_inputs_ok : forall params value pre, (forall name sz, In (name, sz) params -> length (flat (value name)) = sz) ->
    to_inputs params value (length pre) (pre ++ repeat 0%Q (width_of params)) = Ok (pre ++ flat_map (fun p => flat (value (fst p))) params).
Proof.
  induction params as [|[name sz] ps IH]; intros value pre H; [reflexivity|]. change (width_of ((name, sz) :: ps)) with (sz + width_of ps). cbn [to_inputs flat_map fst].
  assert (V := H name sz (or_introl eq_refl)).
  assert (R : forall l, length l = sz -> to_inputs ps value (length pre + sz) (pre ++ l ++ repeat 0%Q (width_of ps)) = Ok (pre ++ l ++ flat_map (fun p => flat (value (fst p))) ps)).
  { intros l Ll. rewrite !app_assoc. replace (length pre + sz) with (length (pre ++ l)) by (rewrite app_length; lia). apply IH. intros m s I. apply H. right. exact I. }
  destruct (value name) as [q|q|a] eqn:E; cbn [flat length] in V.
  1, 2: subst sz; rewrite app_length, repeat_length; replace (length pre + (1 + width_of ps) <=? length pre) with false by (symmetry; apply Nat.leb_gt; lia); rewrite firstn_app, firstn_all, Nat.sub_diag; cbn [firstn]; rewrite app_nil_r, skipn_app, (skipn_all2 pre) by lia; replace (S (length pre) - length pre) with 1 by lia; apply (R [q] eq_refl).
  rewrite <- V. rewrite splice_pad by lia. cbn [bind]. replace (length a + width_of ps - length a) with (width_of ps) by lia. rewrite V. apply (R a V).
Qed.

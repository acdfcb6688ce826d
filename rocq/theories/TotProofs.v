(** Lemmas for TotProps.v: putting the blocks together. *)
From Verif Require Import Base BaseFacts GradModel GradSpec GradProofs TotModel TotSpec.
From Verif Require FdModel FdSpec FdProofs.
Local Open Scope string_scope.
Local Open Scope nat_scope.
Local Open Scope list_scope.

Section Assemble.
  Context {F : Type} (F0 : F) (fmul : F -> F -> F).
  Notation prob := (prob (F:=F)).
  Notation arr := (arr (F:=F)).
  Notation dget2 := (dget FdModel.key2_eqb).
  Context (r : root (F:=F)) (p : prob) (indep unknown : list string) (Jfd : FdModel.jac (F:=F)) (tg : string -> string)
          (dv cn : string -> option F) (X : nat -> nat -> F).
  Notation wu := (wanted p (p_qoi p)).
  Notation wv := (wanted p (p_poi p)).

  (** the block of u and v holds the entries of X *)
  Definition holds (m : list (list F)) (u v : string) : Prop :=
    length m = length (wv v) /\ Forall (fun col => length col = length (wu u)) m /\
    forall i j k q, nth_error (wu u) i = Some k -> nth_error (wv v) j = Some q -> nth i (nth j m []) F0 = X k q.
  Hypothesis Hkey : forall v, In v indep -> fd_ikey r (tg v) = tg v.
  Hypothesis Hblock : forall u v, In u unknown -> In v indep -> exists m, dget2 Jfd (u, tg v) = Some m /\ holds m u v.
  Hypothesis Hne : forall v, In v indep -> wv v <> [].

  Lemma holds_rows : forall m u v, In v indep -> holds m u v -> rows_of m = length (wu u).
  Proof.
    intros m u v Hv (H1 & H2 & _). pose proof (Hne v Hv) as N. unfold rows_of. destruct m as [|c m]; [destruct (wv v); [congruence|discriminate]|].
    inversion H2; subst. assumption.
  Qed.

  Lemma clip_in : forall n a len, a + len <= n -> clip n a len = len.
  Proof. intros n a len H. unfold clip. rewrite Nat.min_l by exact H. lia. Qed.
  Lemma within_spec : forall a len i, within a len i = true <-> a <= i < a + len.
  Proof. intros. unfold within. rewrite andb_true_iff, Nat.leb_le, Nat.ltb_lt. lia. Qed.
  Definition val (u v : string) (k q : nat) : F := scaled fmul (cn u) (scaled fmul (dv v) (X k q)).

  Lemma cell_ok : forall J u v ui pi rows, In u unknown -> In v indep -> ui + length (wu u) <= a_rows J -> pi + length (wv v) <= a_cols J ->
    exists J', array_cell F0 fmul r Jfd dv cn u ui (J, pi, rows) (v, tg v) = Ok (J', pi + length (wv v), Some (length (wu u))) /\
      a_rows J' = a_rows J /\ a_cols J' = a_cols J /\
      (forall i j k q, nth_error (wu u) i = Some k -> nth_error (wv v) j = Some q -> a_at J' (ui + i) (pi + j) = val u v k q) /\
      (forall i j, ~ (ui <= i < ui + length (wu u) /\ pi <= j < pi + length (wv v)) -> a_at J' i j = a_at J i j).
  Proof.
    intros J u v ui pi rows Hu Hv Hr Hc. destruct (Hblock u v Hu Hv) as (m & Em & Hm). pose proof (holds_rows m u v Hv Hm) as Er. destruct Hm as (H1 & _ & H3).
    unfold array_cell, block_key. rewrite (Hkey v Hv), Em. cbn [bind]. rewrite Em. unfold put_block. cbv zeta. rewrite Er, H1.
    rewrite (clip_in _ _ _ Hr), (clip_in _ _ _ Hc). unfold fits. rewrite !Nat.eqb_refl. cbn [orb andb bind].
    eexists. split; [reflexivity|].
    assert (S : forall (K : arr) s, a_rows K = a_rows J -> a_cols K = a_cols J ->
       let K' := scale_slice fmul K ui (length (wu u)) pi (length (wv v)) s in
       a_rows K' = a_rows J /\ a_cols K' = a_cols J /\
       forall i j, a_at K' i j = if within ui (length (wu u)) i && within pi (length (wv v)) j then scaled fmul s (a_at K i j) else a_at K i j).
    { intros K s K1 K2. destruct s as [s|]; cbn; [|split; [exact K1|split; [exact K2|intros; destruct (_ && _); reflexivity]]].
      rewrite K1, K2, (clip_in _ _ _ Hr), (clip_in _ _ _ Hc). repeat split. }
    match goal with |- context [scale_slice fmul (scale_slice fmul ?K0 _ _ _ _ _) _ _ _ _ _] => set (K := K0) end.
    destruct (S K (dv v) eq_refl eq_refl) as (A1 & A2 & A3). set (K1 := scale_slice fmul K ui (length (wu u)) pi (length (wv v)) (dv v)) in *.
    destruct (S K1 (cn u) A1 A2) as (B1 & B2 & B3). split; [exact B1|]. split; [exact B2|]. split.
    - intros i j k q Hi Hj. assert (Li : i < length (wu u)) by (apply nth_error_Some; congruence). assert (Lj : j < length (wv v)) by (apply nth_error_Some; congruence).
      assert (W : within ui (length (wu u)) (ui + i) && within pi (length (wv v)) (pi + j) = true) by (apply andb_true_iff; split; apply within_spec; lia).
      rewrite B3, W, A3, W. unfold val. f_equal. f_equal. unfold K. cbn [a_at]. rewrite W. rewrite <- (H3 i j k q Hi Hj).
      f_equal; [|f_equal]; [destruct (Nat.eqb_spec (length (wu u)) 1)|destruct (Nat.eqb_spec (length (wv v)) 1)]; lia.
    - intros i j Hn. assert (W : within ui (length (wu u)) i && within pi (length (wv v)) j = false).
      { apply not_true_iff_false. rewrite andb_true_iff, !within_spec. exact Hn. }
      rewrite B3, W, A3, W. unfold K. cbn [a_at]. rewrite W. reflexivity.
  Qed.

  Lemma cells_ok : forall vs J u ui pi rows, In u unknown -> incl vs indep -> ui + length (wu u) <= a_rows J -> pi + length (layout p (p_poi p) vs) <= a_cols J ->
    exists J', foldr (array_cell F0 fmul r Jfd dv cn u ui) (combine vs (map tg vs)) (J, pi, rows)
               = Ok (J', pi + length (layout p (p_poi p) vs), match vs with [] => rows | _ => Some (length (wu u)) end) /\
      a_rows J' = a_rows J /\ a_cols J' = a_cols J /\
      (forall i c k v q, nth_error (wu u) i = Some k -> nth_error (layout p (p_poi p) vs) c = Some (v, q) -> a_at J' (ui + i) (pi + c) = val u v k q) /\
      (forall i j, ~ (ui <= i < ui + length (wu u) /\ pi <= j) -> a_at J' i j = a_at J i j) /\
      (forall i j, j < pi -> a_at J' i j = a_at J i j).
  Proof.
    induction vs as [|v vs IH]; intros J u ui pi rows Hu Hi Hr Hc.
    - exists J. cbn [combine map foldr layout flat_map length]. rewrite Nat.add_0_r. repeat split; auto. intros i [|c] k v q _ H; discriminate H.
    - rewrite layout_cons, app_length, map_length in Hc |- *.
      destruct (cell_ok J u v ui pi rows Hu (Hi v (or_introl eq_refl)) Hr ltac:(lia)) as (J1 & E1 & R1 & C1 & V1 & O1).
      destruct (IH J1 u ui (pi + length (wv v)) (Some (length (wu u))) Hu) as (J2 & E2 & R2 & C2 & V2 & O2 & P2); [intros x Hx; apply Hi; right; exact Hx|lia|lia|].
      exists J2. cbn [map combine foldr]. rewrite E1. cbn [bind]. rewrite E2. split; [f_equal; f_equal; [f_equal; lia|destruct vs; reflexivity]|].
      split; [lia|]. split; [lia|]. split; [|split].
      + intros i c k w q Hk Hq. destruct (Nat.lt_ge_cases c (length (wv v))) as [L|L].
        * rewrite nth_error_app1 in Hq by (rewrite map_length; exact L).
          destruct (nth_error (wv v) c) as [q'|] eqn:E; [|apply nth_error_None in E; lia]. rewrite (map_nth_error (pair v) c _ E) in Hq.
          assert (v = w /\ q' = q) as [<- <-] by (split; congruence). rewrite P2 by lia. apply V1; assumption.
        * rewrite nth_error_app2 in Hq by (rewrite map_length; exact L). rewrite map_length in Hq.
          replace (pi + c) with (pi + length (wv v) + (c - length (wv v))) by lia. apply V2; assumption.
      + intros i j Hn. rewrite O2 by lia. apply O1. lia.
      + intros i j Hn. rewrite P2 by lia. apply O1. lia.
  Qed.

  Hypothesis Hindep : indep <> [].
  Lemma rows_ok : forall us J ui rows, incl us unknown -> ui + length (layout p (p_qoi p) us) <= a_rows J -> length (layout p (p_poi p) indep) <= a_cols J ->
    exists J' rows', foldr (array_row F0 fmul r Jfd dv cn (combine indep (map tg indep))) us (J, ui, rows) = Ok (J', ui + length (layout p (p_qoi p) us), rows') /\
      a_rows J' = a_rows J /\ a_cols J' = a_cols J /\
      (forall i u k c v q, nth_error (layout p (p_qoi p) us) i = Some (u, k) -> nth_error (layout p (p_poi p) indep) c = Some (v, q) -> a_at J' (ui + i) c = val u v k q) /\
      (forall i j, i < ui -> a_at J' i j = a_at J i j).
  Proof.
    induction us as [|u us IH]; intros J ui rows Hi Hr Hc.
    - exists J, rows. cbn [foldr layout flat_map length]. rewrite Nat.add_0_r. repeat split; auto. intros [|i] u k c v q H; discriminate H.
    - rewrite layout_cons, app_length, map_length in Hr |- *.
      destruct (cells_ok indep J u ui 0 rows (Hi u (or_introl eq_refl)) (incl_refl _) ltac:(lia) Hc) as (J1 & E1 & R1 & C1 & V1 & O1 & _).
      destruct (IH J1 (ui + length (wu u)) (Some (length (wu u)))) as (J2 & rows2 & E2 & R2 & C2 & V2 & O2); [intros x Hx; apply Hi; right; exact Hx|lia|lia|].
      exists J2, rows2. cbn [foldr]. unfold array_row at 1. rewrite E1. cbn [bind]. destruct indep as [|v0 vs0] eqn:EI; [congruence|]. cbn [bind]. rewrite E2.
      split; [f_equal; f_equal; f_equal; lia|]. split; [lia|]. split; [lia|]. split.
      + intros i w k c v q Hk Hq. destruct (Nat.lt_ge_cases i (length (wu u))) as [L|L].
        * rewrite nth_error_app1 in Hk by (rewrite map_length; exact L).
          destruct (nth_error (wu u) i) as [k'|] eqn:E; [|apply nth_error_None in E; lia]. rewrite (map_nth_error (pair u) i _ E) in Hk.
          assert (u = w /\ k' = k) as [<- <-] by (split; congruence). rewrite O2 by lia. exact (V1 i c k' v q E Hq).
        * rewrite nth_error_app2 in Hk by (rewrite map_length; exact L). rewrite map_length in Hk.
          replace (ui + i) with (ui + length (wu u) + (i - length (wu u))) by lia. apply V2; assumption.
      + intros i j L. rewrite O2 by lia. apply O1. lia.
  Qed.
  Lemma sizes_ok : forall idx names n0, (forall n, In n names -> var_ok p idx n) ->
    foldr (fun n name => let! k := entries p idx name in Ok (n + k)) names n0 = Ok (n0 + length (layout p idx names)).
  Proof.
    intros idx. induction names as [|n names IH]; intros n0 H; [cbn; f_equal; lia|]. cbn [foldr]. rewrite (entries_ok p idx n (H n (or_introl eq_refl))). cbn [bind].
    rewrite IH by (intros x Hx; apply H; right; exact Hx). rewrite layout_cons, app_length, map_length. f_equal. lia.
  Qed.
  Lemma array_assembled : (forall n, In n unknown -> var_ok p (p_qoi p) n) -> (forall n, In n indep -> var_ok p (p_poi p) n) ->
    exists J, (let! usize := sum_sizes p (p_qoi p) unknown in
               let! psize := sum_sizes p (p_poi p) indep in
               let! (J, _, _) := foldr (array_row F0 fmul r Jfd dv cn (combine indep (map tg indep))) unknown (zeros F0 usize psize, 0, None) in
               Ok J) = Ok J /\ jacobian fmul p indep unknown dv cn X J.
  Proof.
    intros Hu Hv. unfold sum_sizes. rewrite (sizes_ok _ _ 0 Hu), (sizes_ok _ _ 0 Hv). cbn [bind Nat.add].
    destruct (rows_ok unknown (zeros F0 (length (layout p (p_qoi p) unknown)) (length (layout p (p_poi p) indep))) 0 None (incl_refl _) (Nat.le_refl _) (Nat.le_refl _))
      as (J & rows & E & R & C & V & _).
    rewrite E. exists J. split; [reflexivity|]. split; [exact R|]. split; [exact C|]. intros a c u k v q Ha Hc. exact (V a u k c v q Ha Hc).
  Qed.

  (** ** the dictionary *)
  Context (sp : option (list (string * list string))).
  Definition askb (u v : string) : bool := match sp with None => true | Some d => match sget d u with Some l => mem l v | None => false end end.
  Hypothesis Hsp : forall u, In u unknown -> match sp with None => True | Some d => exists l, sget d u = Some l end.
  Hypothesis Hinj : forall v w, In v indep -> In w indep -> tg v = tg w -> v = w.
  Lemma askb_spec : forall u v, askb u v = true <-> asked sp u v.
  Proof.
    intros u v. unfold askb, asked. destruct sp as [d|]; [|tauto]. destruct (sget d u) as [l|].
    - rewrite mem_spec. split; [intro H; exists l; auto|intros (l' & E & H); congruence].
    - split; [discriminate|intros (l' & E & _); discriminate].
  Qed.
  Definition scaled_block (u v : string) (m : list (list F)) : list (list F) := scale_block fmul (cn u) (scale_block fmul (dv v) m).
  Lemma dict_cells_ok : forall vs (J : FdModel.jac (F:=F)) row u, In u unknown -> incl vs indep -> NoDup vs -> (forall v, In v vs -> dget2 J (u, tg v) = dget2 Jfd (u, tg v)) ->
    exists J' row', foldr (dict_cell fmul r dv cn sp u) (combine vs (map tg vs)) (J, row) = Ok (J', row') /\
      (forall v, sget row' v = if mem vs v && askb u v then Some (u, tg v) else sget row v) /\
      (forall v m, In v vs -> askb u v = true -> dget2 Jfd (u, tg v) = Some m -> dget2 J' (u, tg v) = Some (scaled_block u v m)) /\
      (forall key, (forall v, In v vs -> key <> (u, tg v)) -> dget2 J' key = dget2 J key).
  Proof.
    induction vs as [|v vs IH]; intros J row u Hu Hi Hd HJ.
    - exists J, row. cbn. repeat split; auto. intros v m [].
    - apply NoDup_cons_iff in Hd. destruct Hd as [Hd1 Hd2]. assert (Hv : In v indep) by (apply Hi; left; reflexivity).
      assert (Hi' : incl vs indep) by (intros x Hx; apply Hi; right; exact Hx).
      assert (Hdist : forall w, In w vs -> (u, tg w) <> (u, tg v)).
      { intros w Hw E. apply Hd1. rewrite <- (Hinj w v (Hi' w Hw) Hv); [exact Hw|congruence]. }
      destruct (Hblock u v Hu Hv) as (m & Em & Hm). cbn [map combine foldr].
      assert (E1 : exists J1 row1, dict_cell fmul r dv cn sp u (J, row) (v, tg v) = Ok (J1, row1) /\
               (forall w, sget row1 w = if String.eqb w v && askb u v then Some (u, tg v) else sget row w) /\
               (askb u v = true -> dget2 J1 (u, tg v) = Some (scaled_block u v m)) /\ (forall key, key <> (u, tg v) -> dget2 J1 key = dget2 J key)).
      { unfold dict_cell, block_key. rewrite (Hkey v Hv), (HJ v (or_introl eq_refl)), Em. specialize (Hsp u Hu).
        assert (T : forall A (k : bool -> res A), (let! skip := match sp with None => Ok false | Some d => let! l := get d u in Ok (negb (mem l v)) end in k skip) = k (negb (askb u v))).
        { intros A k. unfold askb. destruct sp as [d|]; [|reflexivity]. destruct Hsp as [l El]. unfold get. rewrite El. reflexivity. }
        rewrite T. destruct (askb u v); cbn [negb bind].
        - rewrite (HJ v (or_introl eq_refl)), Em. eexists. eexists. split; [reflexivity|]. split; [|split].
          + intros w. rewrite sget_sset. rewrite andb_true_r. reflexivity.
          + intros _. rewrite FdProofs.dget2_dset, FdProofs.key2_refl. reflexivity.
          + intros key Hk. rewrite FdProofs.dget2_dset, FdProofs.key2_ne by exact Hk. reflexivity.
        - exists J, row. split; [reflexivity|]. split; [intros w; rewrite andb_false_r; reflexivity|]. split; [discriminate|reflexivity]. }
      destruct E1 as (J1 & row1 & E1 & A1 & A2 & A3). rewrite E1. cbn [bind].
      destruct (IH J1 row1 u Hu Hi' Hd2) as (J2 & row2 & E2 & B1 & B2 & B3).
      { intros w Hw. rewrite A3 by (apply Hdist; exact Hw). apply HJ. right. exact Hw. }
      exists J2, row2. split; [exact E2|]. split; [|split].
      + intros w. rewrite B1, A1. unfold mem. cbn [existsb]. fold (mem vs w). destruct (String.eqb_spec w v) as [->|N]; cbn [orb].
        * rewrite (proj2 (mem_false vs v) Hd1). cbn [andb]. reflexivity.
        * cbn [andb]. reflexivity.
      + intros w m' [<-|Hw] Ha Em'; [|apply B2; assumption]. rewrite B3 by (intros w Hw E; apply (Hdist w Hw); congruence). rewrite A2 by exact Ha. congruence.
      + intros key Hk. rewrite B3 by (intros w Hw; apply Hk; right; exact Hw). apply A3. apply Hk. left. reflexivity.
  Qed.
  Lemma dict_rows_ok : forall us (J : FdModel.jac (F:=F)) (R : refs), NoDup indep -> incl us unknown -> NoDup us -> (forall u v, In u us -> In v indep -> dget2 J (u, tg v) = dget2 Jfd (u, tg v)) ->
    exists J' R', foldr (dict_row fmul r dv cn sp (combine indep (map tg indep))) us (J, R) = Ok (J', R') /\
      (forall u, ~ In u us -> sget R' u = sget R u) /\
      (forall u, In u us -> exists row, sget R' u = Some row /\ forall v, sget row v = if mem indep v && askb u v then Some (u, tg v) else None) /\
      (forall u v m, In u us -> In v indep -> askb u v = true -> dget2 Jfd (u, tg v) = Some m -> dget2 J' (u, tg v) = Some (scaled_block u v m)) /\
      (forall u k, ~ In u us -> dget2 J' (u, k) = dget2 J (u, k)).
  Proof.
    induction us as [|u us IH]; intros J R Hnd Hi Hd HJ.
    - exists J, R. cbn. split; [reflexivity|]. split; [reflexivity|]. split; [intros u []|]. split; [intros u v m []|reflexivity].
    - apply NoDup_cons_iff in Hd. destruct Hd as [Hd1 Hd2]. cbn [foldr].
      destruct (dict_cells_ok indep J [] u (Hi u (or_introl eq_refl)) (incl_refl _) Hnd) as (J1 & row1 & E1 & A1 & A2 & A3).
      { intros v Hv. apply HJ; [left; reflexivity|exact Hv]. }
      assert (E : dict_row fmul r dv cn sp (combine indep (map tg indep)) (J, R) u = Ok (J1, sset R u row1)) by (unfold dict_row; rewrite E1; reflexivity).
      rewrite E. cbn [bind]. clear E.
      destruct (IH J1 (sset R u row1) Hnd) as (J2 & R2 & E2 & B1 & B2 & B3 & B4); [intros x Hx; apply Hi; right; exact Hx|exact Hd2| |].
      { intros w v Hw Hv. rewrite A3 by (intros x Hx E; apply Hd1; congruence). apply HJ; [right; exact Hw|exact Hv]. }
      exists J2, R2. split; [exact E2|]. split; [|split; [|split]].
      + intros w Hw. rewrite B1 by (intro X0; apply Hw; right; exact X0). rewrite sget_sset. destruct (String.eqb_spec w u) as [->|N]; [exfalso; apply Hw; left; reflexivity|reflexivity].
      + intros w [<-|Hw]; [|apply B2; exact Hw]. exists row1. split; [|exact A1]. rewrite B1 by exact Hd1. rewrite sget_sset, String.eqb_refl. reflexivity.
      + intros w v m [<-|Hw] Hv Ha Em; [|apply B3; assumption]. rewrite B4 by exact Hd1. apply A2; assumption.
      + intros w k Hw. rewrite B4 by (intro X0; apply Hw; right; exact X0). apply A3. intros v _ E. apply Hw. left. congruence.
  Qed.
  Lemma nth_scale : forall s (m : list (list F)) i j, j < length m -> i < length (nth j m []) ->
    nth i (nth j (scale_block fmul s m) []) F0 = scaled fmul s (nth i (nth j m []) F0).
  Proof.
    intros [a|] m i j Hj Hi; [|reflexivity]. cbn [scale_block scaled]. rewrite (nth_indep _ [] (map (fun x => fmul x a) [])) by (rewrite map_length; exact Hj).
    rewrite map_nth. rewrite (nth_indep _ F0 (fmul F0 a)) by (rewrite map_length; exact Hi). rewrite (map_nth (fun x => fmul x a)). reflexivity.
  Qed.
  Lemma scale_shape : forall s (m : list (list F)) n, Forall (fun c => length c = n) m -> length (scale_block fmul s m) = length m /\ Forall (fun c => length c = n) (scale_block fmul s m).
  Proof.
    intros [a|] m n H; cbn [scale_block]; [|split; [reflexivity|exact H]]. split; [apply map_length|]. rewrite Forall_map. eapply Forall_impl; [|exact H].
    intros c Hc. rewrite map_length. exact Hc.
  Qed.
  Lemma sget_map : forall A B (g : string -> A -> B) (l : list (string * A)) k, sget (map (fun c => (fst c, g (fst c) (snd c))) l) k = option_map (g k) (sget l k).
  Proof.
    intros A B g l k. unfold sget. induction l as [|[n a] l IH]; [reflexivity|]. cbn [map dget fst snd]. destruct (String.eqb_spec k n) as [->|]; [reflexivity|exact IH].
  Qed.
  Lemma dict_assembled : NoDup indep -> NoDup unknown ->
    exists D, (let! (J, R) := foldr (dict_row fmul r dv cn sp (combine indep (map tg indep))) unknown (Jfd, []) in
               Ok (map (fun row => (fst row, map (fun c => (fst c, deref F0 J (snd c))) (snd row))) R)) = Ok D /\
      jacobian_dict fmul p indep unknown dv cn sp X D.
  Proof.
    intros Hni Hnu. destruct (dict_rows_ok unknown Jfd [] Hni (incl_refl _) Hnu) as (J & R & E & A1 & A2 & A3 & _); [reflexivity|].
    match type of E with ?a = _ => match goal with |- context [bind ?b _] => change b with a end end.
    rewrite E. cbn [bind]. eexists. split; [reflexivity|]. intros u.
    pose proof (sget_map _ _ (fun _ row => map (fun c => (fst c, deref F0 J (snd c))) row) R u) as S1. cbn beta in S1. rewrite S1. clear S1.
    destruct (in_dec string_dec u unknown) as [Hu|Hu].
    - destruct (A2 u Hu) as (row & -> & Hrow). cbn [option_map]. split; [exact Hu|]. intros v.
      pose proof (sget_map _ _ (fun _ c => deref F0 J c) row v) as S2. cbn beta in S2. rewrite S2. clear S2. rewrite Hrow. split.
      + destruct (mem indep v && askb u v) eqn:T.
        * apply andb_prop in T. destruct T as [T1 T2]. rewrite mem_spec in T1. apply askb_spec in T2. cbn. split; [auto|discriminate].
        * cbn. split; [congruence|]. intros [T1 T2]. apply (mem_spec indep v) in T1. apply askb_spec in T2. rewrite T1, T2 in T. discriminate.
      + intros cell Hc Nu Nv. destruct (mem indep v && askb u v) eqn:T; [|discriminate]. apply andb_prop in T. destruct T as [T1 T2]. rewrite mem_spec in T1.
        cbn in Hc. destruct (Hblock u v Hu T1) as (m & Em & Hm). unfold deref in Hc. rewrite (A3 u v m Hu T1 T2 Em) in Hc. cbn in Hc.
        pose proof (holds_rows m u v T1 Hm) as Er. destruct Hm as (H1 & H2 & H3).
        destruct (scale_shape (dv v) m _ H2) as [L1 F1']. destruct (scale_shape (cn u) _ _ F1') as [L2 F2'].
        exists (to_arr F0 (scaled_block u v m)). split; [congruence|]. split; [|split].
        * cbn. unfold rows_of, scaled_block. unfold scaled_block in *. destruct (scale_block fmul (cn u) (scale_block fmul (dv v) m)) as [|c l] eqn:EE.
          -- cbn in L2. rewrite L1, H1 in L2. destruct (wv v); [congruence|discriminate].
          -- inversion F2'; subst. assumption.
        * cbn. unfold scaled_block. lia.
        * intros i j k q Hi Hj. cbn. unfold scaled_block. assert (Li : i < length (wu u)) by (apply nth_error_Some; congruence). assert (Lj : j < length (wv v)) by (apply nth_error_Some; congruence).
          rewrite nth_scale; [rewrite nth_scale; [rewrite (H3 i j k q Hi Hj); reflexivity|lia|]|lia|].
          -- rewrite Forall_forall in H2. rewrite (H2 (nth j m [])); [exact Li|apply nth_In; lia].
          -- rewrite Forall_forall in F1'. rewrite (F1' (nth j _ [])); [exact Li|apply nth_In; lia].
    - rewrite A1 by exact Hu. cbn. exact Hu.
  Qed.
End Assemble.

(** Lemmas about training with two fidelities. *)
From Coq Require Import DecimalString.
From Verif Require Import Base BaseFacts MetaModel MetaSpec MetaProofs MfiModel MfiSpec.
Local Open Scope string_scope.
Local Open Scope nat_scope.
Local Open Scope list_scope.

Lemma level_name0 : forall n, level_name n 0 = n.
Proof. reflexivity. Qed.
Lemma has : forall data fi name, data (level_name name fi) <> None -> data (level_name name fi) = Some (at_level data fi name).
Proof. intros data fi name H. unfold at_level. destruct (data (level_name name fi)); congruence. Qed.

Section Two.
  Variable data : dict.
  Variables n0 n1 : nat.
  Lemma count_two : forall ps, given ps data 0 n0 -> given ps data 1 n1 -> forall a b, (a = None \/ a = Some n0) -> (b = None \/ b = Some n1) ->
      count_params data ps [a; b] = Ok match ps with [] => [a; b] | _ => [Some n0; Some n1] end.
  Proof.
    induction ps as [|[name sz] ps IH]; intros G0 G1 a b Ha Hb; [reflexivity|]. cbn [count_params count_param].
    destruct G0 as [P0 S0], G1 as [P1 S1]. rewrite level_name0. pose proof (has data 0 name (P0 name sz (or_introl eq_refl))) as E0. rewrite level_name0 in E0. rewrite E0, (has data 1 name (P1 name sz (or_introl eq_refl))).
    destruct (S0 name sz (or_introl eq_refl)) as (L0 & _). destruct (S1 name sz (or_introl eq_refl)) as (L1 & _). rewrite L0, L1.
    assert (IH' : count_params data ps [Some n0; Some n1] = Ok match ps with [] => [Some n0; Some n1] | _ => [Some n0; Some n1] end).
    { apply IH; [split; [intros n s I; apply (P0 n s); right; exact I|intros n s I; apply (S0 n s); right; exact I]|split; [intros n s I; apply (P1 n s); right; exact I|intros n s I; apply (S1 n s); right; exact I]|auto|auto]. }
    destruct Ha as [-> | ->], Hb as [-> | ->]; rewrite ?Nat.eqb_refl; cbn [bind]; rewrite IH'; destruct ps; reflexivity.
  Qed.
  Lemma check_two : forall os, given os data 0 n0 -> given os data 1 n1 -> check_outputs data os [Some n0; Some n1] = Ok tt.
  Proof.
    induction os as [|[name sz] os IH]; intros [P0 S0] [P1 S1]; [reflexivity|]. cbn [check_outputs check_output].
    rewrite level_name0. pose proof (has data 0 name (P0 name sz (or_introl eq_refl))) as E0. rewrite level_name0 in E0. rewrite E0, (has data 1 name (P1 name sz (or_introl eq_refl))).
    destruct (S0 name sz (or_introl eq_refl)) as (L0 & _). destruct (S1 name sz (or_introl eq_refl)) as (L1 & _). rewrite L0, L1, !Nat.eqb_refl. cbn [bind].
    apply IH; [split; [intros n s I; apply (P0 n s); right; exact I|intros n s I; apply (S0 n s); right; exact I]|split; [intros n s I; apply (P1 n s); right; exact I|intros n s I; apply (S1 n s); right; exact I]].
  Qed.

  Definition run_level (w : nat) (ps : list (string * nat)) (fi : nat) (l : level) : outcome matrix :=
    if v_n l =? 0 then (v_new l, None) else fill w ps (at_level data fi) (v_idx l) (v_new l).
  Lemma fill_two : forall w ps l0 l1 M0 M1, (forall name sz, In (name, sz) ps -> data (level_name name 0) <> None /\ data (level_name name 1) <> None) ->
      run_level w ps 0 l0 = (M0, None) -> run_level w ps 1 l1 = (M1, None) ->
      exists i0 i1, fill_all w data ps [l0; l1] = ([mkLevel (v_n l0) M0 i0; mkLevel (v_n l1) M1 i1], None).
  Proof.
    intros w. induction ps as [|[name sz] ps IH]; intros [k0 N0 x0] [k1 N1 x1] M0 M1 P R0 R1; unfold run_level in *; cbn [v_n v_new v_idx] in *.
    - cbn [fill_all fill] in *. exists x0, x1. destruct (k0 =? 0), (k1 =? 0); injection R0 as <-; injection R1 as <-; reflexivity.
    - destruct (P name sz (or_introl eq_refl)) as [P0 P1]. pose proof (has data 0 name P0) as E0. rewrite level_name0 in E0. pose proof (has data 1 name P1) as E1.
      assert (P' : forall n s, In (n, s) ps -> data (level_name n 0) <> None /\ data (level_name n 1) <> None) by (intros n s I; apply (P n s); right; exact I).
      cbn [fill_all fill_param v_n v_new v_idx]. rewrite level_name0, E0, E1. cbn [fill] in R0, R1.
      destruct (k0 =? 0) eqn:K0, (k1 =? 0) eqn:K1.
      + apply (IH (mkLevel k0 N0 x0) (mkLevel k1 N1 x1) M0 M1 P'); unfold run_level; cbn [v_n v_new v_idx]; rewrite ?K0, ?K1; assumption.
      + destruct (if first_float (at_level data 1 name) then _ else _) as [Q1 [e|]]; [discriminate|].
        apply (IH (mkLevel k0 N0 x0) (mkLevel k1 Q1 (if first_float (at_level data 1 name) then x1 + 1 else x1)) M0 M1 P'); unfold run_level; cbn [v_n v_new v_idx]; rewrite ?K0, ?K1; assumption.
      + destruct (if first_float (at_level data 0 name) then _ else _) as [Q0 [e|]]; [discriminate|].
        apply (IH (mkLevel k0 Q0 (if first_float (at_level data 0 name) then x0 + 1 else x0)) (mkLevel k1 N1 x1) M0 M1 P'); unfold run_level; cbn [v_n v_new v_idx]; rewrite ?K0, ?K1; assumption.
      + destruct (if first_float (at_level data 0 name) then _ else _) as [Q0 [e|]]; [discriminate|]. destruct (if first_float (at_level data 1 name) then _ else _) as [Q1 [e|]]; [discriminate|].
        apply (IH (mkLevel k0 Q0 (if first_float (at_level data 0 name) then x0 + 1 else x0)) (mkLevel k1 Q1 (if first_float (at_level data 1 name) then x1 + 1 else x1)) M0 M1 P'); unfold run_level; cbn [v_n v_new v_idx]; rewrite ?K0, ?K1; assumption.
  Qed.
  Lemma level_points : forall params fi n, given params data fi n -> floats_first params (at_level data fi) -> run_level (width_of params) params fi (mkLevel n (zeros n (width_of params)) 0) = (points params (at_level data fi) n, None).
  Proof.
    intros params fi n [_ S] FF. unfold run_level. cbn [v_n v_new v_idx]. destruct n as [|n]; [reflexivity|]. cbn [Nat.eqb]. apply fill_zeros; [lia|exact S|exact FF].
  Qed.

  Lemma kept_ok : forall (warm : bool) old (Y : matrix), length Y = old -> (if warm then (if 0 <? old then copy_old old Y else Ok []) else Ok []) = Ok (if warm then Y else []).
  Proof.
    intros warm old Y L. destruct warm; [|reflexivity]. destruct (0 <? old) eqn:E; [unfold copy_old; rewrite L, Nat.eqb_refl; reflexivity|]. apply Nat.ltb_ge in E. f_equal. symmetry. apply length_zero_iff_nil. lia.
  Qed.
  Lemma out_two : forall (warm : bool) name sz o0 o1 (Y0 Y1 : matrix) cur, given [(name, sz)] data 0 n0 -> given [(name, sz)] data 1 n1 -> length cur = 2 ->
      (warm = true -> length Y0 = o0 /\ length Y1 = o1) -> (warm = true \/ 0 < n0 /\ 0 < n1) ->
      exists cur', length cur' = 2 /\ out_levels warm data name sz 0 [n0; n1] [o0; o1] cur [Some Y0; Some Y1] =
        (cur', [Some (grow warm Y0 (map (fun v => flat v) (at_level data 0 name))); Some (grow warm Y1 (map (fun v => flat v) (at_level data 1 name)))], None).
  Proof.
    intros warm name sz o0 o1 Y0 Y1 cur [P0 S0] [P1 S1] LC LY WN. destruct cur as [|c0 [|c1 [|]]]; try discriminate.
    destruct (S0 name sz (or_introl eq_refl)) as (L0 & H0 & U0). destruct (S1 name sz (or_introl eq_refl)) as (L1 & H1 & U1).
    pose proof (has data 0 name (P0 name sz (or_introl eq_refl))) as E0. pose proof (has data 1 name (P1 name sz (or_introl eq_refl))) as E1.
    assert (Z : forall l : list tval, length l = 0 -> l = []) by (intros l; apply length_zero_iff_nil).
    cbn [out_levels]. cbn [nth]. rewrite E0, E1. unfold grow.
    destruct warm.
    - destruct (LY eq_refl) as [Q0 Q1]. pose proof (kept_ok true o0 Y0 Q0) as K0. pose proof (kept_ok true o1 Y1 Q1) as K1. cbn beta iota in K0, K1.
      destruct n0 as [|k0], n1 as [|k1]; cbn [Nat.eqb].
      + rewrite (Z _ L0), (Z _ L1). cbn [map]. rewrite !app_nil_r. exists [c0; c1]. split; reflexivity.
      + rewrite (Z _ L0). cbn [map]. rewrite app_nil_r. rewrite K1. rewrite (output_rows (at_level data 1 name) sz (S k1) ltac:(lia) L1 H1 U1). cbn [put]. eexists. split; [|reflexivity]. reflexivity.
      + rewrite (Z _ L1). cbn [map]. rewrite app_nil_r. rewrite K0. rewrite (output_rows (at_level data 0 name) sz (S k0) ltac:(lia) L0 H0 U0). cbn [put]. eexists. split; [|reflexivity]. reflexivity.
      + rewrite K0. rewrite (output_rows (at_level data 0 name) sz (S k0) ltac:(lia) L0 H0 U0). cbn [put nth]. rewrite K1. rewrite (output_rows (at_level data 1 name) sz (S k1) ltac:(lia) L1 H1 U1). cbn [put]. eexists. split; [|reflexivity]. reflexivity.
    - destruct WN as [W|[N0 N1]]; [discriminate|]. destruct n0 as [|k0]; [lia|]. destruct n1 as [|k1]; [lia|]. cbn [Nat.eqb].
      rewrite (output_rows (at_level data 0 name) sz (S k0) N0 L0 H0 U0), (output_rows (at_level data 1 name) sz (S k1) N1 L1 H1 U1). cbn [put app]. eexists. split; [|reflexivity]. reflexivity.
  Qed.
  Lemma outs_set : forall p o w t i d name l name', outs_of (mkMfi p o w t i (sset d name l)) name' = if String.eqb name' name then l else outs_of (mkMfi p o w t i d) name'.
  Proof.
    intros. unfold outs_of. cbn [f_out]. unfold sget, sset. rewrite (dget_dset String.eqb String.eqb_eq). destruct (String.eqb name' name); reflexivity.
  Qed.
  Lemma outs_two : forall o0 o1 (Y0 Y1 : string -> matrix) os st cur, given os data 0 n0 -> given os data 1 n1 -> length cur = 2 -> NoDup (map fst os) ->
      (forall name sz, In (name, sz) os -> outs_of st name = [Some (Y0 name); Some (Y1 name)] /\ (f_warm st = true -> length (Y0 name) = o0 /\ length (Y1 name) = o1)) ->
      (f_warm st = true \/ 0 < n0 /\ 0 < n1) ->
      let Y' := fun name => [Some (grow (f_warm st) (Y0 name) (map (fun v => flat v) (at_level data 0 name))); Some (grow (f_warm st) (Y1 name) (map (fun v => flat v) (at_level data 1 name)))] in
      exists st', out_all st data [n0; n1] [o0; o1] cur os = (st', (map (fun o => (fst o, (f_in st, Y' (fst o)))) os, None)) /\
        f_params st' = f_params st /\ f_outputs st' = f_outputs st /\ f_warm st' = f_warm st /\ f_in st' = f_in st /\ f_train st' = f_train st /\
        (forall name, ~ In name (map fst os) -> outs_of st' name = outs_of st name) /\ (forall name, In name (map fst os) -> outs_of st' name = Y' name).
  Proof.
    intros o0 o1 Y0 Y1. induction os as [|[name sz] os IH]; intros st cur G0 G1 LC ND HY WN Y'.
    - exists st. cbn. repeat split; auto. intros name [].
    - destruct G0 as [P0 S0], G1 as [P1 S1]. destruct (HY name sz (or_introl eq_refl)) as (EY & LY). cbn [out_all]. rewrite EY.
      destruct (out_two (f_warm st) name sz o0 o1 (Y0 name) (Y1 name) cur) as (cur' & LC' & E); [split; [intros n s [I|[]]; apply (P0 n s); left; exact I|intros n s [I|[]]; apply (S0 n s); left; exact I]|split; [intros n s [I|[]]; apply (P1 n s); left; exact I|intros n s [I|[]]; apply (S1 n s); left; exact I]|exact LC|exact LY|exact WN|]. rewrite E. fold (Y' name).
      inversion ND as [|? ? NI ND']; subst. set (st1 := mkMfi (f_params st) (f_outputs st) (f_warm st) (f_train st) (f_in st) (sset (f_out st) name (Y' name))).
      assert (O1 : forall m, outs_of st1 m = if String.eqb m name then Y' name else outs_of st m) by (intros m; unfold st1; rewrite outs_set; reflexivity).
      destruct (IH st1 cur') as (st' & E' & Q1 & Q2 & Q3 & Q4 & Q5 & Q6 & Q7).
      + split; [intros n s I; apply (P0 n s); right; exact I|intros n s I; apply (S0 n s); right; exact I].
      + split; [intros n s I; apply (P1 n s); right; exact I|intros n s I; apply (S1 n s); right; exact I].
      + exact LC'.
      + exact ND'.
      + intros m s I. rewrite O1. destruct (String.eqb_spec m name) as [->|NE]; [exfalso; apply NI; apply in_map_iff; exists (name, s); auto|]. apply (HY m s). right. exact I.
      + exact WN.
      + change (f_warm st1) with (f_warm st) in E', Q7. change (f_in st1) with (f_in st) in E'. rewrite E'. cbn [fst snd]. exists st'. split; [reflexivity|]. rewrite Q1, Q2, Q3, Q4, Q5. do 5 (split; [reflexivity|]). split.
        * intros m NM. cbn [map fst In] in NM. rewrite Q6 by tauto. rewrite O1. destruct (String.eqb_spec m name) as [->|NE]; [exfalso; tauto|reflexivity].
        * intros m IM. cbn [map fst] in IM. destruct (in_dec String.string_dec m (map fst os)) as [Im|Nm]; [apply Q7; exact Im|]. destruct IM as [<-|Im]; [|contradiction]. rewrite Q6 by exact Nm. rewrite O1, String.eqb_refl. reflexivity.
  Qed.
End Two.

Lemma mtrain_two : forall st data n0 n1 X0 X1 Y0 Y1, f_params st <> [] -> NoDup (map fst (f_outputs st)) ->
    given (f_params st) data 0 n0 -> given (f_params st) data 1 n1 -> given (f_outputs st) data 0 n0 -> given (f_outputs st) data 1 n1 ->
    floats_first (f_params st) (at_level data 0) -> floats_first (f_params st) (at_level data 1) -> (f_warm st = true \/ 0 < n0 /\ 0 < n1) ->
    mholds st [X0; X1] (fun name => [Y0 name; Y1 name]) -> mtrained_well st data n0 n1 X0 X1 Y0 Y1.
Proof.
  intros st data n0 n1 X0 X1 Y0 Y1 NP ND GP0 GP1 GO0 GO1 F0 F1 WN [HX HY]. unfold mtrained_well, mtrain. rewrite HX. cbn [length repeat].
  rewrite (count_two data n0 n1 (f_params st) GP0 GP1 None None) by auto. destruct (f_params st) as [|p0 ps] eqn:EP; [contradiction|]. rewrite <- EP in *. clear NP.
  cbn [bind]. rewrite (check_two data n0 n1 (f_outputs st) GO0 GO1). cbn [bind counts map].
  destruct (fill_two data (width_of (f_params st)) (f_params st) (mkLevel n0 (zeros n0 (width_of (f_params st))) 0) (mkLevel n1 (zeros n1 (width_of (f_params st))) 0) (points (f_params st) (at_level data 0) n0) (points (f_params st) (at_level data 1) n1)) as (i0 & i1 & E).
  - intros name sz I. split; [exact (proj1 GP0 name sz I)|exact (proj1 GP1 name sz I)].
  - apply level_points; assumption.
  - apply level_points; assumption.
  - rewrite E. cbn [combine map fst snd v_new]. set (X' := [_; _]).
    set (st1 := mkMfi (f_params st) (f_outputs st) (f_warm st) (f_train st) X' (f_out st)).
    set (o0 := if f_warm st then length X0 else 0). set (o1 := if f_warm st then length X1 else 0).
    replace (if f_warm st then [length X0; length X1] else [0; 0]) with [o0; o1] by (unfold o0, o1; destruct (f_warm st); reflexivity).
    destruct (outs_two data n0 n1 o0 o1 Y0 Y1 (f_outputs st) st1 [None; None] GO0 GO1 eq_refl ND) as (st2 & E2 & Q1 & Q2 & Q3 & Q4 & Q5 & Q6 & Q7).
    + intros name sz I. destruct (HY name sz I) as (A & B). split; [exact A|]. cbn in B. injection B as B0 B1. intros W. change (f_warm st = true) in W. unfold o0, o1. rewrite W. auto.
    + exact WN.
    + change (f_warm st1) with (f_warm st) in E2, Q3, Q7. change (f_in st1) with X' in E2, Q4. rewrite E2. cbn [snd]. eexists. split; [reflexivity|]. cbn [f_params f_outputs f_warm f_train]. rewrite Q1, Q2, Q3. cbn [st1 f_params f_outputs f_warm]. split; [|auto].
      split; [cbn [f_in]; exact Q4|]. cbn [f_outputs]. intros name sz I. change (In (name, sz) (f_outputs st)) in I. split.
      * etransitivity; [|apply Q7]; [reflexivity|]. apply in_map_iff. exists (name, sz). auto.
      * destruct (HY name sz I) as (_ & B). cbn in B. injection B as B0 B1. destruct (proj2 GO0 name sz I) as (L0 & _). destruct (proj2 GO1 name sz I) as (L1 & _).
        unfold X', grow. cbn [map]. rewrite !app_length, !map_length, !points_length, L0, L1. destruct (f_warm st); [rewrite B0, B1|]; reflexivity.
Qed.

(** ** three levels *)
Lemma three_fail : forall st data p sz ps, f_params st = (p, sz) :: ps -> 3 <= length (f_in st) -> data (level_name (level_name p 1) 2) = None -> mtrain st data = (st, ([], Some KeyError)).
Proof.
  intros st data p sz ps EP L D. unfold mtrain. rewrite EP. destruct (f_in st) as [|a [|b [|c r]]] eqn:EI; cbn in L; try lia. cbn [length repeat count_params count_param]. rewrite level_name0.
  destruct (data p) as [v|]; [|reflexivity]. destruct (data (level_name p 1)) as [v1|]; [|reflexivity]. rewrite D. reflexivity.
Qed.
Fixpoint chars (s : string) : list ascii := match s with EmptyString => [] | String c r => c :: chars r end.
Lemma chars_app : forall a b, chars (a ++ b)%string = chars a ++ chars b.
Proof. induction a as [|c a IH]; intros b; cbn; [reflexivity|]. rewrite IH. reflexivity. Qed.
Lemma chars_inj : forall a b, chars a = chars b -> a = b.
Proof. induction a as [|c a IH]; intros [|d b] H; cbn in H; try discriminate; [reflexivity|]. injection H as -> H. rewrite (IH b H). reflexivity. Qed.
Lemma digits : forall d, ~ In "_"%char (chars (NilEmpty.string_of_uint d)).
Proof. induction d; cbn; try tauto; intros [K|K]; try discriminate; contradiction. Qed.
Lemma last_mark : forall (c : ascii) a x b y, ~ In c x -> ~ In c y -> a ++ c :: x = b ++ c :: y -> a = b /\ x = y.
Proof.
  intros c. induction a as [|z a IH]; intros x b y Nx Ny E.
  - destruct b as [|w b]; cbn in E; [injection E as ->; auto|]. injection E as <- E. exfalso. apply Nx. rewrite E. apply in_or_app. right. left. reflexivity.
  - destruct b as [|w b]; cbn in E; injection E as -> E; [exfalso; apply Ny; rewrite <- E; apply in_or_app; right; left; reflexivity|]. destruct (IH x b y Nx Ny E) as [-> ->]. auto.
Qed.
Lemma level_three : forall p v fi, level_name (level_name p 1) 2 = level_name v fi -> v = level_name p 1 \/ v = level_name (level_name p 1) 2.
Proof.
  intros p v [|fi] E; [right; symmetry; exact E|]. left. unfold level_name in E. apply (f_equal chars) in E. rewrite !chars_app in E.
  change (chars "_fi") with ("_"%char :: ["f"; "i"]%char) in E. cbn [app] in E.
  assert (N : forall k, ~ In "_"%char ("f"%char :: "i"%char :: chars (show k))) by (intros k [K|[K|K]]; try discriminate; exact (digits _ K)).
  apply (last_mark "_"%char) in E; [|apply N|apply N]. destruct E as [E _]. apply chars_inj. rewrite <- E. unfold level_name. rewrite !chars_app. reflexivity.
Qed.

(** ** data that do not fit *)
Definition present2 (data : dict) (vs : list (string * nat)) : Prop := forall name sz, In (name, sz) vs -> data (level_name name 0) <> None /\ data (level_name name 1) <> None.
Lemma count_case : forall data ps, present2 data ps -> forall a b,
    count_params data ps [a; b] = Err RuntimeError \/
    exists a' b', count_params data ps [a; b] = Ok [a'; b'] /\ (a <> None -> a' = a) /\ (b <> None -> b' = b) /\
      forall name sz, In (name, sz) ps -> a' = Some (length (at_level data 0 name)) /\ b' = Some (length (at_level data 1 name)).
Proof.
  intros data. induction ps as [|[name sz] ps IH]; intros P a b.
  - right. exists a, b. split; [reflexivity|]. split; [auto|]. split; [auto|]. intros n s [].
  - cbn [count_params count_param]. destruct (P name sz (or_introl eq_refl)) as [P0 P1]. pose proof (has data 0 name P0) as E0. rewrite level_name0 in E0. rewrite level_name0, E0, (has data 1 name P1).
    assert (P' : present2 data ps) by (intros n s I; apply (P n s); right; exact I).
    set (k0 := length (at_level data 0 name)). set (k1 := length (at_level data 1 name)).
    assert (Step : (a <> None -> a = Some k0) -> (b <> None -> b = Some k1) ->
      count_params data ps [Some k0; Some k1] = Err RuntimeError \/
      exists a' b', count_params data ps [Some k0; Some k1] = Ok [a'; b'] /\ (a <> None -> a' = a) /\ (b <> None -> b' = b) /\
        forall n s, In (n, s) ((name, sz) :: ps) -> a' = Some (length (at_level data 0 n)) /\ b' = Some (length (at_level data 1 n))).
    { intros Ha Hb. destruct (IH P' (Some k0) (Some k1)) as [E|(a' & b' & E & A & B & F)]; [left; exact E|]. right. specialize (A ltac:(discriminate)). specialize (B ltac:(discriminate)). subst a' b'. exists (Some k0), (Some k1). split; [exact E|].
      split; [intros K; symmetry; exact (Ha K)|]. split; [intros K; symmetry; exact (Hb K)|]. intros n s [I|I]; [injection I as <- <-; auto|exact (F n s I)]. }
    destruct a as [a|], b as [b|]; cbn [bind].
    + destruct (k0 =? a) eqn:Ea; [|left; reflexivity]. apply Nat.eqb_eq in Ea. destruct (k1 =? b) eqn:Eb; [|left; reflexivity]. apply Nat.eqb_eq in Eb. cbn [bind]. rewrite <- Ea, <- Eb in *. apply Step; auto.
    + destruct (k0 =? a) eqn:Ea; [|left; reflexivity]. apply Nat.eqb_eq in Ea. cbn [bind]. rewrite <- Ea in *. apply Step; [auto|congruence].
    + destruct (k1 =? b) eqn:Eb; [|left; reflexivity]. apply Nat.eqb_eq in Eb. cbn [bind]. rewrite <- Eb in *. apply Step; [congruence|auto].
    + apply Step; congruence.
Qed.
Lemma check_case : forall data k0 k1 os, present2 data os -> check_outputs data os [Some k0; Some k1] = Err RuntimeError \/
    check_outputs data os [Some k0; Some k1] = Ok tt /\ forall name sz, In (name, sz) os -> length (at_level data 0 name) = k0 /\ length (at_level data 1 name) = k1.
Proof.
  intros data k0 k1. induction os as [|[name sz] os IH]; intros P; [right; split; [reflexivity|intros n s []]|].
  cbn [check_outputs check_output]. destruct (P name sz (or_introl eq_refl)) as [P0 P1]. pose proof (has data 0 name P0) as E0. rewrite level_name0 in E0. rewrite level_name0, E0, (has data 1 name P1).
  destruct (length (at_level data 0 name) =? k0) eqn:A; [|left; reflexivity]. destruct (length (at_level data 1 name) =? k1) eqn:B; [|left; reflexivity]. cbn [bind]. apply Nat.eqb_eq in A, B.
  destruct (IH ltac:(intros n s I; apply (P n s); right; exact I)) as [E|[E F]]; [left; exact E|right; split; [exact E|]]. intros n s [I|I]; [injection I as <- <-; auto|exact (F n s I)].
Qed.
Lemma mismatch : forall st data a b fi, length (f_in st) = 2 -> f_params st <> [] -> present2 data (f_params st ++ f_outputs st) -> fi < 2 ->
    In a (map fst (f_params st ++ f_outputs st)) -> In b (map fst (f_params st ++ f_outputs st)) -> length (at_level data fi a) <> length (at_level data fi b) ->
    mtrain st data = (st, ([], Some RuntimeError)).
Proof.
  intros st data a b fi L NP P Lf Ia Ib D. unfold mtrain. rewrite L. cbn [repeat].
  destruct (count_case data (f_params st) ltac:(intros n s I; apply (P n s); apply in_or_app; left; exact I) None None) as [E|(a' & b' & E & _ & _ & F)]; rewrite E; [reflexivity|]. cbn [bind].
  destruct (f_params st) as [|[p s] ps] eqn:EP; [contradiction|]. destruct (F p s (or_introl eq_refl)) as [-> ->].
  destruct (check_case data (length (at_level data 0 p)) (length (at_level data 1 p)) (f_outputs st) ltac:(intros n s' I; apply (P n s'); apply in_or_app; right; exact I)) as [C|[C G]]; rewrite C; [reflexivity|].
  exfalso. apply D.
  assert (K : forall x, In x (map fst (((p, s) :: ps) ++ f_outputs st)) -> length (at_level data 0 x) = length (at_level data 0 p) /\ length (at_level data 1 x) = length (at_level data 1 p)).
  { intros x I. apply in_map_iff in I. destruct I as ([x' sx] & <- & I). cbn [fst]. apply in_app_or in I. destruct I as [I|I]; [|apply (G x' sx I)]. destruct (F x' sx I) as [Q0 Q1]. split; congruence. }
  destruct (K a Ia) as [A0 A1]. destruct (K b Ib) as [B0 B1]. destruct fi as [|[|fi]]; [congruence|congruence|lia].
Qed.

(** ** several trainings *)
Fixpoint trainings (st : mstate) (l : list dict) : mstate * list (list mtraining * option pyerr) :=
  match l with [] => (st, []) | d :: r => let (st1, o) := mtrain st d in let (st2, os) := trainings st1 r in (st2, o :: os) end.

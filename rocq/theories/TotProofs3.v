(** Lemmas for TotProps.v: linear models. *)
From Coq Require Import Field_theory Field Ring.
From Verif Require Import Base BaseFacts GradModel LinModel LinSpec LinProofs GradSpec GradProofs TotModel TotSpec TotProofs TotProofs2.
From Verif Require FdModel FdSpec FdProofs.
Local Open Scope string_scope.
Local Open Scope nat_scope.
Local Open Scope list_scope.

Section Linear.
  Context {F : Type} (F0 F1 : F) (fadd fmul fsub : F -> F -> F) (fopp : F -> F) (fdiv : F -> F -> F) (finv : F -> F) (flt : F -> F -> bool).
  Hypothesis Fth : field_theory F0 F1 fadd fmul fsub fopp fdiv finv (@eq F).
  Add Field FfL : Fth.
  Notation prob := (prob (F:=F)).
  Notation root := (root (F:=F)).
  Notation st := (FdModel.st (F:=F)).
  Notation total_derivatives := (total_derivatives F0 F1 fadd fmul fopp).

  Lemma row_scale : forall m (x : col -> F) a k, row_of F0 fadd fmul m (fun c => fmul (x c) a) k = fmul (row_of F0 fadd fmul m x k) a.
  Proof.
    intros m x a k. unfold row_of. unfold total. induction m as [|e m IH]; cbn [map fold_right]; [ring|]. rewrite IH. destruct (e_row e =? k); ring.
  Qed.
  Lemma row_div : forall (s : sys (F:=F)) (x : nat -> F) h k, h <> F0 ->
    row_of F0 fadd fmul (sys_mat F1 fmul fopp None s) (over (fun i => fdiv (x i) h) (fun _ => F0)) k
    = fdiv (row_of F0 fadd fmul (sys_mat F1 fmul fopp None s) (over x (fun _ => F0)) k) h.
  Proof.
    intros s x h k Hh. transitivity (row_of F0 fadd fmul (sys_mat F1 fmul fopp None s) (fun c => fmul (over x (fun _ => F0) c) (finv h)) k).
    - apply row_ext. intros e _. destruct (e_col e); cbn [over]; field; exact Hh.
    - rewrite row_scale. field. exact Hh.
  Qed.

  (** any vector which moves with one input is a multiple of its column of derivatives *)
  Lemma column : forall (p : prob) (s : sys (F:=F)) X (D : nat -> F) q h, wf s -> exact F0 F1 fadd fmul fopp p s false -> total_derivatives s X -> In q (rows s) -> h <> F0 ->
    (forall k, In k (rows s) -> row_of F0 fadd fmul (sys_mat F1 fmul fopp None s) (over D (fun _ => F0)) k = if k =? q then fopp h else F0) ->
    forall k, In k (rows s) -> fdiv (D k) h = X k q.
  Proof.
    intros p s X D q h Hw He HX Hq Hh HD k Hk. set (Y := fun a b => if b =? q then fdiv (D a) h else X a b).
    assert (HY : total_derivatives s Y).
    { intros b a Hb Ha. unfold Y. destruct (Nat.eqb_spec b q) as [->|Nb]; [|exact (HX b a Hb Ha)]. rewrite row_div by exact Hh. rewrite HD by exact Ha. unfold minus_unit.
      destruct (a =? q); field; exact Hh. }
    pose proof (derivatives_unique F0 F1 fadd fmul fsub fopp (F_R Fth) p s Y X Hw He HY HX q k Hq Hk) as E. unfold Y in E. rewrite Nat.eqb_refl in E. exact E.
  Qed.

  Lemma moved_length : forall j d x, length (moved F0 fadd j d x) = length x.
  Proof. intros. unfold moved. rewrite map_length, seq_length. reflexivity. Qed.
  Lemma moved_nth : forall j d x i, i < length x -> nth i (moved F0 fadd j d x) F0 = if i =? j then fadd (nth i x F0) d else nth i x F0.
  Proof.
    intros j d x i Hi. unfold moved. exact (FdProofs2.nth_map_seq (fun i => if i =? j then fadd (nth i x F0) d else nth i x F0) F0 (length x) i Hi).
  Qed.
  Lemma nodup_nth : forall A (l : list A) i j a, NoDup l -> nth_error l i = Some a -> nth_error l j = Some a -> i = j.
  Proof. intros A l i j a Hd H1 H2. apply (proj1 (NoDup_nth_error l) Hd); [apply nth_error_Some; congruence|congruence]. Qed.

  Lemma FdModel_place_dec : forall a b : FdModel.place * nat, {a = b} + {a <> b}.
  Proof. intros [a i] [b j]. decide equality; [apply Nat.eq_dec|decide equality]. Qed.
  (** the change between two solutions that differ in one input *)
  Lemma change_of : forall (s : sys (F:=F)) ins (U : list F -> nat -> F) x y j q h, linear_model F0 F1 fadd fmul fsub fopp s ins U -> NoDup ins ->
    nth_error ins j = Some (FdModel.InU, q) -> length x = length ins -> length y = length ins ->
    (forall i, i < length ins -> fsub (nth i x F0) (nth i y F0) = if i =? j then h else F0) ->
    forall k, In k (rows s) -> row_of F0 fadd fmul (sys_mat F1 fmul fopp None s) (over (fun i => fsub (U x i) (U y i)) (fun _ => F0)) k = if k =? q then fopp h else F0.
  Proof.
    intros s ins U x y j q h HL Hd Hj Hx Hy H k Hk. destruct (HL x y k Hx Hy Hk) as [H1 H2]. destruct (in_dec (FdModel_place_dec) (FdModel.InU, k) ins) as [I|I].
    - apply In_nth_error in I. destruct I as [i Hi]. rewrite (H1 i Hi). rewrite H by (apply nth_error_Some; congruence). destruct (Nat.eqb_spec i j) as [->|N].
      + assert (k = q) by congruence. subst k. rewrite Nat.eqb_refl. reflexivity.
      + destruct (Nat.eqb_spec k q) as [->|_]; [exfalso; apply N; exact (nodup_nth _ ins i j _ Hd Hi Hj)|]. ring.
    - rewrite (H2 I). destruct (Nat.eqb_spec k q) as [->|_]; [exfalso; apply I; eapply nth_error_In; exact Hj|reflexivity].
  Qed.

  Lemma quotient_linear : forall (p : prob) (s : sys (F:=F)) ins (U : list F -> nat -> F) X x j q fm h cur k, linear_model F0 F1 fadd fmul fsub fopp s ins U -> NoDup ins ->
    wf s -> exact F0 F1 fadd fmul fopp p s false -> total_derivatives s X -> In q (rows s) -> In k (rows s) -> h <> F0 -> fadd F1 F1 <> F0 ->
    nth_error ins j = Some (FdModel.InU, q) -> length x = length ins -> (fm <> FdModel.Central -> cur = U x k) ->
    quotient F0 F1 fadd fmul fsub fopp fdiv fm (fun y => U y k) cur x j h = X k q.
  Proof.
    intros p s ins U X x j q fm h cur k HL Hd Hw He HX Hq Hk Hh H2 Hj Hx Hc.
    assert (G : forall a b d, d <> F0 -> fsub a b = d -> fdiv (fsub (U (moved F0 fadd j a x) k) (U (moved F0 fadd j b x) k)) d = X k q).
    { intros a b d Hn Hs. apply (column p s X (fun i => fsub (U (moved F0 fadd j a x) i) (U (moved F0 fadd j b x) i)) q d Hw He HX Hq Hn); [|exact Hk].
      apply (change_of s ins U _ _ j q d HL Hd Hj); [rewrite moved_length; exact Hx|rewrite moved_length; exact Hx|].
      intros i Hi. rewrite !moved_nth by (rewrite Hx; exact Hi). destruct (i =? j); [rewrite <- Hs; ring|ring]. }
    assert (E0 : moved F0 fadd j F0 x = x).
    { apply nth_ext with (d := F0) (d' := F0); [apply moved_length|]. intros i Hi. rewrite moved_length in Hi. rewrite moved_nth by exact Hi. destruct (i =? j); ring. }
    unfold quotient. destruct fm.
    - rewrite Hc by discriminate. rewrite <- E0 at 2. apply G; [exact Hh|ring].
    - rewrite Hc by discriminate. rewrite <- E0 at 1. apply G; [exact Hh|ring].
    - apply G; [|ring]. intros E. apply Hh. assert (E' : fmul (finv (fadd F1 F1)) (fmul (fadd F1 F1) h) = h) by (field; exact H2). rewrite E in E'. rewrite <- E'. ring.
  Qed.

  Lemma linear_table : forall (r : root) (p : prob) run indep unknown s0 (s : sys (F:=F)) ins U X, fadd F1 F1 <> F0 ->
    fd_request F0 flt r p indep unknown -> fd_model F0 p run indep unknown ins (fun k x => U x k) s0 -> linear_model F0 F1 fadd fmul fsub fopp s ins U ->
    wf s -> exact F0 F1 fadd fmul fopp p s false -> total_derivatives s X -> inside p s (p_poi p) indep -> inside p s (p_qoi p) unknown ->
    (forall n, In n indep -> ~ In n unknown) ->
    (forall v o u k, In v indep -> steps_by r p v o -> t_form o <> FdModel.Central -> In u unknown -> In k (wanted p (p_qoi p) u) ->
       nth k (FdModel.s_u s0) F0 = U (FdSpec.inputs F0 ins s0) k) ->
    table F0 F1 p indep unknown (quotients F0 F1 fadd fmul fsub fopp fdiv flt r p ins (fun k x => U x k) s0) X.
  Proof.
    intros r p run indep unknown s0 s ins U X H2 Hr Hm HL Hw He HX Hi Ho Hd Hc u k v q Hu Hk Hv Hq. split; [intros I; exfalso; exact (Hd u I Hu)|]. intros _.
    destruct (names F0 flt r p indep unknown Hr v Hv) as (src & Hs & Hset & _ & (Hs1 & Hs2) & _).
    assert (HB : steps_by r p v (set_of r p v)) by (exists src, (tg r p v); auto).
    destruct Hm as (_ & _ & _ & Hnd & Hin). destruct (In_nth_error _ _ (Hin v q Hv Hq)) as [j Hj]. exists (set_of r p v), j. split; [exact HB|]. split; [exact Hj|]. symmetry.
    apply (quotient_linear p s ins U X _ j q _ _ _ k HL Hnd Hw He HX (Hi v q Hv Hq) (Ho u k Hu Hk)); [|exact H2|exact Hj|apply FdProofs.inputs_length|].
    - exact (FdProofs.step_nonzero F0 fmul flt (fpv r p v) (nth q (FdModel.s_u s0) F0) Hs1 Hs2).
    - intros Hf. exact (Hc v _ u k Hv HB Hf Hu Hk).
  Qed.

  Lemma jacobian_unique : forall (p : prob) indep unknown dv cn X J K, jacobian fmul p indep unknown dv cn X J -> jacobian fmul p indep unknown dv cn X K -> same_array J K.
  Proof.
    intros p indep unknown dv cn X J K (J1 & J2 & J3) (K1 & K2 & K3). split; [congruence|]. split; [congruence|]. intros i j Hi Hj. rewrite J1 in Hi. rewrite J2 in Hj.
    destruct (nth_error (layout p (p_qoi p) unknown) i) as [[u k]|] eqn:Ei; [|apply nth_error_Some in Hi; contradiction].
    destruct (nth_error (layout p (p_poi p) indep) j) as [[v q]|] eqn:Ej; [|apply nth_error_Some in Hj; contradiction]. rewrite (J3 i j u k v q Ei Ej), (K3 i j u k v q Ei Ej). reflexivity.
  Qed.
End Linear.

From Verif Require Import Base RsmModel RsmSpec RsmProofs LsysModel LsysSpec.
From Coq Require Import Ring.
Local Open Scope nat_scope.
Local Open Scope list_scope.

Section Facts.
  Context {F : Type} (F0 F1 : F) (fadd fmul fsub : F -> F -> F) (fopp : F -> F).
  Hypothesis RT : ring_theory F0 F1 fadd fmul fsub fopp (@eq F).
  Add Ring Lring : RT.
  Notation "a +! b" := (fadd a b) (at level 50, left associativity).
  Notation "a -! b" := (fsub a b) (at level 50, left associativity).
  Notation "a *! b" := (fmul a b) (at level 40, left associativity).
  Notation sum := (@sum F F0 fadd).
  Notation at1 := (@at1 F F0).
  Notation at2 := (@at2 F F0).
  Notation addv := (@addv F fadd).
  Notation subv := (@subv F fsub).
  Notation addm := (@addm F fadd).
  Notation mdot := (@mdot F F0 fadd fmul).
  Notation dotp := (@dotp F F0 fadd fmul).
  Notation transpose := (@transpose F).

  (** ** sums *)
  Lemma sum_ext : forall n f g, (forall i, i < n -> f i = g i) -> sum n f = sum n g.
  Proof. induction n as [|n IH]; intros f g H; [reflexivity|]. cbn. rewrite (IH f g), (H n) by (intros; try apply H; lia). reflexivity. Qed.
  Lemma sum_add : forall n f g, sum n (fun i => f i +! g i) = sum n f +! sum n g.
  Proof. induction n as [|n IH]; intros f g; cbn; [ring|]. rewrite IH. ring. Qed.
  Lemma sum_scale : forall n c f, sum n (fun i => c *! f i) = c *! sum n f.
  Proof. induction n as [|n IH]; intros c f; cbn; [ring|]. rewrite IH. ring. Qed.
  Lemma sum_opp : forall n f, sum n (fun i => fopp (f i)) = fopp (sum n f).
  Proof. induction n as [|n IH]; intros f; cbn; [ring|]. rewrite IH. ring. Qed.
  Lemma sum_zero : forall n, sum n (fun _ => F0) = F0.
  Proof. induction n as [|n IH]; cbn; [reflexivity|]. rewrite IH. ring. Qed.
  Lemma sum_swap : forall n m f, sum n (fun i => sum m (fun j => f i j)) = sum m (fun j => sum n (fun i => f i j)).
  Proof. induction n as [|n IH]; intros m f; cbn; [symmetry; apply sum_zero|]. rewrite IH, <- sum_add. reflexivity. Qed.
  Lemma sum_shift : forall n f, sum (S n) f = f 0 +! sum n (fun i => f (S i)).
  Proof. induction n as [|n IH]; intros f; cbn in *; [ring|]. rewrite IH. ring. Qed.

  (** ** arrays *)
  Lemma dotp_sum : forall a b n, length a = n -> length b = n -> dotp a b = sum n (fun j => at1 a j *! at1 b j).
  Proof.
    induction a as [|x a IH]; intros [|y b] n La Lb; cbn in La, Lb; subst n; try discriminate; [reflexivity|]. rewrite sum_shift. cbn [LsysModel.dotp]. rewrite (IH b (length a)) by lia. reflexivity.
  Qed.
  Lemma at1_add : forall a b i, length a = length b -> at1 (addv a b) i = at1 a i +! at1 b i.
  Proof. intros a b i H. apply (addv_nth F0 F1 fadd fmul fsub fopp RT); exact H. Qed.
  Lemma addv_len : forall a b, length a = length b -> length (addv a b) = length a.
  Proof. intros a b H. unfold RsmModel.addv. rewrite map_length, combine_length. lia. Qed.
  Lemma subv_len : forall a b, length a = length b -> length (subv a b) = length a.
  Proof. intros a b H. unfold LsysModel.subv. rewrite map_length, combine_length. lia. Qed.
  Lemma at1_sub : forall a b i, length a = length b -> at1 (subv a b) i = at1 a i -! at1 b i.
  Proof.
    unfold LsysModel.subv, LsysSpec.at1. induction a as [|x a IH]; intros [|y b] i H; try discriminate; [destruct i; cbn; ring|]. destruct i; cbn; [reflexivity|]. apply IH. cbn in H. lia.
  Qed.
  Lemma addm_square : forall n a b, square n a -> square n b -> square n (addm a b).
  Proof.
    intros n a b (La & Ha) (Lb & Hb). unfold LsysModel.addm. split; [rewrite map_length, combine_length; lia|]. intros r I. apply in_map_iff in I. destruct I as ([x y] & <- & I). cbn [fst snd]. assert (I1 := in_combine_l _ _ _ _ I). assert (I2 := in_combine_r _ _ _ _ I). rewrite addv_len; rewrite (Ha x I1); [reflexivity|symmetry; apply Hb; exact I2].
  Qed.
  Lemma at2_add : forall n a b i j, square n a -> square n b -> at2 (addm a b) i j = at2 a i j +! at2 b i j.
  Proof.
    intros n a b i j (La & Ha) (Lb & Hb). unfold LsysModel.addm, LsysSpec.at2. assert (L : length a = length b) by lia. clear La Lb. revert b i Ha Hb L. induction a as [|x a IH]; intros [|y b] i Ha Hb L; try discriminate; [destruct i, j; cbn; ring|]. destruct i.
    - cbn. apply at1_add. rewrite (Ha x), (Hb y) by (left; reflexivity). reflexivity.
    - cbn. apply IH; [intros r I; apply Ha; right; exact I|intros r I; apply Hb; right; exact I|cbn in L; lia].
  Qed.
  Lemma mdot_len : forall A x, length (mdot A x) = length A. Proof. intros. apply map_length. Qed.
  Lemma mdot_at : forall n A x i, square n A -> length x = n -> i < n -> at1 (mdot A x) i = sum n (fun j => at2 A i j *! at1 x j).
  Proof.
    intros n A x i (LA & HA) Lx Hi. unfold LsysModel.mdot, LsysSpec.at1 at 1. rewrite (nth_indep _ F0 (dotp [] x)) by (rewrite map_length; lia). rewrite (map_nth (fun row => dotp row x)). rewrite (dotp_sum _ _ n); [reflexivity| |exact Lx]. apply HA, nth_In. lia.
  Qed.
  Lemma transpose_at : forall k A i j, (forall r, In r A -> length r = k) -> i < k -> at2 (transpose k A) i j = at2 A j i.
  Proof.
    intros k A i j H Hi. unfold LsysSpec.at2. rewrite (transpose_nth F0 k A i) by (exact H || exact Hi). unfold RsmProofs.col. destruct (Nat.lt_ge_cases j (length A)) as [L|L].
    - rewrite (nth_indep _ F0 ((fun r => nth i r F0) [])) by (rewrite map_length; exact L). rewrite (map_nth (fun r => nth i r F0)). reflexivity.
    - rewrite nth_overflow by (rewrite map_length; exact L). rewrite (nth_overflow A) by exact L. destruct i; reflexivity.
  Qed.
  Lemma transpose_square : forall n A, square n A -> square n (transpose n A).
  Proof.
    intros n A (LA & HA). split; [apply transpose_length; exact HA|]. intros r I. apply (In_nth _ _ []) in I. destruct I as (k & Lk & <-). rewrite (transpose_length n A HA) in Lk. rewrite (transpose_nth F0 n A k HA Lk). unfold RsmProofs.col. rewrite map_length. exact LA.
  Qed.
  Lemma outer_square : forall n x r, length x = n -> length r = n -> square n (outer fmul x r).
  Proof. intros n x r Lx Lr. unfold outer. split; [rewrite map_length; exact Lx|]. intros q I. apply in_map_iff in I. destruct I as (a & <- & _). rewrite map_length. exact Lr. Qed.
  Lemma outer_at : forall n x r i j, length x = n -> length r = n -> i < n -> j < n -> at2 (outer fmul x r) i j = at1 x i *! at1 r j.
  Proof.
    intros n x r i j Lx Lr Hi Hj. unfold outer, LsysSpec.at2, LsysSpec.at1. rewrite (nth_indep _ [] (map (fmul F0) r)) by (rewrite map_length; lia). rewrite (map_nth (fun a => map (fmul a) r)). rewrite (nth_indep _ F0 (nth i x F0 *! F0)) by (rewrite map_length; lia). rewrite map_nth. reflexivity.
  Qed.

  (** ** the derivative *)
  Definition lin (n : nat) (A : nat -> nat -> F) (x : nat -> F) (dA : nat -> nat -> F) (db dx : nat -> F) (i : nat) : F :=
    sum n (fun j => A i j *! dx j) +! sum n (fun j => dA i j *! x j) -! db i.
  Lemma lin_derivative : forall n A b x dA db dx L, (forall i, i < n -> L i = lin n A x dA db dx i) -> is_derivative F0 fadd fmul fsub n A b x dA db dx L.
  Proof.
    intros n A b x dA db dx L HL i Hi. exists (sum n (fun j => dA i j *! dx j)). intros t. rewrite (HL i Hi). unfold residual, lin.
    rewrite (sum_ext n _ (fun j => ((A i j *! x j) +! t *! (A i j *! dx j)) +! (t *! (dA i j *! x j) +! (t *! t) *! (dA i j *! dx j)))) by (intros; ring).
    rewrite !sum_add, !sum_scale. ring.
  Qed.
  Hypothesis two : forall a, a +! a = F0 -> a = F0.
  Lemma derivative_lin : forall n A b x dA db dx L, is_derivative F0 fadd fmul fsub n A b x dA db dx L -> forall i, i < n -> L i = lin n A x dA db dx i.
  Proof.
    intros n A b x dA db dx L H i Hi. destruct (H i Hi) as (c & Hc). destruct (lin_derivative n A b x dA db dx (lin n A x dA db dx) (fun _ _ => eq_refl) i Hi) as (c' & Hc').
    assert (E : forall t, t *! (L i -! lin n A x dA db dx i) +! t *! t *! (c -! c') = F0).
    { intros t. assert (X := Hc t). rewrite (Hc' t) in X. set (R := residual F0 fadd fmul fsub n A b x i) in *. set (l := lin n A x dA db dx i) in *. transitivity ((R +! t *! L i +! t *! t *! c) -! (R +! t *! l +! t *! t *! c')); [ring|]. rewrite X. ring. }
    assert (E1 := E F1). assert (E2 := E (fopp F1)). set (l := lin n A x dA db dx i) in *.
    assert (D : L i -! l = F0). { apply two. transitivity ((F1 *! (L i -! l) +! F1 *! F1 *! (c -! c')) -! (fopp F1 *! (L i -! l) +! fopp F1 *! fopp F1 *! (c -! c'))); [ring|]. rewrite E1, E2. ring. }
    transitivity ((L i -! l) +! l); [ring|]. rewrite D. ring.
  Qed.
  Lemma lin_transpose : forall n A b x r (hA hb hx : bool) gA gb gx,
      (forall i j, i < n -> j < n -> hA = true -> gA i j = r i *! x j) -> (forall i, i < n -> hb = true -> gb i = fopp (r i)) -> (forall i, i < n -> hx = true -> gx i = sum n (fun j => A j i *! r j)) ->
      is_transpose F0 fadd fmul fsub n hA hb hx A b x r gA gb gx.
  Proof.
    intros n A b x r hA hb hx gA gb gx GA GB GX dA db dx L HL ZA ZB ZX.
    rewrite (sum_ext n (fun i => r i *! L i) (fun i => (sum n (fun j => r i *! (dA i j *! x j)) +! fopp (r i) *! db i) +! sum n (fun j => r i *! (A i j *! dx j)))).
    2: { intros i Hi. rewrite (derivative_lin n A b x dA db dx L HL i Hi). unfold lin. rewrite !sum_scale. ring. }
    rewrite !sum_add. f_equal; [f_equal|].
    - apply sum_ext. intros i Hi. apply sum_ext. intros j Hj. destruct hA; [rewrite (GA i j Hi Hj eq_refl); ring|rewrite (ZA eq_refl); ring].
    - apply sum_ext. intros i Hi. destruct hb; [rewrite (GB i Hi eq_refl); ring|rewrite (ZB eq_refl); ring].
    - rewrite sum_swap. apply sum_ext. intros i Hi. destruct hx.
      + rewrite (GX i Hi eq_refl). transitivity (dx i *! sum n (fun j => A j i *! r j)); [|ring]. rewrite <- sum_scale. apply sum_ext. intros j _. ring.
      + rewrite (ZX eq_refl). transitivity (sum n (fun _ => F0)); [apply sum_ext; intros j _; ring|]. rewrite sum_zero. ring.
  Qed.
End Facts.

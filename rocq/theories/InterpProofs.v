(** Lemmas about interpolants: vectors, normalization, the weighted interpolant. *)
From Coq Require Import Ring Field.
From Verif Require Import Base InterpModel InterpSpec.
Local Open Scope nat_scope.
Local Open Scope list_scope.

Lemma zip_with_length : forall A B C (f : A -> B -> C) a b, length (zip_with f a b) = Nat.min (length a) (length b).
Proof. induction a as [|x a IH]; intros [|y b]; cbn; auto. Qed.
Lemma zip_with_nth : forall A B C (f : A -> B -> C) a b i da db dc, i < length a -> i < length b -> nth i (zip_with f a b) dc = f (nth i a da) (nth i b db).
Proof. induction a as [|x a IH]; intros [|y b] i da db dc Ha Hb; cbn in *; try lia. destruct i; [reflexivity|]. apply IH; lia. Qed.

Section Proofs.
  Context {F : Type} (F0 F1 : F) (fadd fmul fsub : F -> F -> F) (fopp : F -> F) (fdiv : F -> F -> F) (finv : F -> F).
  Variable feqb : F -> F -> bool.
  Variable fltb : F -> F -> bool.
  Hypothesis Fth : field_theory F0 F1 fadd fmul fsub fopp fdiv finv (@eq F).
  Add Field Fint : Fth.
  Hypothesis EQ : forall a b, feqb a b = true <-> a = b.
  Notation flt := (fun a b => fltb a b = true).
  Notation vsub := (vsub fsub). Notation vadd := (vadd fadd). Notation vmul := (vmul fmul). Notation vdiv := (vdiv fdiv).
  Notation sum := (sum F0 fadd). Notation pow := (pow F1 fmul). Notation entry := (entry F0).
  Notation normalize := (normalize fsub fdiv). Notation unnormalize := (unnormalize fadd fmul).
  Notation amin := (amin fltb). Notation amax := (amax fltb). Notation range := (range F0 F1 fsub feqb fltb).
  Notation nn_base := (nn_base F0 F1 fsub fdiv feqb fltb).

  Lemma F1_neq : F1 <> F0. Proof. exact (F_1_neq_0 Fth). Qed.
  Lemma eqb_refl : forall a, feqb a a = true. Proof. intros a. apply EQ. reflexivity. Qed.
  Lemma eqb_neq : forall a b, a <> b -> feqb a b = false. Proof. intros a b H. destruct (feqb a b) eqn:E; [|reflexivity]. apply EQ in E. contradiction. Qed.
  Lemma entry_vsub : forall a b i, length a = length b -> entry (vsub a b) i = fsub (entry a i) (entry b i).
  Proof.
    intros a b i H. unfold InterpModel.entry, InterpModel.vsub. destruct (Nat.lt_ge_cases i (length a)) as [L|L]; [apply zip_with_nth; lia|]. rewrite !nth_overflow by (try rewrite zip_with_length; lia). ring.
  Qed.
  Lemma entry_vdiv : forall a b i, i < length a -> length a = length b -> entry (vdiv a b) i = fdiv (entry a i) (entry b i).
  Proof. intros a b i L H. unfold InterpModel.entry, InterpModel.vdiv. apply zip_with_nth; lia. Qed.
  Lemma entry_vmul : forall a b i, length a = length b -> entry (vmul a b) i = fmul (entry a i) (entry b i).
  Proof.
    intros a b i H. unfold InterpModel.entry, InterpModel.vmul. destruct (Nat.lt_ge_cases i (length a)) as [L|L]; [apply zip_with_nth; lia|]. rewrite !nth_overflow by (try rewrite zip_with_length; lia). ring.
  Qed.
  Lemma entry_vadd : forall a b i, length a = length b -> entry (vadd a b) i = fadd (entry a i) (entry b i).
  Proof.
    intros a b i H. unfold InterpModel.entry, InterpModel.vadd. destruct (Nat.lt_ge_cases i (length a)) as [L|L]; [apply zip_with_nth; lia|]. rewrite !nth_overflow by (try rewrite zip_with_length; lia). ring.
  Qed.
  Lemma entry_ext : forall a b, length a = length b -> (forall i, i < length a -> entry a i = entry b i) -> a = b.
  Proof. intros a b H K. apply (nth_ext a b F0 F0 H). exact K. Qed.
  Lemma entry_map : forall (f : nat -> F) k c, c < k -> entry (map f (seq 0 k)) c = f c.
  Proof. intros f k c H. unfold InterpModel.entry. rewrite (nth_indep _ F0 (f 0)) by (rewrite map_length, seq_length; lia). rewrite map_nth. rewrite seq_nth by lia. reflexivity. Qed.

  (** ** sums *)
  Lemma sum_app : forall a b, sum (a ++ b) = fadd (sum a) (sum b).
  Proof. induction a as [|x a IH]; intros b; cbn; [ring|]. rewrite IH. ring. Qed.
  Lemma sum_map_add : forall A (f g : A -> F) l, sum (map (fun x => fadd (f x) (g x)) l) = fadd (sum (map f l)) (sum (map g l)).
  Proof. intros A f g. induction l as [|x l IH]; cbn; [ring|]. rewrite IH. ring. Qed.
  Lemma sum_map_mul : forall A c (f : A -> F) l, sum (map (fun x => fmul c (f x)) l) = fmul c (sum (map f l)).
  Proof. intros A c f. induction l as [|x l IH]; cbn; [ring|]. rewrite IH. ring. Qed.
  Lemma sum_map_zero : forall A (l : list A), sum (map (fun _ => F0) l) = F0.
  Proof. intros A. induction l as [|x l IH]; cbn; [reflexivity|]. rewrite IH. ring. Qed.
  Lemma sum_map_ext : forall A (f g : A -> F) l, (forall x, In x l -> f x = g x) -> sum (map f l) = sum (map g l).
  Proof. intros A f g l H. f_equal. apply map_ext_in. exact H. Qed.
  Lemma sum_swap : forall A B (f : A -> B -> F) (la : list A) (lb : list B), sum (map (fun a => sum (map (fun b => f a b) lb)) la) = sum (map (fun b => sum (map (fun a => f a b) la)) lb).
  Proof.
    intros A B f. induction la as [|a la IH]; intros lb; cbn; [symmetry; apply sum_map_zero|]. rewrite IH, <- sum_map_add. reflexivity.
  Qed.
  Lemma zip_maps : forall A B C E (f : B -> C -> E) (g : A -> B) (h : A -> C) l, zip_with f (map g l) (map h l) = map (fun a => f (g a) (h a)) l.
  Proof. intros A B C E f g h. induction l as [|a l IH]; cbn; [reflexivity|]. rewrite IH. reflexivity. Qed.
  Lemma pow_nz : forall x n, x <> F0 -> pow x n <> F0.
  Proof.
    intros x n H. induction n as [|n IH]; cbn; [exact F1_neq|]. intros K. apply IH. transitivity (fmul (finv x) (fmul x (pow x n))); [field; exact H|]. rewrite K. ring.
  Qed.
  Lemma pow_zero : forall n, n <> 0 -> pow F0 n = F0.
  Proof. intros [|n] H; [congruence|]. cbn. ring. Qed.
  Lemma pow_add : forall x a b, pow x (a + b) = fmul (pow x a) (pow x b).
  Proof. intros x a b. induction a as [|a IH]; cbn; [ring|]. rewrite IH. ring. Qed.

  (** ** normalization *)
  Lemma fold_zip_length : forall (f : F -> F -> F) d r p, length p = d -> (forall x, In x r -> length x = d) -> length (fold_left (zip_with f) r p) = d.
  Proof. intros f d. induction r as [|x r IH]; intros p H K; cbn; [exact H|]. apply IH; [|intros y Hy; apply K; right; exact Hy]. rewrite zip_with_length, H, (K x (or_introl eq_refl)). lia. Qed.
  Lemma amin_length : forall m d a, rect m d a -> m <> 0 -> length (amin a) = d.
  Proof. intros m d [|p r] [L H] M; cbn in *; [congruence|]. apply fold_zip_length; auto. Qed.
  Lemma amax_length : forall m d a, rect m d a -> m <> 0 -> length (amax a) = d.
  Proof. intros m d [|p r] [L H] M; cbn in *; [congruence|]. apply fold_zip_length; auto. Qed.
  Lemma range_length : forall m d a, rect m d a -> m <> 0 -> length (range a) = d.
  Proof. intros m d a R M. unfold InterpModel.range, InterpModel.vsub. rewrite map_length, zip_with_length, (amin_length m d a R M), (amax_length m d a R M). lia. Qed.
  Lemma range_nz : forall a i, i < length (range a) -> entry (range a) i <> F0.
  Proof.
    intros a i H. unfold InterpModel.range, InterpModel.entry in *. rewrite map_length in H. set (f := fun r => if feqb r F0 then F1 else r). set (l := InterpModel.vsub fsub _ _) in *. rewrite (nth_indep (map f l) F0 (f F0)) by (rewrite map_length; exact H). rewrite (map_nth f l F0 i). unfold f.
    destruct (feqb (nth i l F0) F0) eqn:E; [exact F1_neq|]. intros K. rewrite K, eqb_refl in E. discriminate.
  Qed.
  Lemma normalize_length : forall m r x d, length m = d -> length r = d -> length x = d -> length (normalize m r x) = d.
  Proof. intros m r x d A B C. unfold InterpModel.normalize, InterpModel.vdiv, InterpModel.vsub. rewrite !zip_with_length. lia. Qed.
  Lemma entry_normalize : forall m r x d i, length m = d -> length r = d -> length x = d -> i < d -> entry (normalize m r x) i = fdiv (fsub (entry x i) (entry m i)) (entry r i).
  Proof. intros m r x d i A B C L. unfold InterpModel.normalize. rewrite entry_vdiv; [rewrite entry_vsub by lia; reflexivity|unfold InterpModel.vsub; rewrite zip_with_length; lia|unfold InterpModel.vsub; rewrite zip_with_length; lia]. Qed.
  Lemma unnormalize_length : forall m r x d, length m = d -> length r = d -> length x = d -> length (unnormalize m r x) = d.
  Proof. intros m r x d A B C. unfold InterpModel.unnormalize, InterpModel.vadd, InterpModel.vmul. rewrite !zip_with_length. lia. Qed.
  Lemma entry_unnormalize : forall m r x d i, length m = d -> length r = d -> length x = d -> entry (unnormalize m r x) i = fadd (fmul (entry x i) (entry r i)) (entry m i).
  Proof. intros m r x d i A B C. unfold InterpModel.unnormalize. rewrite entry_vadd; [rewrite entry_vmul by lia; reflexivity|unfold InterpModel.vmul; rewrite zip_with_length; lia]. Qed.
  Lemma normalize_inj : forall m r x y d, length m = d -> length r = d -> length x = d -> length y = d -> (forall i, i < d -> entry r i <> F0) -> normalize m r x = normalize m r y -> x = y.
  Proof.
    intros m r x y d A B C E H K. apply entry_ext; [lia|]. intros i L. assert (K' : entry (normalize m r x) i = entry (normalize m r y) i) by (rewrite K; reflexivity).
    rewrite (entry_normalize m r x d), (entry_normalize m r y d) in K' by lia. assert (N : entry r i <> F0) by (apply H; lia).
    transitivity (fadd (fmul (fdiv (fsub (entry x i) (entry m i)) (entry r i)) (entry r i)) (entry m i)); [field; exact N|]. rewrite K'. field. exact N.
  Qed.
  Lemma row_normalized : forall m r a i, i < length a -> row (map (normalize m r) a) i = normalize m r (row a i).
  Proof. intros m r a i H. unfold row. rewrite (nth_indep _ [] (normalize m r [])) by (rewrite map_length; exact H). apply map_nth. Qed.
  Lemma row_in : forall (a : list (list F)) i, i < length a -> In (row a i) a. Proof. intros a i H. apply nth_In. exact H. Qed.

  (** ** trained interpolants *)
  Section Trained.
    Variables (m d k : nat) (tp tv : list (list F)).
    Hypothesis RP : rect m d tp.
    Hypothesis RV : rect m k tv.
    Hypothesis M : m <> 0.
    Let b := nn_base tp tv.
    Lemma tp_row : forall i, i < m -> row (b_tp b) i = normalize (b_tpm b) (b_tpr b) (row tp i) /\ length (row tp i) = d.
    Proof. intros i H. split; [apply row_normalized; rewrite (proj1 RP); exact H|]. apply RP. apply row_in. rewrite (proj1 RP). exact H. Qed.
    Lemma tv_row : forall i, i < m -> row (b_tv b) i = normalize (b_tvm b) (b_tvr b) (row tv i) /\ length (row tv i) = k.
    Proof. intros i H. split; [apply row_normalized; rewrite (proj1 RV); exact H|]. apply RV. apply row_in. rewrite (proj1 RV). exact H. Qed.
    Lemma b_lengths : length (b_tpm b) = d /\ length (b_tpr b) = d /\ length (b_tvm b) = k /\ length (b_tvr b) = k /\ length (b_tp b) = m /\ length (b_tv b) = m.
    Proof. cbn. rewrite !map_length, (proj1 RP), (proj1 RV), (amin_length m d tp RP M), (amin_length m k tv RV M), (range_length m d tp RP M), (range_length m k tv RV M). auto 7. Qed.
    Lemma b_ndim : ndim (b_tp b) = d /\ ndim (b_tv b) = k.
    Proof.
      destruct b_lengths as (A & B & C & D & _). unfold ndim. rewrite (proj1 (tp_row 0 ltac:(lia))), (proj1 (tv_row 0 ltac:(lia))).
      split; apply normalize_length; auto; [apply tp_row|apply tv_row]; lia.
    Qed.
    Lemma tvr_nz : forall c, c < k -> entry (b_tvr b) c <> F0.
    Proof. intros c H. apply range_nz. destruct b_lengths as (_ & _ & _ & D & _). cbn in D. rewrite D. exact H. Qed.
    Lemma tpr_nz : forall c, c < d -> entry (b_tpr b) c <> F0.
    Proof. intros c H. apply range_nz. destruct b_lengths as (_ & D & _). cbn in D. rewrite D. exact H. Qed.
    Lemma tv_entry : forall i c, i < m -> c < k -> fadd (fmul (entry (row (b_tv b) i) c) (entry (b_tvr b) c)) (entry (b_tvm b) c) = entry (row tv i) c.
    Proof.
      intros i c Hi Hc. destruct b_lengths as (_ & _ & C & D & _). destruct (tv_row i Hi) as [E L]. rewrite E, (entry_normalize _ _ _ k) by auto. field. apply tvr_nz. exact Hc.
    Qed.
  End Trained.
End Proofs.

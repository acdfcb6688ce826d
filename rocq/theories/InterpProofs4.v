(** Lemmas about interpolants: dual numbers and the gradient of the weighted
    interpolant. *)
From Coq Require Import Ring Field.
From Verif Require Import Base InterpModel InterpSpec InterpProofs InterpProofs2.
Local Open Scope nat_scope.
Local Open Scope list_scope.

Section Proofs.
  Context {F : Type} (F0 F1 : F) (fadd fmul fsub : F -> F -> F) (fopp : F -> F) (fdiv : F -> F -> F) (finv : F -> F).
  Variable feqb : F -> F -> bool.
  Variable fltb : F -> F -> bool.
  Hypothesis Fth : field_theory F0 F1 fadd fmul fsub fopp fdiv finv (@eq F).
  Add Field Fint4 : Fth.
  Hypothesis EQ : forall a b, feqb a b = true <-> a = b.
  Notation sum := (sum F0 fadd). Notation pow := (pow F1 fmul). Notation entry := (entry F0).
  Notation normalize := (normalize fsub fdiv).
  Notation of_nat := (of_nat F0 F1 fadd).
  Notation nn_base := (nn_base F0 F1 fsub fdiv feqb fltb).
  Notation dadd := (dadd fadd). Notation dopp := (dopp fopp). Notation dmul := (dmul fadd fmul). Notation dsub := (dsub fadd fopp).
  Notation dconst := (dconst F0). Notation dpow := (dpow F0 F1 fadd fmul). Notation dsum := (dsum F0 fadd). Notation dist2 := (dist2 F0 fadd fmul fopp).
  Notation shifted := (shifted fsub fdiv). Notation fixed := (fixed F0). Notation along := (along F0 fadd fmul).

  Lemma seq_S : forall n, seq 0 (S n) = 0 :: map S (seq 0 n). Proof. intros n. rewrite seq_shift. reflexivity. Qed.
  Lemma dsum_fst : forall A (f : A -> dual) l, fst (dsum (map f l)) = sum (map (fun a => fst (f a)) l).
  Proof. intros A f. induction l as [|a l IH]; cbn; [reflexivity|]. rewrite IH. reflexivity. Qed.
  Lemma dsum_snd : forall A (f : A -> dual) l, snd (dsum (map f l)) = sum (map (fun a => snd (f a)) l).
  Proof. intros A f. induction l as [|a l IH]; cbn; [reflexivity|]. rewrite IH. reflexivity. Qed.
  Lemma along_sum : forall d g dx, length g = d -> length dx = d -> along g dx = sum (map (fun l => fmul (entry g l) (entry dx l)) (seq 0 d)).
  Proof.
    induction d as [|d IH]; intros [|a g] [|z dx] A B; try discriminate; [reflexivity|]. rewrite seq_S. cbn [InterpSpec.along map InterpModel.sum]. rewrite (IH g dx) by (cbn in *; lia). rewrite map_map. reflexivity.
  Qed.
  Lemma dist2_parts : forall d m r x dx t, length m = d -> length r = d -> length x = d -> length dx = d -> length t = d ->
      fst (dist2 (shifted m r x dx) (fixed t)) = sum (map (fun l => fmul (fsub (entry (normalize m r x) l) (entry t l)) (fsub (entry (normalize m r x) l) (entry t l))) (seq 0 d)) /\
      snd (dist2 (shifted m r x dx) (fixed t)) = sum (map (fun l => fmul (fadd F1 F1) (fmul (fsub (entry (normalize m r x) l) (entry t l)) (fdiv (entry dx l) (entry r l)))) (seq 0 d)).
  Proof.
    induction d as [|d IH]; intros [|a m] [|s r] [|z x] [|dz dx] [|q t] A B C D E; try discriminate; [split; reflexivity|].
    destruct (IH m r x dx t) as [I1 I2]; try (cbn in *; lia). rewrite seq_S. cbn [map InterpModel.sum]. rewrite !map_map. unfold InterpSpec.dist2 in *. cbn [InterpSpec.shifted InterpSpec.fixed map combine InterpSpec.dsum InterpSpec.dadd fst snd]. fold (fixed t).
    split; [rewrite I1|rewrite I2]; f_equal; cbn; ring.
  Qed.
  Lemma dpow_parts : forall (D : dual) n, fst (dpow D n) = pow (fst D) n /\ fmul (fst D) (snd (dpow D n)) = fmul (of_nat n) (fmul (pow (fst D) n) (snd D)).
  Proof.
    intros D. induction n as [|n [I1 I2]]; cbn [InterpSpec.dpow InterpModel.pow]; [cbn; split; ring|]. split; [cbn; rewrite I1; reflexivity|]. cbn [InterpSpec.dmul fst snd]. rewrite I1.
    change (of_nat (S n)) with (fadd F1 (of_nat n)). transitivity (fadd (fmul (fst D) (fmul (fst D) (snd (dpow D n)))) (fmul (fst D) (fmul (snd D) (pow (fst D) n)))); [ring|]. rewrite I2. ring.
  Qed.
  (** the derivative of a distance and of a weight *)
  Lemma dist_deriv : forall d m r x dx t (D : dual), fadd F1 F1 <> F0 -> length m = d -> length r = d -> length x = d -> length dx = d -> length t = d ->
      dmul D D = dist2 (shifted m r x dx) (fixed t) ->
      fmul (fst D) (snd D) = sum (map (fun l => fmul (fsub (entry (normalize m r x) l) (entry t l)) (fdiv (entry dx l) (entry r l))) (seq 0 d)).
  Proof.
    intros d m r x dx t D T A B C E G H. destruct (dist2_parts d m r x dx t A B C E G) as [_ P]. rewrite <- H in P. cbn in P. rewrite (sum_map_mul F0 F1 fadd fmul fsub fopp fdiv finv Fth) in P.
    set (S := sum _) in *. transitivity (fdiv (fmul (fadd F1 F1) (fmul (fst D) (snd D))) (fadd F1 F1)); [field; exact T|]. replace (fmul (fadd F1 F1) (fmul (fst D) (snd D))) with (fmul (fadd F1 F1) S) by (rewrite <- P; ring). field. exact T.
  Qed.
  Lemma weight_deriv : forall p (D W : dual) s, fst D <> F0 -> dmul W (dpow D p) = dconst F1 -> fmul (fst D) (snd D) = s ->
      fst W = fdiv F1 (pow (fst D) p) /\ snd W = fmul (fmul (fopp (of_nat p)) (fdiv F1 (pow (fst D) (p + 2)))) s.
  Proof.
    intros p D W s N H K. destruct (dpow_parts D p) as [P1 P2]. assert (NP := pow_nz F0 F1 fadd fmul fsub fopp fdiv finv Fth (fst D) p N).
    unfold InterpSpec.dmul, InterpSpec.dconst in H. injection H as H1 H2. rewrite P1 in H1, H2. assert (W1 : fst W = fdiv F1 (pow (fst D) p)) by (transitivity (fdiv (fmul (fst W) (pow (fst D) p)) (pow (fst D) p)); [field; exact NP|rewrite H1; reflexivity]). split; [exact W1|].
    assert (W2 : snd W = fdiv (fopp (fmul (fst W) (snd (dpow D p)))) (pow (fst D) p)).
    { transitivity (fdiv (fsub (fadd (fmul (fst W) (snd (dpow D p))) (fmul (snd W) (pow (fst D) p))) (fmul (fst W) (snd (dpow D p)))) (pow (fst D) p)); [field; exact NP|]. rewrite H2. field. exact NP. }
    rewrite W2, W1, (pow_add F0 F1 fadd fmul fsub fopp fdiv finv Fth), <- K. cbn [InterpModel.pow].
    transitivity (fdiv (fopp (fmul (fst D) (snd (dpow D p)))) (fmul (fst D) (fmul (pow (fst D) p) (pow (fst D) p)))); [field; split; assumption|]. rewrite P2. field. split; assumption.
  Qed.

  Section Trained.
    Variables (m d k : nat) (tp tv : list (list F)).
    Hypothesis RP : rect m d tp.
    Hypothesis RV : rect m k tv.
    Hypothesis M : m <> 0.
    Let b := nn_base tp tv.
    Variable query : list (list F) -> list F -> nat -> list (F * nat).
    Variables (x : list F) (n de : nat).
    Let xn := normalize (b_tpm b) (b_tpr b) x.
    Let nb := query (b_tp b) xn n.
    Let p := eff d de.
    Hypothesis LX : length x = d.
    Hypothesis IX : forall e, In e nb -> snd e < m.
    Hypothesis TWO : fadd F1 F1 <> F0.
    Notation weighted_gradient := (weighted_gradient F0 F1 fadd fmul fsub fopp fdiv feqb query).
    Notation weighted := (weighted F0 F1 fadd fmul fsub fdiv feqb query).
    Let w (e : F * nat) := fdiv F1 (pow (fst e) p).
    Let q (e : F * nat) l := fsub (entry xn l) (entry (row (b_tp b) (snd e)) l).
    Let kf (e : F * nat) := fmul (fopp (of_nat p)) (fdiv F1 (pow (fst e) (p + 2))).
    Let S := sum (map w nb).

    Lemma gradient_entry : forall G, n <= m -> weighted_gradient b x n de = Ok G -> (forall e, In e nb -> fst e <> F0) /\ length G = k /\ forall c, c < k -> length (row G c) = d /\ forall l, l < d ->
        entry (row G c) l = fmul (fdiv (fsub (fmul S (sum (map (fun e => fmul (fmul (kf e) (q e l)) (entry (row (b_tv b) (snd e)) c)) nb))) (fmul (sum (map (fun e => fmul (w e) (entry (row (b_tv b) (snd e)) c)) nb)) (sum (map (fun e => fmul (kf e) (q e l)) nb)))) (pow S 2))
                                 (fdiv (entry (b_tvr b) c) (entry (b_tpr b) l)).
    Proof.
      intros G Hn E. unfold InterpModel.weighted_gradient in E. destruct (b_lengths F0 F1 fsub fdiv feqb fltb m d k tp tv RP RV M) as (L1 & L2 & L3 & L4 & L5 & L6). destruct (b_ndim F0 F1 fsub fdiv feqb fltb m d k tp tv RP RV M) as [N1 N2].
      fold b in L1, L2, L3, L4, L5, L6, N1, N2. rewrite L5, N1, N2 in E. destruct (m <? n) eqn:MN; [apply Nat.ltb_lt in MN; lia|]. fold xn in E. fold nb p in E.
      destruct (existsb (fun e => feqb e F0) (map fst nb)) eqn:Z; [discriminate|]. apply ok_inj in E. split; [|split].
      - intros e He K. assert (Z' : existsb (fun e => feqb e F0) (map fst nb) = true) by (apply existsb_exists; exists (fst e); split; [apply in_map; exact He|apply EQ; exact K]). congruence.
      - rewrite <- E, map_length, seq_length. reflexivity.
      - intros c Hc. assert (RW : forall (f : nat -> list F), row (map f (seq 0 k)) c = f c) by (intros f; unfold row; rewrite (nth_indep _ [] (f 0)) by (rewrite map_length, seq_length; exact Hc); rewrite map_nth, seq_nth by exact Hc; reflexivity).
        rewrite <- E. clear E. cbv zeta. rewrite RW. split; [rewrite map_length, seq_length; reflexivity|]. intros l Hl. rewrite (entry_map F0) by exact Hl. rewrite !map_map. rewrite !zip_maps.
        assert (EV : forall e, In e nb -> entry (map (fun z => fmul (kf e) z) (vsub fsub xn (row (b_tp b) (snd e)))) l = fmul (kf e) (q e l)).
        { intros e He. assert (LE : length (row (b_tp b) (snd e)) = d) by (destruct (tp_row F0 F1 fsub fdiv feqb fltb m d tp tv RP (snd e) (IX e He)) as [T1 T2]; fold b in T1; rewrite T1; apply (normalize_length fsub fdiv); assumption).
          assert (LN : length xn = d) by (apply (normalize_length fsub fdiv); assumption).
          unfold q. rewrite <- (entry_vsub F0 F1 fadd fmul fsub fopp fdiv finv Fth) by congruence. unfold InterpModel.entry at 1. set (f := fun z => fmul (kf e) z). set (v := vsub fsub xn (row (b_tp b) (snd e))).
          rewrite (nth_indep (map f v) F0 (f F0)) by (rewrite map_length; unfold v, vsub; rewrite zip_with_length; lia). rewrite (map_nth f v F0 l). reflexivity. }
        assert (A1 : sum (map (fun e => fmul (entry (map (fun z => fmul (kf e) z) (vsub fsub xn (row (b_tp b) (snd e)))) l) (entry (row (b_tv b) (snd e)) c)) nb) = sum (map (fun e => fmul (fmul (kf e) (q e l)) (entry (row (b_tv b) (snd e)) c)) nb)) by (apply sum_map_ext; intros e He; rewrite (EV e He); reflexivity).
        assert (A2 : sum (map (fun e => entry (map (fun z => fmul (kf e) z) (vsub fsub xn (row (b_tp b) (snd e)))) l) nb) = sum (map (fun e => fmul (kf e) (q e l)) nb)) by (apply sum_map_ext; intros e He; exact (EV e He)).
        rewrite <- A1, <- A2. reflexivity.
    Qed.
    Lemma weighted_derivative : forall y G dx c, n <= m -> weighted b x n de = Ok y -> weighted_gradient b x n de = Ok G -> length dx = d -> c < k -> S <> F0 ->
        forall D W Z, (forall e, In e nb -> fst (D e) = fst e) ->
          inverse_distance F0 F1 fadd fmul fopp p nb (shifted (b_tpm b) (b_tpr b) x dx) (fun e => fixed (row (b_tp b) (snd e))) (fun e => dconst (entry (row tv (snd e)) c)) D W Z ->
          Z = (entry y c, along (row G c) dx).
    Proof.
      intros y G dx c Hn HY HG LD Hc NZ D W Z HD (ID1 & ID2 & ID3). destruct (gradient_entry G Hn HG) as (NE & LG & GE). destruct (GE c Hc) as [LGC GC]. clear GE.
      destruct (b_lengths F0 F1 fsub fdiv feqb fltb m d k tp tv RP RV M) as (L1 & L2 & L3 & L4 & L5 & L6). fold b in L1, L2, L3, L4, L5, L6.
      assert (HF : hits F0 F1 fmul feqb p nb = false).
      { unfold hits. destruct (existsb _ nb) eqn:Z0; [|reflexivity]. apply existsb_exists in Z0. destruct Z0 as (e & He & Z0). apply EQ in Z0. exfalso. exact (pow_nz F0 F1 fadd fmul fsub fopp fdiv finv Fth (fst e) p (NE e He) Z0). }
      pose proof (weighted_value F0 F1 fadd fmul fsub fopp fdiv finv feqb fltb Fth EQ m d k tp tv RP RV M query x n de IX y Hn HY) as WV. fold b in WV. fold xn in WV. fold nb p in WV. rewrite HF in WV. cbn [wf] in WV. change (sum (map (fun e => fdiv F1 (pow (fst e) p)) nb)) with S in WV.
      destruct (WV NZ) as [LY VY]. specialize (VY c Hc). clear WV.
      set (sq := fun e => sum (map (fun l => fmul (q e l) (fdiv (entry dx l) (entry (b_tpr b) l))) (seq 0 d))).
      assert (WD : forall e, In e nb -> fst (W e) = w e /\ snd (W e) = fmul (kf e) (sq e)).
      { intros e He. assert (LE : length (row (b_tp b) (snd e)) = d) by (destruct (tp_row F0 F1 fsub fdiv feqb fltb m d tp tv RP (snd e) (IX e He)) as [T1 T2]; fold b in T1; rewrite T1; apply (normalize_length fsub fdiv); assumption).
        pose proof (dist_deriv d (b_tpm b) (b_tpr b) x dx (row (b_tp b) (snd e)) (D e) TWO L1 L2 LX LD LE (ID1 e He)) as K. destruct (weight_deriv p (D e) (W e) _ ltac:(rewrite (HD e He); exact (NE e He)) (ID2 e He) K) as [K1 K2].
        rewrite (HD e He) in K1, K2. split; [exact K1|exact K2]. }
      assert (Z1 : fmul (fst Z) S = sum (map (fun e => fmul (w e) (entry (row tv (snd e)) c)) nb)).
      { pose proof (f_equal fst ID3) as K. cbn [InterpSpec.dmul fst] in K. rewrite !dsum_fst in K. transitivity (fmul (fst Z) (sum (map (fun a => fst (W a)) nb))); [f_equal; apply sum_map_ext; intros e He; symmetry; apply (WD e He)|]. rewrite K. apply sum_map_ext. intros e He. cbn. rewrite (proj1 (WD e He)). reflexivity. }
      assert (ZY : fst Z = entry y c).
      { transitivity (fdiv (fmul (fst Z) S) S); [field; exact NZ|]. rewrite Z1. change (fun e : F * nat => fmul (fdiv F1 (pow (fst e) p)) (entry (row tv (snd e)) c)) with (fun e => fmul (w e) (entry (row tv (snd e)) c)) in VY. rewrite <- VY. field. exact NZ. }
      (* the first order parts *)
      assert (Z2 : fmul (snd Z) S = fsub (sum (map (fun e => fmul (fmul (kf e) (sq e)) (entry (row tv (snd e)) c)) nb)) (fmul (fst Z) (sum (map (fun e => fmul (kf e) (sq e)) nb)))).
      { pose proof (f_equal snd ID3) as K. cbn [InterpSpec.dmul snd] in K. rewrite dsum_fst, !dsum_snd in K.
        replace (sum (map (fun a => fst (W a)) nb)) with S in K by (apply sum_map_ext; intros e He; symmetry; apply (WD e He)).
        replace (sum (map (fun a => snd (W a)) nb)) with (sum (map (fun e => fmul (kf e) (sq e)) nb)) in K by (apply sum_map_ext; intros e He; symmetry; apply (WD e He)).
        replace (sum (map (fun e => fmul (fmul (kf e) (sq e)) (entry (row tv (snd e)) c)) nb)) with (sum (map (fun a => snd (dmul (W a) (dconst (entry (row tv (snd a)) c)))) nb)); [rewrite <- K; ring|].
        apply sum_map_ext. intros e He. cbn. rewrite (proj2 (WD e He)). ring. }
      assert (SWAP : forall a : F * nat -> F, sum (map (fun e => fmul (fmul (kf e) (sq e)) (a e)) nb) = sum (map (fun l => fmul (fdiv (entry dx l) (entry (b_tpr b) l)) (sum (map (fun e => fmul (fmul (kf e) (q e l)) (a e)) nb))) (seq 0 d))).
      { intros a. transitivity (sum (map (fun e => sum (map (fun l => fmul (fdiv (entry dx l) (entry (b_tpr b) l)) (fmul (fmul (kf e) (q e l)) (a e))) (seq 0 d))) nb)).
        - apply sum_map_ext. intros e He. unfold sq. replace (fmul (fmul (kf e) (sum (map (fun l => fmul (q e l) (fdiv (entry dx l) (entry (b_tpr b) l))) (seq 0 d)))) (a e)) with (fmul (fmul (kf e) (a e)) (sum (map (fun l => fmul (q e l) (fdiv (entry dx l) (entry (b_tpr b) l))) (seq 0 d)))) by ring.
          rewrite <- (sum_map_mul F0 F1 fadd fmul fsub fopp fdiv finv Fth). apply sum_map_ext. intros l _. ring.
        - rewrite (sum_swap F0 F1 fadd fmul fsub fopp fdiv finv Fth). apply sum_map_ext. intros l _. rewrite (sum_map_mul F0 F1 fadd fmul fsub fopp fdiv finv Fth). reflexivity. }
      assert (TVE : forall (g : F * nat -> F), sum (map (fun e => fmul (g e) (entry (row tv (snd e)) c)) nb) = fadd (fmul (entry (b_tvr b) c) (sum (map (fun e => fmul (g e) (entry (row (b_tv b) (snd e)) c)) nb))) (fmul (entry (b_tvm b) c) (sum (map g nb)))).
      { intros g. rewrite <- !(sum_map_mul F0 F1 fadd fmul fsub fopp fdiv finv Fth), <- (sum_map_add F0 F1 fadd fmul fsub fopp fdiv finv Fth). apply sum_map_ext. intros e He.
        rewrite <- (tv_entry F0 F1 fadd fmul fsub fopp fdiv finv feqb fltb Fth EQ m d k tp tv RP RV M (snd e) c (IX e He) Hc). fold b. ring. }
      rewrite (surjective_pairing Z). f_equal; [exact ZY|]. rewrite (along_sum d) by assumption.
      transitivity (fdiv (fmul (snd Z) S) S); [field; exact NZ|]. rewrite Z2.
      assert (ONE : sum (map (fun e => fmul (kf e) (sq e)) nb) = sum (map (fun e => fmul (fmul (kf e) (sq e)) F1) nb)) by (apply sum_map_ext; intros e _; ring). rewrite ONE, !SWAP.
      replace (fst Z) with (fdiv (sum (map (fun e => fmul (w e) (entry (row tv (snd e)) c)) nb)) S) by (rewrite <- Z1; field; exact NZ).
      set (V := fdiv (sum (map (fun e => fmul (w e) (entry (row tv (snd e)) c)) nb)) S).
      transitivity (sum (map (fun l => fmul (fdiv F1 S) (fadd (fmul (fdiv (entry dx l) (entry (b_tpr b) l)) (sum (map (fun e => fmul (fmul (kf e) (q e l)) (entry (row tv (snd e)) c)) nb))) (fmul (fopp V) (fmul (fdiv (entry dx l) (entry (b_tpr b) l)) (sum (map (fun e => fmul (fmul (kf e) (q e l)) F1) nb)))))) (seq 0 d))).
      { rewrite (sum_map_mul F0 F1 fadd fmul fsub fopp fdiv finv Fth), (sum_map_add F0 F1 fadd fmul fsub fopp fdiv finv Fth), (sum_map_mul F0 F1 fadd fmul fsub fopp fdiv finv Fth _ (fopp V)). field. exact NZ. }
      apply sum_map_ext. intros l Hl. apply in_seq in Hl. rewrite (GC l ltac:(lia)). assert (RN := tpr_nz F0 F1 fadd fmul fsub fopp fdiv finv feqb fltb Fth EQ m d k tp tv RP RV M l ltac:(lia)). fold b in RN.
      replace (sum (map (fun e => fmul (fmul (kf e) (q e l)) F1) nb)) with (sum (map (fun e => fmul (kf e) (q e l)) nb)) by (apply sum_map_ext; intros e _; ring).
      unfold V. rewrite !TVE. fold S. cbn [InterpModel.pow].
      set (A := sum (map (fun e => fmul (fmul (kf e) (q e l)) (entry (row (b_tv b) (snd e)) c)) nb)). set (B := sum (map (fun e => fmul (kf e) (q e l)) nb)). set (N := sum (map (fun e => fmul (w e) (entry (row (b_tv b) (snd e)) c)) nb)).
      field. split; assumption.
    Qed.
    (** the dual numbers exist *)
    Lemma weighted_duals : forall dx c, length dx = d -> (forall e, In e nb -> fst e <> F0) -> S <> F0 ->
        (forall e, In e nb -> fmul (fst e) (fst e) = fst (dist2 (shifted (b_tpm b) (b_tpr b) x dx) (fixed (row (b_tp b) (snd e))))) ->
        exists D W Z, (forall e, In e nb -> fst (D e) = fst e) /\
          inverse_distance F0 F1 fadd fmul fopp p nb (shifted (b_tpm b) (b_tpr b) x dx) (fun e => fixed (row (b_tp b) (snd e))) (fun e => dconst (entry (row tv (snd e)) c)) D W Z.
    Proof.
      intros dx c LD NE NZ H. set (D := fun e : F * nat => (fst e, fdiv (snd (dist2 (shifted (b_tpm b) (b_tpr b) x dx) (fixed (row (b_tp b) (snd e))))) (fmul (fadd F1 F1) (fst e))) : dual).
      set (inv := fun a : dual => (fdiv F1 (fst a), fopp (fdiv (snd a) (fmul (fst a) (fst a)))) : dual).
      assert (IV : forall a : dual, fst a <> F0 -> dmul (inv a) a = dconst F1) by (intros a Ha; unfold inv, InterpSpec.dmul, InterpSpec.dconst; cbn; f_equal; field; exact Ha).
      set (W := fun e => inv (dpow (D e) p)). set (Z := dmul (dsum (map (fun a => dmul (W a) (dconst (entry (row tv (snd a)) c))) nb)) (inv (dsum (map W nb)))).
      exists D, W, Z. split; [reflexivity|]. split; [|split].
      - intros e He. rewrite (surjective_pairing (dist2 _ _)). rewrite <- (H e He). unfold InterpSpec.dmul, D. cbn [fst snd]. f_equal. field. split; [exact (NE e He)|exact TWO].
      - intros e He. unfold W. apply IV. rewrite (proj1 (dpow_parts (D e) p)). apply (pow_nz F0 F1 fadd fmul fsub fopp fdiv finv Fth). exact (NE e He).
      - assert (SW : fst (dsum (map W nb)) = S) by (rewrite dsum_fst; apply sum_map_ext; intros e He; unfold W, inv; cbn [fst]; rewrite (proj1 (dpow_parts (D e) p)); reflexivity).
        assert (K := IV (dsum (map W nb)) ltac:(rewrite SW; exact NZ)). unfold Z. set (N := dsum (map (fun a => dmul (W a) (dconst (entry (row tv (snd a)) c))) nb)) in *. set (SS := dsum (map W nb)) in *.
        transitivity (dmul N (dmul (inv SS) SS)); [unfold InterpSpec.dmul; cbn; f_equal; ring|]. rewrite K. clearbody N. destruct N as [n1 n2]. unfold InterpSpec.dmul, InterpSpec.dconst. cbn. f_equal; ring.
    Qed.
  End Trained.
End Proofs.

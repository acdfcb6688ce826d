(** Lemmas about interpolants: values of the weighted interpolant. *)
From Coq Require Import Ring Field.
From Verif Require Import Base InterpModel InterpSpec InterpProofs.
Local Open Scope nat_scope.
Local Open Scope list_scope.

Lemma ok_inj : forall A (a b : A), Ok a = Ok b -> a = b. Proof. congruence. Qed.
Section Proofs.
  Context {F : Type} (F0 F1 : F) (fadd fmul fsub : F -> F -> F) (fopp : F -> F) (fdiv : F -> F -> F) (finv : F -> F).
  Variable feqb : F -> F -> bool.
  Variable fltb : F -> F -> bool.
  Hypothesis Fth : field_theory F0 F1 fadd fmul fsub fopp fdiv finv (@eq F).
  Add Field Fint2 : Fth.
  Hypothesis EQ : forall a b, feqb a b = true <-> a = b.
  Notation flt := (fun a b => fltb a b = true).
  Notation le := (le flt).
  Notation sum := (sum F0 fadd). Notation pow := (pow F1 fmul). Notation entry := (entry F0).
  Notation normalize := (normalize fsub fdiv).
  Notation nn_base := (nn_base F0 F1 fsub fdiv feqb fltb).
  Notation get_weights := (get_weights F0 F1 fmul fdiv feqb).

  (** the weight of a neighbour at a distance, given whether some distance is 0 *)
  Definition wf (p : nat) (hit : bool) (x : F) : F := if hit then (if feqb (pow x p) F0 then F1 else F0) else fdiv F1 (pow x p).
  Definition hits (p : nat) (nb : list (F * nat)) : bool := existsb (fun e : F * nat => feqb (pow (fst e) p) F0) nb.
  Lemma get_weights_map : forall p (nb : list (F * nat)), get_weights (map fst nb) p = map (fun e => wf p (hits p nb) (fst e)) nb.
  Proof.
    intros p nb. unfold InterpModel.get_weights. rewrite !map_map. assert (E : forall l, existsb (fun x => feqb x F0) (map (fun x : F * nat => pow (fst x) p) l) = hits p l) by (induction l as [|e l IH]; cbn; [reflexivity|rewrite IH; reflexivity]).
    rewrite E. unfold wf. destruct (hits p nb); reflexivity.
  Qed.
  Lemma div_mul : forall a b, b <> F0 -> fmul (fdiv a b) b = a. Proof. intros a b H. field. exact H. Qed.

  Section Trained.
    Variables (m d k : nat) (tp tv : list (list F)).
    Hypothesis RP : rect m d tp.
    Hypothesis RV : rect m k tv.
    Hypothesis M : m <> 0.
    Let b := nn_base tp tv.
    Variable query : list (list F) -> list F -> nat -> list (F * nat).
    Notation weighted := (weighted F0 F1 fadd fmul fsub fdiv feqb query).
    Variables (x : list F) (n de : nat).
    Let nb := query (b_tp b) (normalize (b_tpm b) (b_tpr b) x) n.
    Let p := eff d de.
    Hypothesis IX : forall e, In e nb -> snd e < m.
    Lemma weighted_value : forall y, n <= m -> weighted b x n de = Ok y -> sum (map (fun e => wf p (hits p nb) (fst e)) nb) <> F0 -> length y = k /\
        forall c, c < k -> fmul (entry y c) (sum (map (fun e => wf p (hits p nb) (fst e)) nb)) = sum (map (fun e => fmul (wf p (hits p nb) (fst e)) (entry (row tv (snd e)) c)) nb).
    Proof.
      intros y Hn E NZ. unfold InterpModel.weighted in E. destruct (b_lengths F0 F1 fsub fdiv feqb fltb m d k tp tv RP RV M) as (L1 & L2 & L3 & L4 & L5 & L6). destruct (b_ndim F0 F1 fsub fdiv feqb fltb m d k tp tv RP RV M) as [N1 N2].
      fold b in L1, L2, L3, L4, L5, L6, N1, N2. rewrite L5, N1, N2 in E. destruct (m <? n) eqn:MN; [apply Nat.ltb_lt in MN; lia|]. apply ok_inj in E. fold nb p in E. rewrite get_weights_map in E. set (w := fun e : F * nat => wf p (hits p nb) (fst e)) in *.
      assert (LY : length (map (fun z => fdiv z (sum (map w nb))) (weighted_sum F0 fadd fmul k (map w nb) (map (fun e => row (b_tv b) (snd e)) nb))) = k) by (unfold weighted_sum; rewrite !map_length, seq_length; reflexivity).
      rewrite <- E. split; [eapply (unnormalize_length fadd fmul); eassumption|]. intros c Hc.
      rewrite (entry_unnormalize F0 F1 fadd fmul fsub fopp fdiv finv Fth (b_tvm b) (b_tvr b) _ k c L3 L4 LY).
      assert (EC : entry (map (fun z => fdiv z (sum (map w nb))) (weighted_sum F0 fadd fmul k (map w nb) (map (fun e => row (b_tv b) (snd e)) nb))) c =
                   fdiv (sum (map (fun e => fmul (entry (row (b_tv b) (snd e)) c) (w e)) nb)) (sum (map w nb))).
      { unfold weighted_sum. rewrite map_map. rewrite (entry_map F0) by exact Hc. f_equal. f_equal. rewrite zip_maps. reflexivity. }
      rewrite EC. set (S := sum (map w nb)) in *. set (N := sum (map (fun e => fmul (entry (row (b_tv b) (snd e)) c) (w e)) nb)).
      transitivity (fadd (fmul (entry (b_tvr b) c) N) (fmul (entry (b_tvm b) c) S)); [field; exact NZ|]. unfold N, S. rewrite <- !(sum_map_mul F0 F1 fadd fmul fsub fopp fdiv finv Fth), <- (sum_map_add F0 F1 fadd fmul fsub fopp fdiv finv Fth).
      apply sum_map_ext. intros e He. rewrite <- (tv_entry F0 F1 fadd fmul fsub fopp fdiv finv feqb fltb Fth EQ m d k tp tv RP RV M (snd e) c (IX e He) Hc). fold b. change (wf p (hits p nb) (fst e)) with (w e). ring.
    Qed.

    Section Exact.
      Variable dist : list F -> list F -> F.
      Hypothesis ORD : ordered F0 fadd fmul flt.
      Hypothesis DI : distance F0 flt dist.
      Hypothesis NQ : nearest flt dist (b_tp b) (normalize (b_tpm b) (b_tpr b) x) n nb.
      Hypothesis Hn : n <= m.
      Hypothesis Hn0 : n <> 0.
      Lemma le_antisym : forall a c, le a c -> le c a -> a = c.
      Proof. intros a c A C. destruct (o_total _ _ _ _ ORD a c) as [K|[K|K]]; [contradiction|exact K|contradiction]. Qed.
      Variable j : nat.
      Hypothesis Hj : j < m.
      Hypothesis DT : distinct tp.
      Hypothesis HX : x = row tp j.
      Lemma hit_j : In (F0, j) nb /\ forall e, In e nb -> fst e = F0 -> snd e = j.
      Proof.
        destruct (b_lengths F0 F1 fsub fdiv feqb fltb m d k tp tv RP RV M) as (L1 & L2 & L3 & L4 & L5 & L6). fold b in L1, L2, L3, L4, L5, L6.
        assert (TR : forall i, i < m -> nth i (b_tp b) [] = normalize (b_tpm b) (b_tpr b) (row tp i) /\ length (row tp i) = d) by (intros i Hi; exact (tp_row F0 F1 fsub fdiv feqb fltb m d tp tv RP i Hi)).
        assert (INJ : forall i, i < m -> dist (normalize (b_tpm b) (b_tpr b) x) (nth i (b_tp b) []) = F0 -> i = j).
        { intros i Hi K. destruct (TR i Hi) as [TI LI]. destruct (TR j Hj) as [TJ LJ]. rewrite TI in K. apply (proj2 DI) in K.
          - rewrite HX in K. apply (normalize_inj F0 F1 fadd fmul fsub fopp fdiv finv Fth _ _ _ _ d L1 L2 LJ LI) in K; [|intros c Hc; exact (tpr_nz F0 F1 fadd fmul fsub fopp fdiv finv feqb fltb Fth EQ m d k tp tv RP RV M c Hc)].
            symmetry. apply (NoDup_nth tp []); [exact DT|rewrite (proj1 RP); exact Hj|rewrite (proj1 RP); exact Hi|exact K].
          - rewrite HX, !(normalize_length fsub fdiv _ _ _ d) by assumption. reflexivity. }
        destruct NQ as (Q1 & Q2 & Q3 & Q4 & Q5). rewrite L5 in Q3, Q4.
        assert (ZJ : dist (normalize (b_tpm b) (b_tpr b) x) (nth j (b_tp b) []) = F0).
        { destruct (TR j Hj) as [TJ LJ]. rewrite TJ, HX. apply (proj2 DI); reflexivity. }
        assert (IJ : In j (map snd nb)).
        { destruct (in_dec Nat.eq_dec j (map snd nb)) as [K|K]; [exact K|]. exfalso. destruct nb as [|[d0 i0] r] eqn:EB; [cbn in Q1; congruence|].
          destruct (Q3 d0 i0 (or_introl eq_refl)) as [I0 D0]. pose proof (Q4 d0 i0 j (or_introl eq_refl) Hj K) as L. rewrite ZJ in L. assert (Z0 : d0 = F0) by (apply le_antisym; [exact L|rewrite D0; apply (proj1 DI)]). apply K. left. cbn. apply INJ; [exact I0|congruence]. }
        split.
        - apply in_map_iff in IJ. destruct IJ as ([dj j'] & K1 & K2). cbn in K1. subst j'. destruct (Q3 dj j K2) as [_ D0]. rewrite ZJ in D0. subst dj. exact K2.
        - intros [d0 i0] K1 K2. cbn in *. subst d0. destruct (Q3 F0 i0 K1) as [I0 D0]. apply INJ; [exact I0|symmetry; exact D0].
      Qed.
      Lemma sum_hit : forall (g : nat -> F) q, q <> 0 -> forall l, NoDup (map snd l) -> In (F0, j) l -> (forall e, In e l -> fst e = F0 -> snd e = j) ->
          sum (map (fun e : F * nat => fmul (wf q true (fst e)) (g (snd e))) l) = g j.
      Proof.
        intros g q Hq. unfold wf.
        assert (Z : forall l, (forall e, In e l -> fst e <> F0) -> sum (map (fun e : F * nat => fmul (if feqb (pow (fst e) q) F0 then F1 else F0) (g (snd e))) l) = F0).
        { induction l as [|e l IH]; intros H; cbn; [reflexivity|]. rewrite IH by (intros e' He'; apply H; right; exact He'). rewrite (eqb_neq feqb EQ) by (apply (pow_nz F0 F1 fadd fmul fsub fopp fdiv finv Fth); apply H; left; reflexivity). ring. }
        induction l as [|e l IH]; intros ND IN U; [destruct IN|]. cbn in ND. inversion ND as [|? ? N1 N2]. subst. destruct IN as [ ->|IN].
        - cbn [map InterpModel.sum fst snd]. rewrite Z.
          + rewrite (pow_zero F0 F1 fadd fmul fsub fopp fdiv finv Fth q Hq), (eqb_refl feqb EQ). ring.
          + intros e He K. apply N1. cbn. replace j with (snd e) by (apply U; [right; exact He|exact K]). apply in_map. exact He.
        - cbn [map InterpModel.sum]. rewrite IH; [|exact N2|exact IN|intros e' He'; apply U; right; exact He'].
          assert (K : fst e <> F0) by (intros K; apply N1; rewrite (U e (or_introl eq_refl) K); apply (in_map snd) in IN; exact IN).
          rewrite (eqb_neq feqb EQ) by (apply (pow_nz F0 F1 fadd fmul fsub fopp fdiv finv Fth); exact K). ring.
      Qed.
      Lemma weighted_exact : forall y, weighted b x n de = Ok y -> y = row tv j.
      Proof.
        intros y E. destruct hit_j as [H1 H2]. destruct NQ as (Q1 & Q2 & Q3 & Q4 & Q5).
        assert (P0 : p <> 0) by (unfold p, eff; destruct de; lia).
        assert (HT : hits p nb = true) by (unfold hits; apply existsb_exists; exists (F0, j); split; [exact H1|]; cbn [fst]; rewrite (pow_zero F0 F1 fadd fmul fsub fopp fdiv finv Fth p P0); apply EQ; reflexivity).
        assert (SW : sum (map (fun e => wf p (hits p nb) (fst e)) nb) = F1).
        { rewrite HT. pose proof (sum_hit (fun _ => F1) p P0 nb Q2 H1 H2) as K. cbv beta in K. rewrite <- K. apply sum_map_ext. intros e _. ring. }
        destruct (weighted_value y Hn E) as [LY VY]; [rewrite SW; exact (F1_neq F0 F1 fadd fmul fsub fopp fdiv finv Fth)|].
        destruct (tv_row F0 F1 fsub fdiv feqb fltb m k tp tv RV j Hj) as [_ LJ]. apply (entry_ext F0); [lia|]. intros c Hc. specialize (VY c ltac:(lia)). rewrite SW, HT in VY. rewrite (sum_hit (fun i => entry (row tv i) c) p P0 nb Q2 H1 H2) in VY. rewrite <- VY. ring.
      Qed.
    End Exact.
  End Trained.
End Proofs.

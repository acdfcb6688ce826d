(** Lemmas about interpolants: radial basis functions and kriging. *)
From Coq Require Import Ring Field.
From Verif Require Import Base InterpModel InterpSpec InterpProofs InterpProofs2 InterpProofs4 InterpProofs5.
Local Open Scope nat_scope.
Local Open Scope list_scope.

Section Proofs.
  Context {F : Type} (F0 F1 : F) (fadd fmul fsub : F -> F -> F) (fopp : F -> F) (fdiv : F -> F -> F) (finv : F -> F).
  Variable feqb : F -> F -> bool.
  Variable fltb : F -> F -> bool.
  Hypothesis Fth : field_theory F0 F1 fadd fmul fsub fopp fdiv finv (@eq F).
  Add Field Fint6 : Fth.
  Hypothesis EQ : forall a b, feqb a b = true <-> a = b.
  Notation sum := (sum F0 fadd). Notation entry := (entry F0).
  Notation normalize := (normalize fsub fdiv). Notation unnormalize := (unnormalize fadd fmul).
  Notation nn_base := (nn_base F0 F1 fsub fdiv feqb fltb).
  Notation along := (along F0 fadd fmul).
  Notation dadd := (dadd fadd). Notation dopp := (dopp fopp). Notation dmul := (dmul fadd fmul). Notation dsub := (dsub fadd fopp).
  Notation dconst := (dconst F0). Notation dsum := (dsum F0 fadd). Notation dist2 := (dist2 F0 fadd fmul fopp).
  Notation shifted := (shifted fsub fdiv). Notation fixed := (fixed F0).
  Notation last_dist := (last_dist F0).

  Lemma removelast_in : forall A (l : list A) a, In a (removelast l) -> In a l.
  Proof. intros A. induction l as [|b l IH]; intros a H; [destruct H|]. destruct l as [|c l]; [destruct H|]. change (removelast (b :: c :: l)) with (b :: removelast (c :: l)) in H. destruct H as [H|H]; [left; exact H|right; apply IH; exact H]. Qed.
  Lemma removelast_nodup : forall A B (f : A -> B) l, NoDup (map f l) -> NoDup (map f (removelast l)).
  Proof.
    intros A B f. induction l as [|b l IH]; intros H; [constructor|]. destruct l as [|c l]; [constructor|]. change (removelast (b :: c :: l)) with (b :: removelast (c :: l)). cbn [map] in *. inversion H as [|? ? N1 N2]. subst. constructor; [|apply IH; exact N2].
    intros K. apply N1. apply in_map_iff in K. destruct K as (z & E & Hz). rewrite <- E. change (f c :: map f l) with (map f (c :: l)). apply in_map. apply removelast_in. exact Hz.
  Qed.
  Lemma zip_along : forall (a : list F) (w : list (list F)) c, sum (zip_with (fun r v => fmul r (entry v c)) a w) = along a (map (fun v => entry v c) w).
  Proof. induction a as [|x a IH]; intros [|v w] c; cbn; try reflexivity. rewrite IH. reflexivity. Qed.
  Lemma row_map_seq : forall (f : nat -> list F) k c, c < k -> row (map f (seq 0 k)) c = f c.
  Proof. intros f k c H. unfold row. rewrite (nth_indep _ [] (f 0)) by (rewrite map_length, seq_length; exact H). rewrite map_nth, seq_nth by exact H. reflexivity. Qed.

  (** a sum over the columns set by the neighbours *)
  Lemma find_sum : forall (f : F * nat -> F) l j, NoDup (map snd l) -> match find (fun e : F * nat => snd e =? j) l with Some e => f e | None => F0 end = sum (map (fun e => if snd e =? j then f e else F0) l).
  Proof.
    intros f. induction l as [|e l IH]; intros j H; [reflexivity|]. cbn. cbn in H. inversion H as [|? ? N1 N2]. subst. destruct (snd e =? j) eqn:E; [|rewrite IH by exact N2; ring].
    apply Nat.eqb_eq in E. assert (Z : forall l', ~ In j (map snd l') -> sum (map (fun e0 => if snd e0 =? j then f e0 else F0) l') = F0).
    { induction l' as [|e' l' IH']; intros N; [reflexivity|]. cbn in *. destruct (snd e' =? j) eqn:E'; [apply Nat.eqb_eq in E'; exfalso; apply N; left; exact E'|]. rewrite IH' by (intros K; apply N; right; exact K). ring. }
    rewrite Z by (rewrite <- E; exact N1). ring.
  Qed.
  Lemma pick_sum : forall (w : nat -> F) i m, i < m -> sum (map (fun j => fmul (if i =? j then F1 else F0) (w j)) (seq 0 m)) = w i.
  Proof.
    intros w i m H. assert (G : forall s n, i < s \/ s + n <= i -> sum (map (fun j => fmul (if i =? j then F1 else F0) (w j)) (seq s n)) = F0).
    { intros s n. revert s. induction n as [|n IH]; intros s K; [reflexivity|]. cbn [seq map InterpModel.sum]. rewrite IH by lia. destruct (i =? s) eqn:E; [apply Nat.eqb_eq in E; lia|]. ring. }
    replace m with (i + S (m - S i)) by lia. rewrite seq_app, map_app, (sum_app F0 F1 fadd fmul fsub fopp fdiv finv Fth). rewrite G by lia. cbn [seq map InterpModel.sum]. rewrite G by lia. cbn [Nat.add]. rewrite Nat.eqb_refl. ring.
  Qed.
  Lemma columns_sum : forall (f : F * nat -> F) (w : nat -> F) l m, NoDup (map snd l) -> (forall e, In e l -> snd e < m) ->
      sum (map (fun j => fmul (match find (fun e : F * nat => snd e =? j) l with Some e => f e | None => F0 end) (w j)) (seq 0 m)) = sum (map (fun e => fmul (f e) (w (snd e))) l).
  Proof.
    intros f w l m ND IX. transitivity (sum (map (fun j => sum (map (fun e => fmul (f e) (fmul (if snd e =? j then F1 else F0) (w j))) l)) (seq 0 m))).
    - apply sum_map_ext. intros j _. rewrite (find_sum f l j ND). replace (fmul (sum (map (fun e => if snd e =? j then f e else F0) l)) (w j)) with (fmul (w j) (sum (map (fun e => if snd e =? j then f e else F0) l))) by ring. rewrite <- (sum_map_mul F0 F1 fadd fmul fsub fopp fdiv finv Fth). apply sum_map_ext. intros e _. destruct (snd e =? j); ring.
    - rewrite (sum_swap F0 F1 fadd fmul fsub fopp fdiv finv Fth). apply sum_map_ext. intros e He. rewrite (sum_map_mul F0 F1 fadd fmul fsub fopp fdiv finv Fth), (pick_sum w (snd e) m (IX e He)). reflexivity.
  Qed.

  Section Trained.
    Variables (m d k : nat) (tp tv : list (list F)).
    Hypothesis RP : rect m d tp.
    Hypothesis RV : rect m k tv.
    Hypothesis M : m <> 0.
    Let b := nn_base tp tv.
    Variable query : list (list F) -> list F -> nat -> list (F * nat).
    Variable kern dkern : F -> F.
    Notation rbf_train := (rbf_train F0 fdiv feqb query kern).
    Notation rbf_predict := (rbf_predict F0 fadd fmul fsub fdiv feqb query kern).
    Notation rbf_gradient := (rbf_gradient F0 fadd fmul fsub fdiv feqb query dkern).
    Notation find_R := (find_R F0 fdiv kern).

    Lemma rbf_exact : forall spsolve n W j, (forall i c, i < m -> c < k -> along (row (map (fun t => find_R m (query (b_tp b) t n)) (b_tp b)) i) (map (fun v => entry v c) W) = entry (row (b_tv b) i) c) ->
        rbf_train spsolve b n = Ok W -> j < m -> rbf_predict b n W (row tp j) = Ok (row tv j).
    Proof.
      intros spsolve n W j SP T Hj. destruct (b_lengths F0 F1 fsub fdiv feqb fltb m d k tp tv RP RV M) as (L1 & L2 & L3 & L4 & L5 & L6). destruct (b_ndim F0 F1 fsub fdiv feqb fltb m d k tp tv RP RV M) as [N1 N2]. fold b in L1, L2, L3, L4, L5, L6, N1, N2.
      unfold InterpModel.rbf_train in T. rewrite L5 in T. destruct (m <? n); [discriminate|]. set (nbs := map (fun t => query (b_tp b) t n) (b_tp b)) in *. destruct (existsb (fun nb => feqb (last_dist nb) F0) nbs) eqn:Z; [discriminate|]. apply ok_inj in T.
      destruct (tp_row F0 F1 fsub fdiv feqb fltb m d tp tv RP j Hj) as [T1 T2]. fold b in T1. unfold InterpModel.rbf_predict. rewrite <- T1.
      assert (NJ : In (query (b_tp b) (row (b_tp b) j) n) nbs) by (apply (in_map (fun t => query (b_tp b) t n)); apply row_in; lia).
      destruct (feqb (last_dist (query (b_tp b) (row (b_tp b) j) n)) F0) eqn:ZJ.
      { exfalso. assert (K : existsb (fun nb => feqb (last_dist nb) F0) nbs = true) by (apply existsb_exists; eauto). congruence. }
      f_equal. rewrite L5, N2. assert (LY : length (map (fun c => sum (zip_with (fun r w => fmul r (entry w c)) (find_R m (query (b_tp b) (row (b_tp b) j) n)) W)) (seq 0 k)) = k) by (rewrite map_length, seq_length; reflexivity).
      destruct (tv_row F0 F1 fsub fdiv feqb fltb m k tp tv RV j Hj) as [T3 T4]. apply (entry_ext F0); [rewrite (unnormalize_length fadd fmul _ _ _ k) by assumption; lia|]. intros c Hc. rewrite (unnormalize_length fadd fmul _ _ _ k) in Hc by assumption.
      rewrite (entry_unnormalize F0 F1 fadd fmul fsub fopp fdiv finv Fth _ _ _ k) by assumption. rewrite (entry_map F0) by exact Hc. rewrite zip_along.
      pose proof (SP j c Hj Hc) as SV. unfold row in SV at 1. set (f := fun t => find_R m (query (b_tp b) t n)) in SV. rewrite (nth_indep (map f (b_tp b)) [] (f [])) in SV by (rewrite map_length; lia). rewrite (map_nth f (b_tp b) [] j) in SV. unfold f in SV. fold (row (b_tp b) j) in SV. rewrite SV.
      apply (tv_entry F0 F1 fadd fmul fsub fopp fdiv finv feqb fltb Fth EQ m d k tp tv RP RV M j c Hj Hc).
    Qed.

    Section Point.
      Variables (x : list F) (n : nat).
      Let xn := normalize (b_tpm b) (b_tpr b) x.
      Let nb := query (b_tp b) xn n.
      Let lst := last nb (F0, 0).
      Let L := removelast nb.
      Hypothesis LX : length x = d.
      Hypothesis IX : forall e, In e nb -> snd e < m.
      Hypothesis ND : NoDup (map snd nb).
      Hypothesis NN : nb <> [].
      Variable W : list (list F).
      Hypothesis LW : length W = m.
      Hypothesis TWO : fadd F1 F1 <> F0.

      Lemma last_in : In lst nb.
      Proof. unfold lst. destruct (exists_last NN) as (l' & a & E). rewrite E, last_last. apply in_or_app. right. left. reflexivity. Qed.
      Lemma rbf_value : forall y c, rbf_predict b n W x = Ok y -> c < k -> fst lst <> F0 /\ entry y c = fadd (fmul (sum (map (fun e => fmul (kern (fdiv (fst e) (fst lst))) (entry (row W (snd e)) c)) L)) (entry (b_tvr b) c)) (entry (b_tvm b) c).
      Proof.
        intros y c H Hc. destruct (b_lengths F0 F1 fsub fdiv feqb fltb m d k tp tv RP RV M) as (L1 & L2 & L3 & L4 & L5 & L6). destruct (b_ndim F0 F1 fsub fdiv feqb fltb m d k tp tv RP RV M) as [N1 N2]. fold b in L1, L2, L3, L4, L5, L6, N1, N2.
        unfold InterpModel.rbf_predict in H. fold xn in H. fold nb in H. unfold InterpModel.last_dist in H. fold lst in H. destruct (feqb (fst lst) F0) eqn:Z; [discriminate|]. apply ok_inj in H. split; [intros K; apply EQ in K; congruence|].
        rewrite L5, N2 in H. rewrite <- H. rewrite (entry_unnormalize F0 F1 fadd fmul fsub fopp fdiv finv Fth _ _ _ k) by (try assumption; rewrite map_length, seq_length; reflexivity). rewrite (entry_map F0) by exact Hc. f_equal. f_equal.
        rewrite zip_along. unfold InterpModel.find_R. rewrite (along_sum F0 fadd fmul m) by (rewrite map_length; try rewrite seq_length; auto).
        transitivity (sum (map (fun j => fmul (match find (fun e : F * nat => snd e =? j) L with Some e => kern (fdiv (fst e) (fst lst)) | None => F0 end) (entry (row W j) c)) (seq 0 m))).
        - apply sum_map_ext. intros j Hj. apply in_seq in Hj. rewrite (entry_map F0) by lia. unfold InterpModel.last_dist. fold lst L. f_equal. unfold InterpModel.entry at 1. set (f := fun v : list F => nth c v F0). change (fun v : list F => entry v c) with f. rewrite (nth_indep (map f W) F0 (f [])) by (rewrite map_length; lia). rewrite (map_nth f W [] j). reflexivity.
        - apply (columns_sum (fun e => kern (fdiv (fst e) (fst lst))) (fun j => entry (row W j) c)); [apply removelast_nodup; exact ND|]. intros e He. apply IX. apply removelast_in. exact He.
      Qed.
      Let dtx (e : F * nat) l := fdiv (fsub (fsub (entry xn l) (entry (row (b_tp b) (snd e)) l)) (fmul (fmul (fdiv (fst e) (fst lst)) (fdiv (fst e) (fst lst))) (fsub (entry xn l) (entry (row (b_tp b) (snd lst)) l)))) (fmul (fmul (fst lst) (fst lst)) (fdiv (fst e) (fst lst))).
      Lemma rbf_gradient_entry : forall eps G c, rbf_gradient eps b n W x = Ok G -> c < k -> (forall e, In e L -> fst e <> F0) -> fst lst <> F0 -> length (row G c) = d /\ forall l, l < d ->
          entry (row G c) l = fmul (sum (map (fun e => fmul (fmul (dkern (fdiv (fst e) (fst lst))) (dtx e l)) (entry (row W (snd e)) c)) L)) (fdiv (entry (b_tvr b) c) (entry (b_tpr b) l)).
      Proof.
        intros eps G c H Hc NE NL. destruct (b_ndim F0 F1 fsub fdiv feqb fltb m d k tp tv RP RV M) as [N1 N2]. fold b in N1, N2. unfold InterpModel.rbf_gradient in H. cbv zeta in H. fold xn in H. fold nb in H. unfold InterpModel.last_dist in H. fold lst L in H. rewrite (eqb_neq feqb EQ _ _ NL) in H. apply ok_inj in H. rewrite N1, N2 in H.
        rewrite <- H. rewrite row_map_seq by exact Hc. split; [rewrite map_length, seq_length; reflexivity|]. intros l Hl. rewrite (entry_map F0) by exact Hl. f_equal. apply sum_map_ext. intros e He.
        assert (T0 : fdiv (fst e) (fst lst) <> F0) by (intros K; apply (NE e He); transitivity (fmul (fdiv (fst e) (fst lst)) (fst lst)); [field; exact NL|rewrite K; ring]).
        rewrite (eqb_neq feqb EQ _ _ T0). reflexivity.
      Qed.
      Lemma rbf_derivative : forall eps y G dx c, rbf_predict b n W x = Ok y -> rbf_gradient eps b n W x = Ok G -> length dx = d -> c < k -> (forall e, In e L -> fst e <> F0) ->
          forall kd D T Z, (forall t t', kd (t, t') = (kern t, fmul (dkern t) t')) -> (forall e, In e nb -> fst (D e) = fst e) ->
            radial F0 fadd fmul fopp L lst kd (shifted (b_tpm b) (b_tpr b) x dx) (fun e => fixed (row (b_tp b) (snd e))) (fun e => dconst (entry (row W (snd e)) c)) D T Z ->
            dadd (dmul Z (dconst (entry (b_tvr b) c))) (dconst (entry (b_tvm b) c)) = (entry y c, along (row G c) dx).
      Proof.
        intros eps y G dx c HY HG LD Hc NE kd D T Z KD HD (R1 & R2 & R3). destruct (rbf_value y c HY Hc) as [NL EY]. destruct (rbf_gradient_entry eps G c HG Hc NE NL) as [LG GE].
        destruct (b_lengths F0 F1 fsub fdiv feqb fltb m d k tp tv RP RV M) as (L1 & L2 & L3 & L4 & L5 & L6). fold b in L1, L2, L3, L4, L5, L6.
        assert (LE : forall e, In e nb -> length (row (b_tp b) (snd e)) = d).
        { intros e He. destruct (tp_row F0 F1 fsub fdiv feqb fltb m d tp tv RP (snd e) (IX e He)) as [T1 T2]. fold b in T1. rewrite T1. apply (normalize_length fsub fdiv); assumption. }
        set (s := fun e : F * nat => sum (map (fun l => fmul (fsub (entry xn l) (entry (row (b_tp b) (snd e)) l)) (fdiv (entry dx l) (entry (b_tpr b) l))) (seq 0 d))).
        assert (DD : forall e, In e nb -> In e L \/ e = lst -> fmul (fst e) (snd (D e)) = s e).
        { intros e He HL. pose proof (dist_deriv F0 F1 fadd fmul fsub fopp fdiv finv Fth d (b_tpm b) (b_tpr b) x dx (row (b_tp b) (snd e)) (D e) TWO L1 L2 LX LD (LE e He) (R1 e HL)) as K. rewrite (HD e He) in K. exact K. }
        assert (TD : forall e, In e L -> fst (T e) = fdiv (fst e) (fst lst) /\ snd (T e) = sum (map (fun l => fmul (dtx e l) (fdiv (entry dx l) (entry (b_tpr b) l))) (seq 0 d))).
        { intros e He. assert (He' := removelast_in _ _ _ He). fold nb in He'. assert (NEe := NE e He). pose proof (R2 e He) as K. pose proof (f_equal fst K) as K1. pose proof (f_equal snd K) as K2. cbn [InterpSpec.dmul fst snd] in K1, K2. rewrite (HD lst last_in) in K1, K2. rewrite (HD e He') in K1.
          assert (T1 : fst (T e) = fdiv (fst e) (fst lst)) by (rewrite <- K1; field; exact NL). split; [exact T1|].
          assert (S1 := DD e He' (or_introl He)). assert (S2 := DD lst last_in (or_intror eq_refl)).
          transitivity (fadd (fmul (fdiv F1 (fmul (fst lst) (fst e))) (s e)) (fmul (fopp (fdiv (fst e) (fmul (fst lst) (fmul (fst lst) (fst lst))))) (s lst))).
          - rewrite <- S1, <- S2. rewrite T1 in K2. transitivity (fdiv (fsub (fadd (fmul (fdiv (fst e) (fst lst)) (snd (D lst))) (fmul (snd (T e)) (fst lst))) (fmul (fdiv (fst e) (fst lst)) (snd (D lst)))) (fst lst)); [field; exact NL|]. rewrite K2. field. split; assumption.
          - unfold s. rewrite <- !(sum_map_mul F0 F1 fadd fmul fsub fopp fdiv finv Fth), <- (sum_map_add F0 F1 fadd fmul fsub fopp fdiv finv Fth). apply sum_map_ext. intros l Hl. apply in_seq in Hl. assert (RN := tpr_nz F0 F1 fadd fmul fsub fopp fdiv finv feqb fltb Fth EQ m d k tp tv RP RV M l ltac:(lia)). fold b in RN.
            unfold dtx. field. repeat split; assumption. }
        assert (KT : forall e, In e L -> kd (T e) = (kern (fdiv (fst e) (fst lst)), fmul (dkern (fdiv (fst e) (fst lst))) (snd (T e)))).
        { intros e He. rewrite (surjective_pairing (T e)), KD, (proj1 (TD e He)). reflexivity. }
        assert (ZF : fst Z = sum (map (fun e => fmul (kern (fdiv (fst e) (fst lst))) (entry (row W (snd e)) c)) L)).
        { rewrite R3, dsum_fst. apply sum_map_ext. intros e He. rewrite (KT e He). reflexivity. }
        assert (ZS : snd Z = sum (map (fun e => fmul (fmul (dkern (fdiv (fst e) (fst lst))) (entry (row W (snd e)) c)) (snd (T e))) L)).
        { rewrite R3, dsum_snd. apply sum_map_ext. intros e He. rewrite (KT e He). cbn. ring. }
        unfold InterpSpec.dadd, InterpSpec.dmul, InterpSpec.dconst. cbn [fst snd]. f_equal; [rewrite EY, ZF; reflexivity|]. rewrite (along_sum F0 fadd fmul d) by assumption.
        transitivity (fmul (entry (b_tvr b) c) (snd Z)); [ring|]. rewrite ZS.
        transitivity (fmul (entry (b_tvr b) c) (sum (map (fun e => sum (map (fun l => fmul (fdiv (entry dx l) (entry (b_tpr b) l)) (fmul (fmul (dkern (fdiv (fst e) (fst lst))) (dtx e l)) (entry (row W (snd e)) c))) (seq 0 d))) L))).
        - f_equal. apply sum_map_ext. intros e He. rewrite (proj2 (TD e He)), <- (sum_map_mul F0 F1 fadd fmul fsub fopp fdiv finv Fth). apply sum_map_ext. intros l _. ring.
        - rewrite (sum_swap F0 F1 fadd fmul fsub fopp fdiv finv Fth), <- (sum_map_mul F0 F1 fadd fmul fsub fopp fdiv finv Fth). apply sum_map_ext. intros l Hl. apply in_seq in Hl. rewrite (sum_map_mul F0 F1 fadd fmul fsub fopp fdiv finv Fth), (GE l) by lia.
          assert (RN := tpr_nz F0 F1 fadd fmul fsub fopp fdiv finv feqb fltb Fth EQ m d k tp tv RP RV M l ltac:(lia)). fold b in RN. field. exact RN.
      Qed.
      Lemma rbf_duals : forall kd dx c, (forall e, In e nb -> fst e <> F0) ->
          (forall e, In e nb -> fmul (fst e) (fst e) = fst (dist2 (shifted (b_tpm b) (b_tpr b) x dx) (fixed (row (b_tp b) (snd e))))) ->
          exists D T Z, (forall e, In e nb -> fst (D e) = fst e) /\
            radial F0 fadd fmul fopp L lst kd (shifted (b_tpm b) (b_tpr b) x dx) (fun e => fixed (row (b_tp b) (snd e))) (fun e => dconst (entry (row W (snd e)) c)) D T Z.
      Proof.
        intros kd dx c NE H. set (D := fun e : F * nat => (fst e, fdiv (snd (dist2 (shifted (b_tpm b) (b_tpr b) x dx) (fixed (row (b_tp b) (snd e))))) (fmul (fadd F1 F1) (fst e))) : dual).
        set (T := fun e => (fdiv (fst e) (fst lst), fdiv (fsub (snd (D e)) (fmul (fdiv (fst e) (fst lst)) (snd (D lst)))) (fst lst)) : dual).
        exists D, T, (dsum (map (fun a => dmul (kd (T a)) (dconst (entry (row W (snd a)) c))) L)). split; [reflexivity|]. split; [|split; [|reflexivity]].
        - intros e He. assert (He' : In e nb) by (destruct He as [He| ->]; [exact (removelast_in _ _ _ He)|exact last_in]). rewrite (surjective_pairing (dist2 _ _)). rewrite <- (H e He'). unfold InterpSpec.dmul, D. cbn [fst snd]. f_equal. field. split; [exact (NE e He')|exact TWO].
        - intros e He. apply injective_projections; unfold InterpSpec.dmul, T; cbn [fst snd]; change (fst (D lst)) with (fst lst); change (fst (D e)) with (fst e); field; exact (NE lst last_in).
      Qed.
    End Point.
  End Trained.

  (** ** kriging *)
  Section Krig.
    Variable fexp : F -> F.
    Variable dexp : dual (F := F) -> dual (F := F).
    Hypothesis DE : forall a a', dexp (a, a') = (fexp a, fmul (fexp a) a').
    Notation krig_predict := (krig_predict F0 fadd fmul fsub fopp fdiv fexp). Notation krig_linearize := (krig_linearize F0 F1 fadd fmul fsub fopp fdiv fexp).
    Variables (kr : krig (F := F)) (n d k : nat).
    Hypothesis XM : length (k_xmean kr) = d. Hypothesis XS : length (k_xstd kr) = d.
    Hypothesis YM : length (k_ymean kr) = k. Hypothesis YS : length (k_ystd kr) = k.
    Hypothesis RX : rect n d (k_X kr). Hypothesis LT : length (k_thetas kr) = d. Hypothesis RA : length (k_alpha kr) = n.
    Hypothesis NS : forall i, i < d -> entry (k_xstd kr) i <> F0.
    Variable x : list F.
    Hypothesis LX : length x = d.
    Let xn := normalize (k_xmean kr) (k_xstd kr) x.
    Lemma exponent : forall e m r z dx th t, length m = e -> length r = e -> length z = e -> length dx = e -> length th = e -> length t = e ->
        dsum (map (fun q : dual * (dual * dual) => dmul (fst q) (dmul (dsub (fst (snd q)) (snd (snd q))) (dsub (fst (snd q)) (snd (snd q))))) (combine (fixed th) (combine (shifted m r z dx) (fixed t)))) =
        (dot F0 fadd fmul th (map (fun q => fmul q q) (vsub fsub (normalize m r z) t)),
         sum (map (fun l => fmul (fmul (fadd F1 F1) (entry th l)) (fmul (fsub (entry (normalize m r z) l) (entry t l)) (fdiv (entry dx l) (entry r l)))) (seq 0 e))).
    Proof.
      induction e as [|e IH]; intros [|a m] [|s r] [|z zs] [|dz dx] [|h th] [|q t] A B C D E G; try discriminate; [reflexivity|]. cbn [InterpSpec.shifted InterpSpec.fixed map combine InterpSpec.dsum]. fold (fixed th) (fixed t). rewrite (IH m r zs dx th t) by (cbn in *; lia).
      rewrite seq_S. cbn [map InterpModel.sum]. rewrite map_map. unfold InterpSpec.dadd. apply injective_projections; cbn [fst snd].
      - transitivity (fadd (fmul h (fmul (fsub (fdiv (fsub z a) s) q) (fsub (fdiv (fsub z a) s) q))) (dot F0 fadd fmul th (map (fun q => fmul q q) (vsub fsub (normalize m r zs) t)))); [f_equal; cbn; ring|reflexivity].
      - f_equal. cbn. ring.
    Qed.
    Lemma krig_derivative : forall dx c, length dx = d -> c < k ->
        dadd (dconst (entry (k_ymean kr) c)) (dmul (dconst (entry (k_ystd kr) c)) (gaussian F0 fadd fmul fopp (seq 0 n) dexp (shifted (k_xmean kr) (k_xstd kr) x dx) (fixed (k_thetas kr)) (fun i => fixed (row (k_X kr) i)) (fun i => dconst (entry (row (k_alpha kr) i) c)))) =
        (entry (krig_predict kr x) c, along (row (krig_linearize kr x) c) dx).
    Proof.
      intros dx c LD Hc. assert (LNX : length xn = d) by (apply (normalize_length fsub fdiv); assumption).
      assert (LXI : forall i, i < n -> length (row (k_X kr) i) = d) by (intros i Hi; apply RX; apply row_in; rewrite (proj1 RX); exact Hi).
      set (r := fun i => corr F0 fadd fmul fsub fopp fexp (k_thetas kr) xn (row (k_X kr) i)). set (al := fun i => entry (row (k_alpha kr) i) c).
      set (sl := fun i => sum (map (fun l => fmul (fmul (fadd F1 F1) (entry (k_thetas kr) l)) (fmul (fsub (entry xn l) (entry (row (k_X kr) i) l)) (fdiv (entry dx l) (entry (k_xstd kr) l)))) (seq 0 d))).
      assert (GA : gaussian F0 fadd fmul fopp (seq 0 n) dexp (shifted (k_xmean kr) (k_xstd kr) x dx) (fixed (k_thetas kr)) (fun i => fixed (row (k_X kr) i)) (fun i => dconst (al i)) =
                   (sum (map (fun i => fmul (r i) (al i)) (seq 0 n)), sum (map (fun i => fmul (fopp (sl i)) (fmul (r i) (al i))) (seq 0 n)))).
      { unfold gaussian. rewrite (surjective_pairing (dsum _)), dsum_fst, dsum_snd. assert (T : forall i, i < n -> dexp (dopp (dsum (map (fun q : dual * (dual * dual) => dmul (fst q) (dmul (dsub (fst (snd q)) (snd (snd q))) (dsub (fst (snd q)) (snd (snd q))))) (combine (fixed (k_thetas kr)) (combine (shifted (k_xmean kr) (k_xstd kr) x dx) (fixed (row (k_X kr) i))))))) = (r i, fmul (r i) (fopp (sl i)))).
        { intros i Hi. rewrite (exponent d) by (auto). unfold InterpSpec.dopp. cbn [fst snd]. rewrite DE. reflexivity. }
        f_equal; apply sum_map_ext; intros i Hi; apply in_seq in Hi; rewrite T by lia; cbn; ring. }
      fold al in GA. change (fun i => dconst (entry (row (k_alpha kr) i) c)) with (fun i => dconst (al i)). rewrite GA. unfold InterpSpec.dadd, InterpSpec.dmul, InterpSpec.dconst. cbn [fst snd].
      assert (ZR : forall (f : F -> list F -> F) (Xs As : list (list F)), length Xs = n -> length As = n -> sum (zip_with f (map (corr F0 fadd fmul fsub fopp fexp (k_thetas kr) xn) Xs) As) = sum (map (fun i => f (corr F0 fadd fmul fsub fopp fexp (k_thetas kr) xn (row Xs i)) (row As i)) (seq 0 n))).
      { intros f. clear. induction n as [|n0 IH]; intros [|X Xs] [|A As] H1 H2; try discriminate; [reflexivity|]. rewrite seq_S. cbn [map zip_with InterpModel.sum]. rewrite map_map, (IH Xs As) by (cbn in *; lia). reflexivity. }
      f_equal.
      - unfold InterpModel.krig_predict. fold xn. rewrite YM. rewrite (entry_vadd F0 F1 fadd fmul fsub fopp fdiv finv Fth) by (unfold vmul; rewrite zip_with_length, map_length, seq_length; lia). f_equal. rewrite (entry_vmul F0 F1 fadd fmul fsub fopp fdiv finv Fth) by (rewrite map_length, seq_length; lia). rewrite (entry_map F0) by exact Hc.
        rewrite (ZR (fun a b => fmul a (entry b c)) (k_X kr) (k_alpha kr)) by (try apply RX; assumption). reflexivity.
      - unfold InterpModel.krig_linearize. cbv zeta. fold xn. rewrite YS, LT, row_map_seq by exact Hc. rewrite (along_sum F0 fadd fmul d) by (try rewrite map_length, seq_length; auto).
        transitivity (fmul (entry (k_ystd kr) c) (sum (map (fun i => fmul (fopp (sl i)) (fmul (r i) (al i))) (seq 0 n)))); [ring|].
        transitivity (fmul (entry (k_ystd kr) c) (sum (map (fun i => sum (map (fun l => fmul (fopp (fmul (fmul (fadd F1 F1) (entry (k_thetas kr) l)) (fmul (fsub (entry xn l) (entry (row (k_X kr) i) l)) (fdiv (entry dx l) (entry (k_xstd kr) l))))) (fmul (r i) (al i))) (seq 0 d))) (seq 0 n)))).
        { f_equal. apply sum_map_ext. intros i _. unfold sl. transitivity (fmul (fopp (fmul (r i) (al i))) (sum (map (fun l => fmul (fmul (fadd F1 F1) (entry (k_thetas kr) l)) (fmul (fsub (entry xn l) (entry (row (k_X kr) i) l)) (fdiv (entry dx l) (entry (k_xstd kr) l)))) (seq 0 d)))); [ring|]. rewrite <- (sum_map_mul F0 F1 fadd fmul fsub fopp fdiv finv Fth). apply sum_map_ext. intros l _. ring. }
        rewrite (sum_swap F0 F1 fadd fmul fsub fopp fdiv finv Fth), <- (sum_map_mul F0 F1 fadd fmul fsub fopp fdiv finv Fth). apply sum_map_ext. intros l Hl. apply in_seq in Hl. rewrite (entry_map F0) by lia.
        assert (SX := NS l ltac:(lia)).
        assert (ZZ : forall (Xs As : list (list F)), length Xs = n -> length As = n -> sum (zip_with (fun a b => fmul a (entry b c)) (zip_with (fun a X => fmul (fmul a (fopp (fadd F1 F1))) (fmul (entry (k_thetas kr) l) (entry (vsub fsub xn X) l))) (map (corr F0 fadd fmul fsub fopp fexp (k_thetas kr) xn) Xs) Xs) As) =
                     sum (map (fun i => fmul (fmul (fmul (corr F0 fadd fmul fsub fopp fexp (k_thetas kr) xn (row Xs i)) (fopp (fadd F1 F1))) (fmul (entry (k_thetas kr) l) (entry (vsub fsub xn (row Xs i)) l))) (entry (row As i) c)) (seq 0 n))).
        { clear. induction n as [|n0 IH]; intros [|X Xs] [|A As] H1 H2; try discriminate; [reflexivity|]. rewrite seq_S. cbn [map zip_with InterpModel.sum]. rewrite map_map, (IH Xs As) by (cbn in *; lia). reflexivity. }
        rewrite (ZZ (k_X kr) (k_alpha kr)) by (try apply RX; assumption). clear ZZ ZR.
        rewrite <- (sum_map_mul F0 F1 fadd fmul fsub fopp fdiv finv Fth). set (T := fun i => fmul (fmul (fmul (r i) (fopp (fadd F1 F1))) (fmul (entry (k_thetas kr) l) (fsub (entry xn l) (entry (row (k_X kr) i) l)))) (al i)).
        transitivity (sum (map (fun i => fmul (fdiv (fmul (entry (k_ystd kr) c) (entry dx l)) (entry (k_xstd kr) l)) (T i)) (seq 0 n))).
        + apply sum_map_ext. intros i _. unfold T. field. exact SX.
        + rewrite (sum_map_mul F0 F1 fadd fmul fsub fopp fdiv finv Fth).
          match goal with |- _ = fmul (fmul (fmul _ _) ?s) _ => assert (ES : s = sum (map T (seq 0 n))) end.
          { apply sum_map_ext. intros i Hi. apply in_seq in Hi. rewrite (entry_vsub F0 F1 fadd fmul fsub fopp fdiv finv Fth) by (rewrite LXI by lia; exact LNX). reflexivity. }
          rewrite ES. field. exact SX.
    Qed.
  End Krig.
End Proofs.

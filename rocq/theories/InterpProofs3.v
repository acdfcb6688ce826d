(** Lemmas about interpolants: bounds and the gradient of the weighted interpolant. *)
From Coq Require Import Ring Field.
From Verif Require Import Base InterpModel InterpSpec InterpProofs InterpProofs2.
Local Open Scope nat_scope.
Local Open Scope list_scope.

Section Proofs.
  Context {F : Type} (F0 F1 : F) (fadd fmul fsub : F -> F -> F) (fopp : F -> F) (fdiv : F -> F -> F) (finv : F -> F).
  Variable feqb : F -> F -> bool.
  Variable fltb : F -> F -> bool.
  Hypothesis Fth : field_theory F0 F1 fadd fmul fsub fopp fdiv finv (@eq F).
  Add Field Fint3 : Fth.
  Hypothesis EQ : forall a b, feqb a b = true <-> a = b.
  Notation flt := (fun a b => fltb a b = true).
  Notation le := (le flt).
  Notation sum := (sum F0 fadd). Notation pow := (pow F1 fmul). Notation entry := (entry F0).
  Notation normalize := (normalize fsub fdiv).
  Notation nn_base := (nn_base F0 F1 fsub fdiv feqb fltb).
  Notation wf := (wf F0 F1 fmul fdiv feqb). Notation hits := (hits F0 F1 fmul feqb).

  Section Order.
    Hypothesis ORD : ordered F0 fadd fmul flt.
    Lemma le_cases : forall a b, le a b <-> flt a b \/ a = b.
    Proof.
      intros a b. unfold InterpSpec.le. split.
      - intros H. destruct (o_total _ _ _ _ ORD a b) as [K|[K|K]]; [auto|auto|contradiction].
      - intros [H| ->] K; [exact (o_irr _ _ _ _ ORD a (o_trans _ _ _ _ ORD a b a H K))|exact (o_irr _ _ _ _ ORD b K)].
    Qed.
    Lemma lt_sub : forall a b, flt a b <-> flt F0 (fsub b a).
    Proof.
      intros a b. split; intros H.
      - pose proof (o_add _ _ _ _ ORD a b (fopp a) H) as K. replace (fadd a (fopp a)) with F0 in K by ring. replace (fadd b (fopp a)) with (fsub b a) in K by ring. exact K.
      - pose proof (o_add _ _ _ _ ORD F0 (fsub b a) a H) as K. replace (fadd F0 a) with a in K by ring. replace (fadd (fsub b a) a) with b in K by ring. exact K.
    Qed.
    Lemma le_sub : forall a b, le a b <-> le F0 (fsub b a).
    Proof.
      intros a b. rewrite !le_cases. rewrite (lt_sub a b). split; intros [H|H]; auto; right; [subst; ring|]. transitivity (fsub b (fsub b a)); [ring|]. rewrite <- H. ring.
    Qed.
    Lemma nn_add : forall a b, le F0 a -> le F0 b -> le F0 (fadd a b).
    Proof.
      intros a b. rewrite !le_cases. intros [A|A] [B|B].
      - left. apply (o_trans _ _ _ _ ORD F0 a); [exact A|]. pose proof (o_add _ _ _ _ ORD F0 b a B) as K. replace (fadd F0 a) with a in K by ring. replace (fadd b a) with (fadd a b) in K by ring. exact K.
      - left. rewrite <- B. replace (fadd a F0) with a by ring. exact A.
      - left. rewrite <- A. replace (fadd F0 b) with b by ring. exact B.
      - right. rewrite <- A, <- B. ring.
    Qed.
    Lemma pos_add : forall a b, flt F0 a -> le F0 b -> flt F0 (fadd a b).
    Proof.
      intros a b A B. apply le_cases in B. destruct B as [B|B].
      - apply (o_trans _ _ _ _ ORD F0 a); [exact A|]. pose proof (o_add _ _ _ _ ORD F0 b a B) as K. replace (fadd F0 a) with a in K by ring. replace (fadd b a) with (fadd a b) in K by ring. exact K.
      - rewrite <- B. replace (fadd a F0) with a by ring. exact A.
    Qed.
    Lemma nn_mul : forall a b, le F0 a -> le F0 b -> le F0 (fmul a b).
    Proof.
      intros a b. rewrite !le_cases. intros [A|A] [B|B]; [left; apply (o_mul _ _ _ _ ORD); assumption| | |]; right; [rewrite <- B|rewrite <- A|rewrite <- A]; ring.
    Qed.
    Lemma pos_nz : forall a, flt F0 a -> a <> F0. Proof. intros a H ->. exact (o_irr _ _ _ _ ORD F0 H). Qed.
    Lemma one_pos : flt F0 F1.
    Proof.
      destruct (o_total _ _ _ _ ORD F0 F1) as [K|[K|K]]; [exact K|exfalso; exact (F1_neq F0 F1 fadd fmul fsub fopp fdiv finv Fth (eq_sym K))|].
      apply (lt_sub F1 F0) in K. replace F1 with (fmul (fsub F0 F1) (fsub F0 F1)) by ring. apply (o_mul _ _ _ _ ORD); exact K.
    Qed.
    Lemma pos_inv : forall a, flt F0 a -> flt F0 (fdiv F1 a).
    Proof.
      intros a H. destruct (o_total _ _ _ _ ORD F0 (fdiv F1 a)) as [K|[K|K]]; [exact K| |].
      - exfalso. apply (F1_neq F0 F1 fadd fmul fsub fopp fdiv finv Fth). transitivity (fmul a (fdiv F1 a)); [field; apply pos_nz; exact H|]. rewrite <- K. ring.
      - exfalso. apply (lt_sub _ F0) in K. pose proof (o_mul _ _ _ _ ORD _ _ H K) as K'. replace (fmul a (fsub F0 (fdiv F1 a))) with (fsub F0 F1) in K' by (field; apply pos_nz; exact H).
        apply (lt_sub F1 F0) in K'. exact (o_irr _ _ _ _ ORD F0 (o_trans _ _ _ _ ORD _ _ _ one_pos K')).
    Qed.
    Lemma pos_pow : forall a n, flt F0 a -> flt F0 (pow a n).
    Proof. intros a n H. induction n as [|n IH]; cbn; [exact one_pos|]. apply (o_mul _ _ _ _ ORD); assumption. Qed.
    Lemma nn_sum : forall l, (forall x, In x l -> le F0 x) -> le F0 (sum l).
    Proof. induction l as [|x l IH]; intros H; cbn; [apply le_cases; auto|]. apply nn_add; [apply H; left; reflexivity|apply IH; intros y Hy; apply H; right; exact Hy]. Qed.
    Lemma pos_sum : forall l x, (forall y, In y l -> le F0 y) -> In x l -> flt F0 x -> flt F0 (sum l).
    Proof.
      induction l as [|y l IH]; intros x H I P; [destruct I|]. cbn. destruct I as [ ->|I]; [apply pos_add; [exact P|apply nn_sum; intros z Hz; apply H; right; exact Hz]|].
      replace (fadd y (sum l)) with (fadd (sum l) y) by ring. apply pos_add; [apply (IH x); [intros z Hz; apply H; right; exact Hz|exact I|exact P]|apply H; left; reflexivity].
    Qed.
    (** an average lies between bounds of the values *)
    Lemma average : forall A (l : list A) (w v : A -> F) y lo hi, (forall a, In a l -> le F0 (w a) /\ le lo (v a) /\ le (v a) hi) -> flt F0 (sum (map w l)) ->
        fmul y (sum (map w l)) = sum (map (fun a => fmul (w a) (v a)) l) -> le lo y /\ le y hi.
    Proof.
      intros A l w v y lo hi H P E. assert (C : forall a, flt F0 (sum (map w l)) -> le F0 (fmul a (sum (map w l))) -> le F0 a).
      { intros a PS K. apply le_cases in K. replace a with (fmul (fmul a (sum (map w l))) (fdiv F1 (sum (map w l)))) by (field; apply pos_nz; exact PS). apply nn_mul; [apply le_cases; exact K|apply le_cases; left; apply pos_inv; exact PS]. }
      split; apply le_sub; apply C; try exact P.
      - replace (fmul (fsub y lo) (sum (map w l))) with (fadd (fmul y (sum (map w l))) (fmul (fopp lo) (sum (map w l)))) by ring. rewrite E, <- (sum_map_mul F0 F1 fadd fmul fsub fopp fdiv finv Fth), <- (sum_map_add F0 F1 fadd fmul fsub fopp fdiv finv Fth).
        apply nn_sum. intros x Hx. apply in_map_iff in Hx. destruct Hx as (a & <- & Ha). destruct (H a Ha) as (W & L & _). apply le_sub in L. replace (fadd (fmul (w a) (v a)) (fmul (fopp lo) (w a))) with (fmul (w a) (fsub (v a) lo)) by ring. apply nn_mul; assumption.
      - replace (fmul (fsub hi y) (sum (map w l))) with (fadd (fmul hi (sum (map w l))) (fmul (fopp F1) (fmul y (sum (map w l))))) by ring. rewrite E, <- !(sum_map_mul F0 F1 fadd fmul fsub fopp fdiv finv Fth), <- (sum_map_add F0 F1 fadd fmul fsub fopp fdiv finv Fth).
        apply nn_sum. intros x Hx. apply in_map_iff in Hx. destruct Hx as (a & <- & Ha). destruct (H a Ha) as (W & _ & L). apply le_sub in L. replace (fadd (fmul hi (w a)) (fmul (fopp F1) (fmul (w a) (v a)))) with (fmul (w a) (fsub hi (v a))) by ring. apply nn_mul; assumption.
    Qed.
    (** the weights are not negative and one is positive *)
    Lemma weights_nn : forall p nb, p <> 0 -> (forall e : F * nat, In e nb -> le F0 (fst e)) -> forall e, In e nb -> le F0 (wf p (hits p nb) (fst e)).
    Proof.
      intros p nb P H e He. unfold InterpProofs2.wf. destruct (hits p nb) eqn:HT.
      - destruct (feqb (pow (fst e) p) F0); apply le_cases; [left; exact one_pos|right; reflexivity].
      - apply le_cases. left. apply pos_inv. apply pos_pow. specialize (H e He). apply le_cases in H. destruct H as [H|H]; [exact H|]. exfalso.
        assert (K : hits p nb = true) by (apply existsb_exists; exists e; split; [exact He|]; rewrite <- H, (pow_zero F0 F1 fadd fmul fsub fopp fdiv finv Fth p P); apply EQ; reflexivity). congruence.
    Qed.
    Lemma weights_pos : forall p nb, p <> 0 -> nb <> [] -> (forall e : F * nat, In e nb -> le F0 (fst e)) -> flt F0 (sum (map (fun e => wf p (hits p nb) (fst e)) nb)).
    Proof.
      intros p nb P N H. destruct (hits p nb) eqn:HT.
      - pose proof HT as K. apply existsb_exists in K. destruct K as (e & He & K). apply pos_sum with (x := F1); [|apply in_map_iff; exists e; split; [unfold InterpProofs2.wf; rewrite K; reflexivity|exact He]|exact one_pos].
        intros y Hy. apply in_map_iff in Hy. destruct Hy as (e' & <- & He'). pose proof (weights_nn p nb P H e' He') as K2; rewrite HT in K2; exact K2.
      - destruct nb as [|e nb']; [congruence|]. set (nb := e :: nb') in *. assert (He : In e nb) by (left; reflexivity). apply pos_sum with (x := wf p (hits p nb) (fst e)).
        + intros y Hy. apply in_map_iff in Hy. destruct Hy as (e' & <- & He'). pose proof (weights_nn p nb P H e' He') as K2; rewrite HT in K2; exact K2.
        + apply in_map_iff. exists e. rewrite HT. auto.
        + unfold InterpProofs2.wf. rewrite HT. apply pos_inv. apply pos_pow. specialize (H e He). apply le_cases in H. destruct H as [H|H]; [exact H|]. exfalso.
          assert (K : hits p nb = true) by (apply existsb_exists; exists e; split; [exact He|]; rewrite <- H, (pow_zero F0 F1 fadd fmul fsub fopp fdiv finv Fth p P); apply EQ; reflexivity). congruence.
    Qed.
  End Order.
End Proofs.

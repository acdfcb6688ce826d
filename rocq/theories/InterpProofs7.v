(** Lemmas about interpolants: the tables of kernels. *)
From Verif Require Import Base InterpModel InterpSpec.
Local Open Scope Q_scope.
Local Open Scope list_scope.

Fixpoint padd (a b : list Q) : list Q := match a, b with [], _ => b | _, [] => a | x :: a', y :: b' => (x + y) :: padd a' b' end.
Definition pscale (c : Q) (a : list Q) : list Q := map (Qmult c) a.
Fixpoint pmul (a b : list Q) : list Q := match a with [] => [] | x :: a' => padd (pscale x b) (0 :: pmul a' b) end.
Fixpoint ppow (a : list Q) (n : nat) : list Q := match n with O => [1] | S k => pmul a (ppow a k) end.
Lemma peval_add : forall t a b, peval (padd a b) t == peval a t + peval b t.
Proof. intros t. induction a as [|x a IH]; intros [|y b]; cbn; try ring. rewrite IH. ring. Qed.
Lemma peval_scale : forall t c a, peval (pscale c a) t == c * peval a t.
Proof. intros t c. induction a as [|x a IH]; cbn; [ring|]. unfold pscale in IH. rewrite IH. ring. Qed.
Lemma peval_mul : forall t a b, peval (pmul a b) t == peval a t * peval b t.
Proof. intros t. induction a as [|x a IH]; intros b; cbn [pmul peval]; [ring|]. rewrite peval_add, peval_scale. cbn [peval]. rewrite IH. ring. Qed.
Lemma peval_pow : forall t a n, peval (ppow a n) t == qpow (peval a t) n.
Proof. intros t a. induction n as [|n IH]; cbn [ppow qpow]; [cbn; ring|]. rewrite peval_mul, IH. reflexivity. Qed.
Lemma qpow_compat : forall n a b, a == b -> qpow a n == qpow b n.
Proof. induction n as [|n IH]; intros a b H; cbn; [reflexivity|]. rewrite (IH a b H), H. reflexivity. Qed.
Lemma polyval_peval : forall t p, polyval p t == peval (map inject_Z (rev p)) t.
Proof.
  intros t p. unfold polyval. assert (APP : forall a c, peval (a ++ [c]) t == peval a t + c * qpow t (length a)) by (induction a as [|x a IH]; intros c; cbn; [ring|rewrite IH; ring]).
  assert (G : forall q acc, fold_left (fun acc c => acc * t + inject_Z c) q acc == acc * qpow t (length q) + peval (map inject_Z (rev q)) t).
  { induction q as [|c q IH]; intros acc; cbn [fold_left length rev map qpow]; [cbn; ring|]. rewrite IH, map_app, (APP _ (inject_Z c)), map_length, rev_length. ring. }
  rewrite G. ring.
Qed.
Definition expand (s : nat * Z * list Z) : list Q := let '(e, den, p) := s in pmul (pscale (/ inject_Z den) (ppow [1; -(1)] e)) (map inject_Z (rev p)).
Lemma shape_expand : forall s t, shape s t == peval (expand s) t.
Proof.
  intros [[e den] p] t. cbn [shape expand]. rewrite peval_mul, peval_scale, peval_pow, polyval_peval. unfold Qdiv. rewrite (qpow_compat e (1 - t) (peval [1; -(1)] t)) by (cbn; ring). ring.
Qed.
Fixpoint peq (a b : list Q) : bool := match a, b with
  | [], _ => forallb (fun x => Qeq_bool x 0) b
  | _, [] => forallb (fun x => Qeq_bool x 0) a
  | x :: a', y :: b' => Qeq_bool x y && peq a' b' end.
Lemma pzero : forall t a, forallb (fun x => Qeq_bool x 0) a = true -> peval a t == 0.
Proof. intros t. induction a as [|x a IH]; cbn; intros H; [reflexivity|]. apply andb_true_iff in H. destruct H as [H1 H2]. apply Qeq_bool_iff in H1. rewrite H1, IH by exact H2. ring. Qed.
Lemma peq_eval : forall t a b, peq a b = true -> peval a t == peval b t.
Proof.
  intros t. induction a as [|x a IH]; intros b H; [cbn in H; rewrite (pzero t b H); reflexivity|]. destruct b as [|y b]; [change (forallb (fun z => Qeq_bool z 0) (x :: a) = true) in H; rewrite (pzero t _ H); reflexivity|]. cbn in *. apply andb_true_iff in H. destruct H as [H1 H2]. apply Qeq_bool_iff in H1. rewrite H1, (IH b H2). reflexivity.
Qed.
Lemma table_derivative : forall s s', peq (expand s') (pderiv (expand s)) = true -> poly_derivative (shape s) (shape s').
Proof. intros s s' H. exists (expand s). split; intros t; rewrite shape_expand; [reflexivity|]. apply peq_eval. exact H. Qed.
Lemma shape_one : forall e den p, e <> O -> shape (e, den, p) 1 == 0.
Proof. intros [|e] den p H; [congruence|]. cbn [shape qpow]. unfold Qdiv. ring. Qed.

(** the entries of the tables *)
Lemma tables_none : forall dims comp, (forall c, In c [-1; -2; 0; 1; 2; 3; 4]%Z -> comp <> c) -> kernel_table dims comp = None /\ dkernel_table dims comp = None.
Proof.
  intros dims comp H. assert (K : comp <> (-1)%Z /\ comp <> (-2)%Z /\ comp <> 0%Z /\ comp <> 1%Z /\ comp <> 2%Z /\ comp <> 3%Z /\ comp <> 4%Z) by (repeat split; apply H; cbn; tauto). clear H. destruct K as (A & B & C & D & E & G & I).
  destruct comp as [|p|p]; [congruence| |].
  - destruct p as [p|p|]; [destruct p as [p|p|]| |]; try congruence; try (split; reflexivity); destruct p as [p|p|]; try congruence; try (split; reflexivity). destruct p; try congruence; split; reflexivity.
  - destruct p as [p|p|]; [split; reflexivity| |congruence]. destruct p; try congruence; split; reflexivity.
Qed.
Lemma tables_some : forall dims comp, In comp [-1; -2; 0; 1; 2; 3; 4]%Z -> ~ ((dims <= 2)%nat /\ comp = 1%Z) ->
  exists s s', kernel_table dims comp = Some s /\ dkernel_table dims comp = Some s' /\ peq (expand s') (pderiv (expand s)) = true /\ Qeq_bool (peval (expand s) 1) 0 = true.
Proof.
  intros dims comp H N. cbn in H. destruct (dims <=? 2)%nat eqn:D2; [assert (N' : comp <> 1%Z) by (intros K; apply N; split; [apply Nat.leb_le; exact D2|exact K]); clear N|clear N; destruct (dims <=? 4)%nat eqn:D4; [|destruct (dims <=? 6)%nat eqn:D6]];
    repeat (destruct H as [<-|H]; [first [exfalso; apply N'; reflexivity|cbn [kernel_table dkernel_table]; rewrite ?D2, ?D4, ?D6; do 2 eexists; split; [reflexivity|split; [reflexivity|split; vm_compute; reflexivity]]]|]); destruct H.
Qed.
Lemma peval_scale_opp : forall t a, peval (pscale (-(1)) a) t == - peval a t.
Proof. intros t a. rewrite peval_scale. ring. Qed.

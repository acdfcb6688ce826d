(** C51: the gradient of the response surface. *)
From Verif Require Import Base RsmModel RsmSpec RsmProofs.
From Coq Require Import Ring_theory.
Local Open Scope nat_scope.
Local Open Scope list_scope.

(** For every number of inputs and outputs, all coefficients and all points: entry [c] of
    the prediction is the second-order polynomial with the coefficients of column [c],
    and row [c] of the Jacobian is its derivative. *)
Theorem rsm_gradient : forall (F : Type) (F0 F1 : F) fadd fmul fsub fopp, ring_theory F0 F1 fadd fmul fsub fopp (@eq F) ->
    forall s x c, length x = rs_n s -> (forall r, In r (rs_betas s) -> length r = rs_k s) -> length (rs_betas s) = length (terms F0 F1 fmul x) -> c < rs_k s ->
    let beta := map (fun r => nth c r F0) (rs_betas s) in
    let f := fun y => inner F0 fadd fmul (terms F0 F1 fmul y) beta in
    (forall y, length y = rs_n s -> exists v, predict F0 F1 fadd fmul s y = Ok v /\ length v = rs_k s /\ nth c v F0 = f y) /\
    length (linearize F0 fadd fmul s x) = rs_k s /\
    derivative_at F0 fadd fmul f x (nth c (linearize F0 fadd fmul s x) []).
Proof. intros F F0 F1 fadd fmul fsub fopp RT s x c L W LB Lc. exact (surface_derivative F0 F1 fadd fmul fsub fopp RT s x c L W LB Lc). Qed.
Print Assumptions rsm_gradient.

(** Training uses the same terms as prediction: when the least squares solution fits the
    training data, the surface reproduces them. *)
Theorem rsm_interpolates : forall (F : Type) (F0 F1 : F) fadd fmul fsub fopp, ring_theory F0 F1 fadd fmul fsub fopp (@eq F) ->
    forall lstsq n k x y, (forall p, In p x -> length p = n) -> (forall q, In q y -> length q = k) ->
    let betas := lstsq (map (terms F0 F1 fmul) x) y in
    (forall r, In r betas -> length r = k) -> length betas = ((n + 1) * (n + 2)) / 2 ->
    (forall r p q c, nth_error x r = Some p -> nth_error y r = Some q -> c < k -> inner F0 fadd fmul (terms F0 F1 fmul p) (map (fun b => nth c b F0) betas) = nth c q F0) ->
    exists s, train F0 F1 fmul lstsq n k x y = Ok s /\
      forall r p q, nth_error x r = Some p -> nth_error y r = Some q -> predict F0 F1 fadd fmul s p = Ok q.
Proof.
  intros F F0 F1 fadd fmul fsub fopp RT lstsq n k x y Hx Hy betas W L FIT. exists (mkRs n betas k). split.
  - unfold train. rewrite (rows_ok F0 F1 fmul n x Hx). reflexivity.
  - intros r p q Ep Eq. assert (Lp : length p = n) by (apply Hx; apply (nth_error_In _ _ Ep)). assert (Lq : length q = k) by (apply Hy; apply (nth_error_In _ _ Eq)).
    unfold predict. cbn [rs_n rs_betas rs_k]. rewrite (row_ok F0 F1 fmul n p Lp). cbn [bind].
    replace (length (F1 :: p ++ quad fmul p) =? length betas) with true by (symmetry; apply Nat.eqb_eq; rewrite L, tri_total; cbn [length]; rewrite app_length, quad_length, Lp; lia).
    f_equal. apply (nth_ext _ _ F0 F0); [rewrite vdot_length by exact W; symmetry; exact Lq|]. intros c Lc. rewrite vdot_length in Lc by exact W. rewrite (vdot_col F0 F1 fadd fmul fsub fopp RT k c _ betas W), <- (terms_quad F0 F1). apply (FIT r); assumption.
Qed.
Print Assumptions rsm_interpolates.

(** 1 + 2x + 3y + 4x^2 + 5xy + 6y^2 and x*y at (7, 10) *)
Example ex_rsm : let s := mkRs 2 [[1;0];[2;0];[3;0];[4;0];[5;1];[6;0]]%Z 2 in
    predict 0%Z 1%Z Z.add Z.mul s [7; 10]%Z = Ok [1191; 70]%Z /\ linearize 0%Z Z.add Z.mul s [7; 10]%Z = [[108; 158]; [10; 7]]%Z.
Proof. split; reflexivity. Qed.
Example ex_rsm_gradient : let s := mkRs 2 [[1;0];[2;0];[3;0];[4;0];[5;1];[6;0]]%Z 2 in
    derivative_at 0%Z Z.add Z.mul (fun y => inner 0%Z Z.add Z.mul (terms 0%Z 1%Z Z.mul y) [1;2;3;4;5;6]%Z) [7; 10]%Z [108; 158]%Z.
Proof.
  intros s. refine (proj2 (proj2 (rsm_gradient Z 0%Z 1%Z Z.add Z.mul Z.sub Z.opp InitialRing.Zth s [7;10]%Z 0 eq_refl _ eq_refl (Nat.lt_0_succ 1)))). intros r I. cbn in I. repeat (destruct I as [<- |I]; [reflexivity|]). destruct I.
Qed.
Example ex_train : exists s, train 0%Z 1%Z Z.mul (fun _ _ => [[1]; [2]; [3]]%Z) 1 1 [[0]; [1]; [2]]%Z [[1]; [6]; [17]]%Z = Ok s /\ predict 0%Z 1%Z Z.add Z.mul s [2]%Z = Ok [17]%Z.
Proof.
  destruct (rsm_interpolates Z 0%Z 1%Z Z.add Z.mul Z.sub Z.opp InitialRing.Zth (fun _ _ => [[1]; [2]; [3]]%Z) 1 1 [[0]; [1]; [2]]%Z [[1]; [6]; [17]]%Z) as (s & T & P).
  - intros p I. cbn in I. repeat (destruct I as [<- |I]; [reflexivity|]). destruct I.
  - intros p I. cbn in I. repeat (destruct I as [<- |I]; [reflexivity|]). destruct I.
  - intros p I. cbn in I. repeat (destruct I as [<- |I]; [reflexivity|]). destruct I.
  - reflexivity.
  - intros [|[|[|r]]] p q [|c] E1 E2 L; cbn in *; try discriminate; try lia; try (injection E1 as <-; injection E2 as <-; reflexivity). destruct r; discriminate.
  - exists s. split; [exact T|]. apply (P 2 [2]%Z [17]%Z); reflexivity.
Qed.

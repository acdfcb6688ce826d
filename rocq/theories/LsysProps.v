(** C53: the linear system component applies the derivative of its residual and the
    transpose of it. *)
From Verif Require Import Base RsmModel LsysModel LsysSpec LsysProofs.
From Coq Require Import Ring.
Local Open Scope string_scope.
Local Open Scope nat_scope.
Local Open Scope list_scope.

Section Main.
  Context {F : Type} (F0 F1 : F) (fadd fmul fsub : F -> F -> F) (fopp : F -> F).
  Hypothesis RT : ring_theory F0 F1 fadd fmul fsub fopp (@eq F).
  Add Ring Pring : RT.
  Notation "a +! b" := (fadd a b) (at level 50, left associativity).
  Notation at1 := (@at1 F F0).
  Notation at2 := (@at2 F F0).
  Notation opt1 := (@opt1 F F0).
  Notation opt2 := (@opt2 F F0).
  Notation run := (@apply_linear F F0 fadd fmul fsub).
  Definition present {A} (o : option A) : bool := match o with Some _ => true | None => false end.
  (** the shapes of the derivative vectors *)
  Definition shaped (n : nat) (d : @dvecs F) : Prop :=
    length (d_r d) = n /\ (forall v, d_x d = Some v -> length v = n) /\ (forall M, d_A d = Some M -> square n M) /\ (forall v, d_b d = Some v -> length v = n).

  (** apply_nonlinear computes the residual *)
  Lemma residual_ok : forall n A b x, square n A -> length b = n -> length x = n ->
      length (apply_nonlinear F0 fadd fmul fsub A b x) = n /\ forall i, i < n -> at1 (apply_nonlinear F0 fadd fmul fsub A b x) i = residual F0 fadd fmul fsub n (at2 A) (at1 b) (at1 x) i.
  Proof.
    intros n A b x SA Lb Lx. assert (LA := proj1 SA). unfold apply_nonlinear. split; [rewrite subv_len; rewrite mdot_len; lia|]. intros i Hi. rewrite (at1_sub F0 F1 fadd fmul fsub fopp RT) by (rewrite mdot_len; lia). rewrite (mdot_at F0 F1 fadd fmul fsub fopp RT n) by assumption. reflexivity.
  Qed.

  (** Forward mode: the residual vector gets the derivative of the residual in the
      direction of the derivative vectors added; nothing else changes. *)
  Theorem lsys_fwd : forall n A b x d, square n A -> length b = n -> length x = n -> shaped n d ->
      exists L, is_derivative F0 fadd fmul fsub n (at2 A) (at1 b) (at1 x) (opt2 (d_A d)) (opt1 (d_b d)) (opt1 (d_x d)) L /\
        let d' := run n "fwd" A x d in
        d_x d' = d_x d /\ d_A d' = d_A d /\ d_b d' = d_b d /\ length (d_r d') = n /\ forall i, i < n -> at1 (d_r d') i = at1 (d_r d) i +! L i.
  Proof.
    intros n A b x d SA Lb Lx (Lr & Hx & HA & Hb). exists (lin F0 fadd fmul fsub n (at2 A) (at1 x) (opt2 (d_A d)) (opt1 (d_b d)) (opt1 (d_x d))). split; [apply (lin_derivative F0 F1 fadd fmul fsub fopp RT); reflexivity|].
    unfold apply_linear. rewrite String.eqb_refl. cbn [d_x d_A d_b d_r]. split; [reflexivity|]. split; [reflexivity|]. split; [reflexivity|]. destruct d as [dx dA db r]. cbn [d_x d_A d_b d_r] in *. unfold lin.
    set (r1 := when dx r _). assert (R1 : length r1 = n /\ forall i, i < n -> at1 r1 i = at1 r i +! LsysSpec.sum F0 fadd n (fun j => fmul (at2 A i j) (opt1 dx j))).
    { unfold r1. destruct dx as [dx|]; cbn [when LsysSpec.opt1].
      - assert (Ldx := Hx dx eq_refl). assert (E : length r = length (mdot F0 fadd fmul A dx)) by (rewrite mdot_len; destruct SA; lia). split; [rewrite addv_len; lia|]. intros i Hi. rewrite (at1_add F0 F1 fadd fmul fsub fopp RT) by exact E. rewrite (mdot_at F0 F1 fadd fmul fsub fopp RT n) by assumption. reflexivity.
      - split; [exact Lr|]. intros i Hi. rewrite (sum_ext F0 fadd n _ (fun _ => F0)) by (intros; ring). rewrite (sum_zero F0 F1 fadd fmul fsub fopp RT). ring. }
    clearbody r1. destruct R1 as (L1 & E1). set (r2 := when dA r1 _). assert (R2 : length r2 = n /\ forall i, i < n -> at1 r2 i = at1 r1 i +! LsysSpec.sum F0 fadd n (fun j => fmul (opt2 dA i j) (at1 x j))).
    { unfold r2. destruct dA as [dA|]; cbn [when LsysSpec.opt2].
      - assert (SdA := HA dA eq_refl). assert (E : length r1 = length (mdot F0 fadd fmul dA x)) by (rewrite mdot_len; destruct SdA; lia). split; [rewrite addv_len; lia|]. intros i Hi. rewrite (at1_add F0 F1 fadd fmul fsub fopp RT) by exact E. rewrite (mdot_at F0 F1 fadd fmul fsub fopp RT n) by assumption. reflexivity.
      - split; [exact L1|]. intros i Hi. rewrite (sum_ext F0 fadd n _ (fun _ => F0)) by (intros; ring). rewrite (sum_zero F0 F1 fadd fmul fsub fopp RT). ring. }
    clearbody r2. destruct R2 as (L2 & E2). destruct db as [db|]; cbn [when LsysSpec.opt1].
    - assert (Ldb := Hb db eq_refl). split; [rewrite subv_len; lia|]. intros i Hi. rewrite (at1_sub F0 F1 fadd fmul fsub fopp RT) by lia. rewrite E2, E1 by exact Hi. ring.
    - split; [exact L2|]. intros i Hi. rewrite E2, E1 by exact Hi. ring.
  Qed.

  (** Reverse mode: the derivative vectors get the transpose of the derivative, applied to
      the residual vector, added; nothing else changes.  (In a ring where a + a = 0 only
      for a = 0, so that a derivative is unique.) *)
  Theorem lsys_rev : (forall a, a +! a = F0 -> a = F0) -> forall n A b x d, square n A -> length b = n -> length x = n -> shaped n d ->
      exists gA gb gx, is_transpose F0 fadd fmul fsub n (present (d_A d)) (present (d_b d)) (present (d_x d)) (at2 A) (at1 b) (at1 x) (at1 (d_r d)) gA gb gx /\
        let d' := run n "rev" A x d in
        d_r d' = d_r d /\ shaped n d' /\ present (d_A d') = present (d_A d) /\ present (d_b d') = present (d_b d) /\ present (d_x d') = present (d_x d) /\
        forall i, i < n -> (forall j, j < n -> present (d_A d) = true -> opt2 (d_A d') i j = opt2 (d_A d) i j +! gA i j) /\
          (present (d_b d) = true -> opt1 (d_b d') i = opt1 (d_b d) i +! gb i) /\ (present (d_x d) = true -> opt1 (d_x d') i = opt1 (d_x d) i +! gx i).
  Proof.
    intros two n A b x d SA Lb Lx (Lr & Hx & HA & Hb). exists (fun i j => fmul (at1 (d_r d) i) (at1 x j)), (fun i => fopp (at1 (d_r d) i)), (fun i => LsysSpec.sum F0 fadd n (fun j => fmul (at2 A j i) (at1 (d_r d) j))).
    split; [apply (lin_transpose F0 F1 fadd fmul fsub fopp RT two); reflexivity|].
    unfold apply_linear. change (String.eqb "rev" "fwd") with false. rewrite String.eqb_refl. destruct d as [dx dA db r]. cbn [d_x d_A d_b d_r present] in *.
    assert (ST := transpose_square F0 n A SA). assert (LT : length (transpose n A) = n) by apply ST. assert (SO := outer_square fmul n x r Lx Lr). assert (SOT := transpose_square F0 n _ SO).
    split; [reflexivity|]. split; [|split; [destruct dA; reflexivity|split; [destruct db; reflexivity|split; [destruct dx; reflexivity|]]]].
    - unfold shaped. cbn [d_x d_A d_b d_r]. split; [exact Lr|]. split; [|split].
      + intros v. destruct dx as [dx|]; [|discriminate]. intros E. injection E as <-. assert (L := Hx dx eq_refl). rewrite addv_len; rewrite ?mdot_len; lia.
      + intros M. destruct dA as [dA|]; [|discriminate]. intros E. injection E as <-. apply addm_square; [apply HA; reflexivity|exact SOT].
      + intros v. destruct db as [db|]; [|discriminate]. intros E. injection E as <-. assert (L := Hb db eq_refl). rewrite subv_len; lia.
    - intros i Hi. split; [|split].
      + intros j Hj P. destruct dA as [dA|]; [|discriminate]. cbn [option_map LsysSpec.opt2]. rewrite (at2_add F0 F1 fadd fmul fsub fopp RT n) by first [exact SOT | apply HA; reflexivity]. f_equal. rewrite (transpose_at F0 n) by (apply SO || exact Hi). rewrite (outer_at F0 fmul n) by assumption. ring.
      + intros P. destruct db as [db|]; [|discriminate]. cbn [option_map LsysSpec.opt1]. assert (L := Hb db eq_refl). rewrite (at1_sub F0 F1 fadd fmul fsub fopp RT) by lia. ring.
      + intros P. destruct dx as [dx|]; [|discriminate]. cbn [option_map LsysSpec.opt1]. assert (L := Hx dx eq_refl). rewrite (at1_add F0 F1 fadd fmul fsub fopp RT) by (rewrite mdot_len; lia). f_equal. rewrite (mdot_at F0 F1 fadd fmul fsub fopp RT n) by assumption. apply sum_ext. intros j Hj. rewrite (transpose_at F0 n) by (apply SA || exact Hi). reflexivity.
  Qed.

  (** solve_linear after solve_nonlinear, with a solver that solves: A z = rhs in fwd mode,
      and with the transpose of A in rev mode, for the matrix of that solve_nonlinear; and
      solve_nonlinear leaves a zero residual. *)
  Theorem lsys_solve : forall n (lu_solve : list (list F) -> list F -> bool -> list F),
      (forall A rhs (t : bool), square n A -> length rhs = n -> length (lu_solve A rhs t) = n /\ forall i, i < n -> LsysSpec.sum F0 fadd n (fun j => fmul (if t then at2 A j i else at2 A i j) (at1 (lu_solve A rhs t) j)) = at1 rhs i) ->
      forall c A b rhs, square n A -> length b = n -> length rhs = n ->
      let '(c', x, r) := solve_nonlinear F0 fadd fmul fsub lu_solve c A b in
      (forall i, i < n -> residual F0 fadd fmul fsub n (at2 A) (at1 b) (at1 x) i = F0 /\ at1 r i = F0) /\
      (exists z, solve_linear lu_solve c' "fwd" rhs = Ok z /\ length z = n /\ forall i, i < n -> LsysSpec.sum F0 fadd n (fun j => fmul (at2 A i j) (at1 z j)) = at1 rhs i) /\
      (exists z, solve_linear lu_solve c' "rev" rhs = Ok z /\ length z = n /\ forall i, i < n -> LsysSpec.sum F0 fadd n (fun j => fmul (at2 A j i) (at1 z j)) = at1 rhs i).
  Proof.
    intros n lu H c A b rhs SA Lb Lr. unfold solve_nonlinear, solve_linear. cbn [c_lup]. destruct (H A b false SA Lb) as (Lx & Hx). split; [|split].
    - intros i Hi. destruct (residual_ok n A b (lu A b false) SA Lb Lx) as (_ & R). unfold apply_nonlinear in R. rewrite (R i Hi). unfold residual. rewrite (Hx i Hi). split; ring.
    - exists (lu A rhs false). split; [reflexivity|]. apply (H A rhs false SA Lr).
    - exists (lu A rhs true). split; [reflexivity|]. apply (H A rhs true SA Lr).
  Qed.
End Main.
Print Assumptions lsys_fwd.
Print Assumptions lsys_rev.
Print Assumptions lsys_solve.

(** The factorization is that of the last solve_nonlinear: when A changes after it,
    solve_linear does not solve the system that apply_linear applies. *)
Local Open Scope Z_scope.
Definition lu1 (A : list (list Z)) (rhs : list Z) (t : bool) : list Z := match A, rhs with [[a]], [r] => [r / a] | _, _ => [] end.
Theorem lsys_stale_refuted : exists (c : @comp Z) A b A' rhs,
    let '(c', x, r) := solve_nonlinear 0 Z.add Z.mul Z.sub lu1 c A b in
    exists z, solve_linear lu1 c' "fwd" rhs = Ok z /\ mdot 0 Z.add Z.mul A z = rhs /\ mdot 0 Z.add Z.mul A' z <> rhs /\ mdot 0 Z.add Z.mul A' (lu1 A' rhs false) = rhs.
Proof. exists (mkComp 1 None), [[1]], [1], [[2]], [4]. cbn. exists [4]. repeat split; try reflexivity. discriminate. Qed.
Print Assumptions lsys_stale_refuted.

(** two equations; the derivative vectors of A, b and x *)
Example lsys_two :
    let A := [[2; 1]; [0; 3]] in let x := [5; 7] in let d := mkDv (Some [1; 2]) (Some [[1; 0]; [4; 1]]) None [10; 20] in
    apply_linear 0 Z.add Z.mul Z.sub 2 "fwd" A x d = mkDv (Some [1; 2]) (Some [[1; 0]; [4; 1]]) None [10 + 4 + 5; 20 + 6 + 27] /\
    apply_linear 0 Z.add Z.mul Z.sub 2 "rev" A x d = mkDv (Some [1 + 20; 2 + 70]) (Some [[1 + 50; 0 + 70]; [4 + 100; 1 + 140]]) None [10; 20] /\
    (forall a, a + a = 0 -> a = 0) /\ shaped 2 d /\ square 2 A.
Proof.
  cbn zeta. split; [reflexivity|]. split; [reflexivity|]. split; [intros; lia|]. unfold shaped, square. cbn. intuition (try discriminate); try (injection H as <-; reflexivity); try (injection H as <-; cbn in *; intuition subst; reflexivity); subst; reflexivity.
Qed.

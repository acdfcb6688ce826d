(** C48: the constraint functions given to SciPy. *)
From Verif Require Import Base BaseFacts DriverModel DriverSpec DriverProofs ScipyModel ScipySpec ScipyProofs.
From Coq Require Import Lqa.
Local Open Scope string_scope.
Local Open Scope Q_scope.
Local Open Scope list_scope.

(** With an optimizer that takes constraints, the constraint functions are all
    non-negative, and zero for equalities, exactly when every entry of every constraint
    is within its (scaled) bounds, for the values of the last evaluation. *)
Theorem scipy_constraints_partial : forall opt cons value, opt_in opt constraint_optimizers = true -> good_cons cons -> sized cons value ->
    (feasible (constraints_of opt cons) (confunc cons (cache_of cons value)) <-> all_ok cons value).
Proof. intros opt cons value O G S. apply feasible_iff; assumption. Qed.
Print Assumptions scipy_constraints_partial.

(** In terms of the arguments of add_constraint and the values [x] of the model: if
    scalers are positive, the functions are non-negative exactly when the model satisfies
    the constraints as declared. *)
Definition raw_ok (a : con_args) (j : nat) (x : Q) : Prop :=
  (forall b, c_equals a = Some b -> x == entry b j) /\ (forall b, c_lower a = Some b -> entry b j <= x) /\ (forall b, c_upper a = Some b -> x <= entry b j).
Definition positive (s : num) (n : nat) : Prop := forall j, (j < n)%nat -> 0 < entry s j.
(** the call [a] of add_constraint has left the metadata [k] behind *)
Definition declared (a : con_args) (k : con) (size : nat) : Prop :=
  (exists s cs cs', add_constraint s cs a = Ok cs' /\ dget String.eqb cs' (c_name a) = Some k) /\
  fits (c_adder a) size /\ fits (c_scaler a) size /\
  (forall b, c_lower a = Some b -> fits b size) /\ (forall b, c_upper a = Some b -> fits b size) /\ (forall b, c_equals a = Some b -> fits b size).
Lemma scale_opt_inv : forall b a s n r, (forall x, b = Some x -> fits x n) -> fits a n -> fits s n -> scale_opt b a s = Ok r ->
    (b = None /\ r = None) \/ exists x y, b = Some x /\ r = Some y /\ fits y n /\ forall k, (k < n)%nat -> entry y k == (entry x k + entry a k) * entry s k.
Proof.
  intros [x|] a s n r H Fa Fs E; [|left; cbn in E; injection E as <-; auto]. right. destruct (scale_num_ok x a s n (H x eq_refl) Fa Fs) as (y & Ey & Fy & Vy). cbn [scale_opt] in E. rewrite Ey in E. injection E as <-. exists x, y. auto.
Qed.
Lemma declared_inv : forall a k size, declared a k size ->
    good_con k size /\
    (forall j x, (j < size)%nat -> 0 < entry (c_scaler a) j -> (entry_ok k j ((x + entry (c_adder a) j) * entry (c_scaler a) j) <-> raw_ok a j x)).
Proof.
  intros a k size ((s & cs & cs' & A & D) & Fa & Fs & Fl & Fu & Fe). unfold add_constraint in A.
  destruct (smem cs (c_name a)); [discriminate|]. destruct (is_some (c_equals a) && (is_some (c_lower a) || is_some (c_upper a))) eqn:C1; [discriminate|]. destruct (is_some (c_equals a) && negb (s_eq s)); [discriminate|]. destruct (negb (is_some (c_equals a)) && negb (s_ineq s)); [discriminate|]. destruct (is_some (c_lower a) && is_some (c_upper a) && negb (s_two s)); [discriminate|].
  destruct (negb (is_some (c_lower a)) && negb (is_some (c_upper a)) && negb (is_some (c_equals a))) eqn:C2; [discriminate|].
  destruct (scale_opt (c_lower a) (c_adder a) (c_scaler a)) as [lo|] eqn:L; [|discriminate]. destruct (scale_opt (c_upper a) (c_adder a) (c_scaler a)) as [up|] eqn:U; [|discriminate]. destruct (scale_opt (c_equals a) (c_adder a) (c_scaler a)) as [eq|] eqn:E; [|discriminate].
  cbn [bind] in A. injection A as <-. unfold sset in D. rewrite dget_dset_eq in D by (intros; apply String.eqb_eq). injection D as <-.
  assert (IL := scale_opt_inv _ _ _ size _ Fl Fa Fs L). assert (IU := scale_opt_inv _ _ _ size _ Fu Fa Fs U). assert (IE := scale_opt_inv _ _ _ size _ Fe Fa Fs E).
  split.
  - unfold good_con. cbn [k_equals k_lower k_upper].
    destruct IL as [[Nl ->]|(xl & yl & El & -> & FFl & _)], IU as [[Nu ->]|(xu & yu & Eu & -> & FFu & _)], IE as [[Ne ->]|(xe & ye & Ee & -> & FFe & _)];
      repeat match goal with H : c_lower a = _ |- _ => rewrite H in *; clear H | H : c_upper a = _ |- _ => rewrite H in *; clear H | H : c_equals a = _ |- _ => rewrite H in *; clear H end; cbn in C1, C2; try discriminate;
      (split; [intros X; split; congruence|]); (split; [first [left; discriminate|right; left; discriminate|right; right; discriminate]|]); (split; [|split]); intros b Hb; try discriminate; injection Hb as <-; assumption.
  - intros j x Lj P. unfold entry_ok, raw_ok. cbn [k_equals k_lower k_upper].
    assert (QL : forall p q A S, 0 < S -> ((p + A) * S <= (q + A) * S <-> p <= q)) by (intros p q A S HS; rewrite <- (Qle_scale (p + A) (q + A) S HS); lra).
    assert (QE : forall p q A S, 0 < S -> ((p + A) * S == (q + A) * S <-> p == q)) by (intros p q A S HS; split; intros H; [apply Qmult_inj_r in H; [lra|intros Z; rewrite Z in HS; lra]|rewrite H; reflexivity]).
    assert (SI : forall (R : num -> Prop) y, (forall b, Some y = Some b -> R b) <-> R y) by (intros R y; split; [intros H; apply H; reflexivity|intros H b Hb; injection Hb as <-; exact H]).
    assert (NI : forall (R : num -> Prop), (forall b, None = Some b -> R b) <-> True) by (intros R; split; [trivial|intros _ b Hb; discriminate]).
    assert (KE : (forall b, eq = Some b -> (x + entry (c_adder a) j) * entry (c_scaler a) j == entry b j) <-> (forall b, c_equals a = Some b -> x == entry b j)).
    { destruct IE as [[-> ->]|(xe & ye & -> & -> & _ & Ve)]; [rewrite (NI (fun b => x == entry b j)); apply NI|]. rewrite (SI (fun b => (x + entry (c_adder a) j) * entry (c_scaler a) j == entry b j)), (SI (fun b => x == entry b j)). rewrite (Ve j Lj). apply QE. exact P. }
    assert (KL : (forall b, lo = Some b -> entry b j <= (x + entry (c_adder a) j) * entry (c_scaler a) j) <-> (forall b, c_lower a = Some b -> entry b j <= x)).
    { destruct IL as [[-> ->]|(xl & yl & -> & -> & _ & Vl)]; [rewrite (NI (fun b => entry b j <= x)); apply NI|]. rewrite (SI (fun b => entry b j <= (x + entry (c_adder a) j) * entry (c_scaler a) j)), (SI (fun b => entry b j <= x)). rewrite (Vl j Lj). apply QL. exact P. }
    assert (KU : (forall b, up = Some b -> (x + entry (c_adder a) j) * entry (c_scaler a) j <= entry b j) <-> (forall b, c_upper a = Some b -> x <= entry b j)).
    { destruct IU as [[-> ->]|(xu & yu & -> & -> & _ & Vu)]; [rewrite (NI (fun b => x <= entry b j)); apply NI|]. rewrite (SI (fun b => (x + entry (c_adder a) j) * entry (c_scaler a) j <= entry b j)), (SI (fun b => x <= entry b j)). rewrite (Vu j Lj). apply QL. exact P. }
    rewrite KE, KL, KU. reflexivity.
Qed.
Theorem scipy_declared_partial : forall opt (args : list (con_args * nat)) cons model value,
    opt_in opt constraint_optimizers = true ->
    Forall2 (fun a c => fst c = c_name (fst a) /\ snd (snd c) = snd a /\ declared (fst a) (fst (snd c)) (snd a)) args cons ->
    NoDup (map fst cons) -> (forall a n, In (a, n) args -> String.prefix prefix2 (c_name a) = false /\ positive (c_scaler a) n /\ length (model (c_name a)) = n /\ length (value (c_name a)) = n /\
      forall j x, nth_error (model (c_name a)) j = Some x -> exists v, nth_error (value (c_name a)) j = Some v /\ v == (x + entry (c_adder a) j) * entry (c_scaler a) j) ->
    (feasible (constraints_of opt cons) (confunc cons (cache_of cons value)) <-> forall a n j x, In (a, n) args -> nth_error (model (c_name a)) j = Some x -> raw_ok a j x).
Proof.
  intros opt args cons model value O F2 N H.
  assert (IN : forall name k size, In (name, (k, size)) cons -> exists a, In (a, size) args /\ name = c_name a /\ declared a k size).
  { clear N H. induction F2 as [|[a n] [m [k0 s0]] args cons (E1 & E2 & E3) F2 IH]; intros name k size I; [destruct I|]. cbn in E1, E2, E3. subst. destruct I as [E|I]; [injection E as <- <- <-; exists a; cbn; auto|]. destruct (IH name k size I) as (b & I1 & I2 & I3). exists b. cbn; auto. }
  assert (NI : forall a n, In (a, n) args -> exists k, In (c_name a, (k, n)) cons /\ declared a k n).
  { clear N H IN. induction F2 as [|[a n] [m [k0 s0]] args cons (E1 & E2 & E3) F2 IH]; intros b l I; [destruct I|]. cbn in E1, E2, E3. subst. destruct I as [E|I]; [injection E as <- <-; exists k0; cbn; auto|]. destruct (IH b l I) as (k & I1 & I2). exists k. cbn; auto. }
  rewrite scipy_constraints_partial; [|exact O| |].
  - split.
    + intros A a n j x I X. destruct (NI a n I) as (k & Ic & D). destruct (H a n I) as (_ & P & Lm & _ & V). assert (L : (j < n)%nat) by (rewrite <- Lm; apply nth_error_Some; congruence). destruct (V j x X) as (v & Ev & EQ).
      apply (proj2 (declared_inv a k n D) j x L (P j L)). specialize (A _ k n j v Ic L Ev). destruct A as (A1 & A2 & A3). split; [|split]; intros b Hb; rewrite <- EQ; auto.
    + intros A name k size j v I L E. destruct (IN name k size I) as (a & Ia & -> & D). destruct (H a size Ia) as (_ & P & Lm & _ & V). destruct (nth_error (model (c_name a)) j) as [x|] eqn:X; [|apply nth_error_None in X; lia]. destruct (V j x X) as (v' & Ev & EQ). assert (v' = v) by congruence. subst v'.
      specialize (A a size j x Ia X). apply (proj2 (declared_inv a k size D) j x L (P j L)) in A. destruct A as (A1 & A2 & A3). split; [|split]; intros b Hb; rewrite EQ; auto.
  - split; [exact N|]. intros name k size I. destruct (IN name k size I) as (a & Ia & -> & D). split; [apply (declared_inv a k size D)|apply (H a size Ia)].
  - intros name k size I. destruct (IN name k size I) as (a & Ia & -> & D). apply (H a size Ia).
Qed.
Print Assumptions scipy_declared_partial.

(** The gradient of a constraint function is its derivative: if, moving by [t * dx], every
    constraint value changes by [t] times the product of its row of the gradient array
    with [dx], then every constraint function changes by [t] times the product of what
    _congradfunc returns with [dx]. *)
Theorem scipy_gradient : forall opt cons value value' obj rows dx t d, good_cons cons -> sized cons value -> sized cons value' -> grad_sized cons rows ->
    (forall name k size j v v' r, In (name, (k, size)) cons -> nth_error (value name) j = Some v -> nth_error (value' name) j = Some v' -> nth_error (rows name) j = Some r -> v' == v + t * dot r dx) ->
    In d (constraints_of opt cons) ->
    exists f f' g, confunc cons (cache_of cons value) (arg_name d) (arg_idx d) = Ok f /\ confunc cons (cache_of cons value') (arg_name d) (arg_idx d) = Ok f' /\
      congradfunc cons (grad_of cons obj rows) (arg_name d) (arg_idx d) = Ok g /\ f' == f + t * dot g dx.
Proof.
  intros opt cons value value' obj rows dx t d G S S' GS H I. destruct (in_dicts cons opt d I) as (n & k & size & j & Ic & L & Ej & _ & D). rewrite Ej.
  destruct (value_at cons value S n k size j Ic L) as (v & E). destruct (value_at cons value' S' n k size j Ic L) as (v' & E').
  assert (GC := proj2 G n k size Ic). destruct GC as ((EX & NE & _) & P).
  destruct D as [(-> & _)|(-> & _ & U & W)].
  - destruct (congrad_row cons G obj rows GS n n k size j false (strip2_no n P) Ic L) as (r & Er & Eg). do 3 eexists. split; [apply (confunc_first cons G value n k size j v Ic L E)|]. split; [apply (confunc_first cons G value' n k size j v' Ic L E')|]. split; [exact Eg|].
    specialize (H n k size j v v' r Ic E E' Er). destruct (k_equals k) as [b|]; cbn [has]; [rewrite dot_opp, H; ring|]. destruct (k_lower k) as [l|]; cbn [has negb orb]; [rewrite H; ring|]. destruct (k_upper k) as [u|]; [rewrite dot_opp, H; ring|]. destruct NE as [X|[X|X]]; congruence.
  - destruct (congrad_row cons G obj rows GS (prefix2 ++ n)%string n k size j true (strip2_yes n) Ic L) as (r & Er & Eg). destruct (k_upper k) as [u|] eqn:Eu; [|discriminate]. do 3 eexists. split; [apply (confunc_second cons G value n k size j v u Ic L E Eu)|]. split; [apply (confunc_second cons G value' n k size j v' u Ic L E' Eu)|]. split; [exact Eg|].
    specialize (H n k size j v v' r Ic E E' Er). rewrite orb_true_r. destruct (has (k_equals k)); rewrite dot_opp, H; ring.
Qed.
Print Assumptions scipy_gradient.

(** False in general: with any other optimizer the constraints are silently dropped,
    although the driver accepts them. *)
Definition m1 : meta := mkMeta (Num 1) (Num 0) None.
Theorem scipy_dropped_refuted : forall opt, opt_in opt constraint_optimizers = false -> exists cons value, good_cons cons /\ sized cons value /\
    feasible (constraints_of opt cons) (confunc cons (cache_of cons value)) /\ ~ all_ok cons value.
Proof.
  intros opt O. exists [("y", (mkCon None (Some (Num 1)) None false m1, 1%nat))], (fun _ => [5]). split; [|split; [|split]].
  - split; [cbn; repeat constructor; cbn; intuition discriminate|]. intros name k size [E|[]]; injection E as <- <- <-. split; [|reflexivity]. unfold good_con; cbn. split; [congruence|]. split; [right; right; discriminate|]. split; [|split]; intros b Hb; try discriminate. injection Hb as <-. exact I.
  - intros name k size [E|[]]. injection E as <- <- <-. reflexivity.
  - intros d I. unfold constraints_of in I. rewrite O in I. destruct I.
  - intros A. destruct (A "y" _ 1%nat 0%nat 5 (or_introl eq_refl) (Nat.lt_0_succ 0) eq_refl) as (_ & _ & A3). specialize (A3 (Num 1) eq_refl). cbn in A3. lra.
Qed.
Print Assumptions scipy_dropped_refuted.
(** With a negative scaler the functions ask for the opposite of the constraint. *)
Theorem scipy_negative_scaler_refuted : exists a k x, declared a k 1 /\ k_upper k <> None /\
    let cons := [(c_name a, (k, 1%nat))] in
    feasible (constraints_of "SLSQP" cons) (confunc cons (cache_of cons (fun _ => [(x + entry (c_adder a) 0) * entry (c_scaler a) 0]))) /\ ~ raw_ok a 0 x.
Proof.
  exists (mkConArgs "y" None (Some (Num 1)) None false None (Num 0) (Num (-1))), (mkCon None (Some (Num ((1 + 0) * (-1)))) None false (mkMeta (Num (-1)) (Num 0) None)), 5. split; [|split; [discriminate|split]].
  - split; [exists (mkSupports true true true), [], [("y", mkCon None (Some (Num ((1 + 0) * (-1)))) None false (mkMeta (Num (-1)) (Num 0) None))]; split; reflexivity|]. cbn. repeat (split; [exact I|]). split; [|split]; intros b Hb; try discriminate. injection Hb as <-. exact I.
  - intros d I. cbn in I. destruct I as [<- |[]]. cbn. eexists. split; [reflexivity|]. vm_compute. discriminate.
  - intros (_ & _ & H). specialize (H (Num 1) eq_refl). cbn in H. lra.
Qed.
Print Assumptions scipy_negative_scaler_refuted.

(** an equality and a two-sided constraint with an array of bounds *)
Definition ex_cons : list (string * (con * nat)) :=
  [("e", (mkCon None None (Some (Num 2)) false m1, 1%nat)); ("t", (mkCon (Some (Num 0)) (Some (Arr [1; 3])) None false m1, 2%nat))].
Example ex_cons_good : good_cons ex_cons.
Proof.
  split; [cbn; repeat constructor; cbn; intuition discriminate|]. intros name k size [E|[E|[]]]; injection E as <- <- <-; (split; [|reflexivity]); unfold good_con; cbn.
  - split; [auto|]. split; [left; discriminate|]. split; [|split]; intros b Hb; try discriminate. injection Hb as <-. exact I.
  - split; [congruence|]. split; [right; left; discriminate|]. split; [|split]; intros b Hb; try discriminate; injection Hb as <-; [exact I|reflexivity].
Qed.
Definition ex_value (n : string) : list Q := if String.eqb n "e" then [2] else [1; 3].
Example ex_feasible : feasible (constraints_of "SLSQP" ex_cons) (confunc ex_cons (cache_of ex_cons ex_value)) /\ length (constraints_of "SLSQP" ex_cons) = 5%nat.
Proof.
  split; [|reflexivity]. apply scipy_constraints_partial; [reflexivity|exact ex_cons_good| |].
  - intros name k size [E|[E|[]]]; injection E as <- <- <-; reflexivity.
  - intros name k size j v [E|[E|[]]] L V; injection E as <- <- <-.
    + destruct j; [|lia]. injection V as <-. split; [|split]; intros b Hb; try discriminate. injection Hb as <-. reflexivity.
    + destruct j as [|[|j]]; [| |lia]; injection V as <-; (split; [|split]); intros b Hb; try discriminate; injection Hb as <-; cbn; lra.
Qed.
Example ex_gradient : congradfunc ex_cons (grad_of ex_cons [9; 9] (fun n => if String.eqb n "e" then [[1; 2]] else [[3; 4]; [5; 6]])) "2bl-t" 1 = Ok [-5; -6].
Proof. reflexivity. Qed.

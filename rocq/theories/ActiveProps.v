(** C49: active-set screening in the pyOptSparse driver. *)
From Verif Require Import Base BaseFacts ActiveModel ActiveSpec ActiveProofs.
From Coq Require Import Qabs Lqa.
Local Open Scope string_scope.
Local Open Scope Q_scope.
Local Open Scope list_scope.

(** For constraints that have one bound, or equal bounds, and that are alone in their
    parallel derivative group: a row of the gradient is skipped only if the entry is
    farther than the tolerance from every bound. *)
Theorem active_screen_partial : forall fwd tols cons len sol sets,
    NoDup (map fst cons) ->
    (forall n t, In (n, t) tols -> exists c, In (n, c) cons /\ complete t c /\ one_sided c) ->
    (forall params n v, In (params, n) sets -> In v params -> In v (map fst tols) -> params = [v]) ->
    keeps_active tols cons sol sets (gradfunc fwd tols cons len sol sets).
Proof.
  intros fwd tols cons len sol sets ND H G params n v i I Iv L. unfold gradfunc.
  assert (DG : forall m c, In (m, c) cons -> dget String.eqb cons m = Some c) by (intros m c X; apply in_dget; [intros; apply String.eqb_eq|exact ND|exact X]).
  destruct (inactives_total tols cons) as (ina & E). { intros m t X. destruct (H m t X) as (c & C1 & C2 & _). exists c. split; [apply DG; exact C1|exact C2]. }
  rewrite E. split.
  - eexists. apply all_rows_in. exists params, n. repeat (split; [eassumption|]). reflexivity.
  - intros row R. apply all_rows_in in R. destruct R as (p & m & Ip & Ivp & Lm & ->). destruct (skipped fwd ina (last p "") i) eqn:S; [right|left; reflexivity].
    destruct fwd; [discriminate|]. destruct (inactives_in tols cons ina E _ i S) as (t & c & x & T1 & T2 & T3 & T4).
    assert (P : p = [last p ""]). { apply (G p m); [exact Ip|apply (last_in p "" v Ivp)|]. apply in_map_iff. exists (last p "", t). auto. }
    assert (V : v = last p "") by (rewrite P in Ivp; destruct Ivp as [<- |[]]; rewrite P; reflexivity).
    rewrite V. exists t, c. split; [exact T1|]. split; [exact T2|]. apply (marked_far t c i x); [|exact T3|exact T4]. destruct (H _ t T1) as (c' & C1 & _ & O). assert (c = c') by (apply DG in T2, C1; congruence). subst c'. exact O.
Qed.
Print Assumptions active_screen_partial.

(** In fwd mode nothing is skipped at all. *)
Theorem active_fwd : forall tols cons len sol sets v i row, In ((v, i), row) (gradfunc true tols cons len sol sets) -> row = sol v i.
Proof. intros tols cons len sol sets v i row I. unfold gradfunc in I. destruct (inactives_of tols cons); [|destruct I]. apply all_rows_in in I. destruct I as (p & m & _ & _ & _ & ->). reflexivity. Qed.
Print Assumptions active_fwd.

(** With one bound, the rows skipped are exactly those of the entries that satisfy the
    constraint with more than the tolerance to spare. *)
Theorem active_one_bound : forall lower upper val tol len sol n i, (i < n)%nat -> length lower = length val -> length upper = length val ->
    (forall j, (j < length val)%nat -> (exists l, nth_error lower j = Some (Some l)) /\ nth_error upper j = Some None \/ nth_error lower j = Some None /\ (exists u, nth_error upper j = Some (Some u))) ->
    forall row, In (("y", i), row) (gradfunc false [("y", TFloat tol)] [("y", mkPy lower upper val)] len sol [(["y"], n)]) ->
    let spare := exists v, nth_error val i = Some v /\ ((exists l, nth_error lower i = Some (Some l) /\ tol < v - l) \/ (exists u, nth_error upper i = Some (Some u) /\ tol < u - v)) in
    (spare -> row = repeat 0 (len "y")) /\ (~ spare -> row = sol "y" i).
Proof.
  intros lower upper val tol len sol n i L LL LU B row I spare. unfold gradfunc in I. cbn [inactives_of dget] in I. rewrite String.eqb_refl in I.
  destruct (complete_total (TFloat tol) (mkPy lower upper val)) as (idx & E). { split; [exact LL|]. split; [exact LU|]. left. eauto. } rewrite E in I. cbn [bind] in I.
  assert (K := inactive_idx_in _ _ _ _ _ E i). rewrite Nat.sub_0_r in K. cbn [p_value] in K.
  assert (SP : In i idx <-> spare).
  { rewrite K. unfold spare, marked, tol_is. cbn [p_lower p_upper]. split.
    - intros (v & _ & V & l & u & q & E1 & E2 & [T|(a & T & _)] & M); [|discriminate]. injection T as <-. exists v. split; [exact V|]. destruct M as [(b & -> & X)|(b & -> & X)]; [left|right]; exists b; (split; [assumption|lra]).
    - intros (v & V & M). exists v. split; [lia|]. split; [exact V|]. assert (J : (i < length val)%nat) by (apply nth_error_Some; congruence). destruct (B i J) as [((l & E1) & E2)|(E1 & u & E2)].
      + exists (Some l), None, tol. repeat (split; [solve [auto]|]). left. exists l. split; [reflexivity|]. destruct M as [(l' & X & Y)|(u' & X & Y)]; [|congruence]. assert (l' = l) by congruence. subst l'. lra.
      + exists None, (Some u), tol. repeat (split; [solve [auto]|]). right. exists u. split; [reflexivity|]. destruct M as [(l' & X & Y)|(u' & X & Y)]; [congruence|]. assert (u' = u) by congruence. subst u'. lra. }
  assert (SK : forall ina, Ok ina = match idx with [] => Ok [] | _ :: _ => Ok [("y", idx)] end -> skipped false ina "y" i = true <-> In i idx).
  { intros ina X. assert (Q : existsb (Nat.eqb i) idx = true <-> In i idx). { rewrite existsb_exists. split; [intros (k & Ik & Ek); apply Nat.eqb_eq in Ek; subst; exact Ik|intros Ii; exists i; split; [exact Ii|apply Nat.eqb_refl]]. }
    destruct idx; injection X as ->; [split; [discriminate|intros []]|]. unfold skipped. cbn [negb andb dget]. rewrite String.eqb_refl. exact Q. }
  assert (R : exists ina, Ok ina = match idx with [] => Ok [] | _ :: _ => Ok [("y", idx)] end /\ In (("y", i), row) (all_rows false ina len sol [(["y"], n)])) by (destruct idx; eexists; split; try reflexivity; exact I).
  destruct R as (ina & Ei & Ir). specialize (SK ina Ei). apply all_rows_in in Ir. destruct Ir as (p & m & [X|[]] & _ & _ & ->). injection X as <- <-. cbn [last].
  split; intros S0; destruct (skipped false ina "y" i); try reflexivity.
  - apply SP, SK in S0. discriminate.
  - exfalso. apply S0, SP, SK. reflexivity.
Qed.
Print Assumptions active_one_bound.

(** False for constraints with two bounds: if the bounds are more than two tolerances
    apart, every entry is always skipped, even one that sits on a bound or violates it. *)
Theorem active_two_sided_refuted : forall l u tol v, 0 <= tol -> l + tol < u - tol ->
    forall len sol, gradfunc false [("y", TFloat tol)] [("y", mkPy [Some l] [Some u] [v])] len sol [(["y"], 1%nat)] = [(("y", 0%nat), repeat 0 (len "y"))].
Proof.
  intros l u tol v T W len sol. unfold gradfunc. cbn. destruct (qlt (l + tol) v) eqn:A, (qlt v (u - tol)) eqn:B; try reflexivity.
  exfalso. assert (A' : ~ l + tol < v) by (intros X; apply qlt_iff in X; congruence). assert (B' : ~ v < u - tol) by (intros X; apply qlt_iff in X; congruence). apply A'. lra.
Qed.
Print Assumptions active_two_sided_refuted.
Theorem active_on_bound_refuted : exists tols cons len sol sets, NoDup (map fst cons) /\ (forall n t, In (n, t) tols -> exists c, In (n, c) cons /\ complete t c) /\ sets = [(["y"], 1%nat)] /\
    ~ keeps_active tols cons sol sets (gradfunc false tols cons len sol sets).
Proof.
  exists [("y", TFloat (1#10))], [("y", mkPy [Some 0] [Some 1] [1])], (fun _ => 1%nat), (fun _ _ => [1]), [(["y"], 1%nat)]. split; [cbn; repeat constructor; cbn; intuition discriminate|]. split; [|split; [reflexivity|]].
  - intros n t [E|[]]. injection E as <- <-. eexists. split; [left; reflexivity|]. split; [reflexivity|]. split; [reflexivity|]. left. eauto.
  - intros K. destruct (K ["y"] 1%nat "y" 0%nat (or_introl eq_refl) (or_introl eq_refl) (Nat.lt_0_succ 0)) as (_ & R). specialize (R [0] (or_introl eq_refl)). destruct R as [R|(t & c & [It|[]] & [Ic|[]] & v & l & u & q & V & EL & EU & T & F1 & F2)]; [discriminate|]. injection It as <-. injection Ic as <-. cbn in *. injection V as <-. injection EL as <-. injection EU as <-. specialize (F2 1 eq_refl). destruct T as [T|(a & T & _)]; [|discriminate]. injection T as <-. vm_compute in F2. discriminate.
Qed.
Print Assumptions active_on_bound_refuted.

(** An equality constraint that is violated by more than the tolerance is the one whose
    gradient is dropped. *)
Theorem active_equality_refuted : forall e tol v, tol < Qabs (v - e) -> forall len sol,
    gradfunc false [("y", TFloat tol)] [("y", mkPy [Some e] [Some e] [v])] len sol [(["y"], 1%nat)] = [(("y", 0%nat), repeat 0 (len "y"))].
Proof.
  intros e tol v F len sol. unfold gradfunc. cbn. destruct (qlt (e + tol) v) eqn:A, (qlt v (e - tol)) eqn:B; try reflexivity.
  exfalso. assert (A' : ~ e + tol < v) by (intros X; apply qlt_iff in X; congruence). assert (B' : ~ v < e - tol) by (intros X; apply qlt_iff in X; congruence). apply (Qlt_not_le _ _ F). apply Qabs_Qle_condition. lra.
Qed.
Print Assumptions active_equality_refuted.

(** In a parallel derivative group the last constraint of the group decides for all of
    them: an active constraint loses its gradient when the last one is inactive, even if
    it is not screened itself. *)
Theorem active_group_refuted : exists tols cons len sol sets, NoDup (map fst cons) /\ (forall n t, In (n, t) tols -> exists c, In (n, c) cons /\ complete t c /\ one_sided c) /\
    ~ keeps_active tols cons sol sets (gradfunc false tols cons len sol sets).
Proof.
  exists [("b", TFloat (1#10))], [("a", mkPy [None] [Some 1] [1]); ("b", mkPy [None] [Some 1] [0])], (fun _ => 1%nat), (fun _ _ => [1]), [(["a"; "b"], 1%nat)]. split; [cbn; repeat constructor; cbn; intuition discriminate|]. split.
  - intros n t [E|[]]. injection E as <- <-. eexists. split; [right; left; reflexivity|]. split; [split; [reflexivity|]; split; [reflexivity|]; left; eauto|]. intros j l u E _. destruct j as [|[|j]]; discriminate.
  - intros K. destruct (K ["a"; "b"] 1%nat "a" 0%nat (or_introl eq_refl) (or_introl eq_refl) (Nat.lt_0_succ 0)) as (_ & R). specialize (R [0] (or_introl eq_refl)). destruct R as [R|(t & c & [It|[]] & _)]; discriminate.
Qed.
Print Assumptions active_group_refuted.

(** An integer tolerance is a TypeError that is swallowed: there is no gradient at all. *)
Theorem active_int_refuted : forall z c len sol sets, p_value c <> [] -> gradfunc false [("y", TInt z)] [("y", c)] len sol sets = [].
Proof. intros z [lo up [|v r]] len sol sets H; [contradiction|]. reflexivity. Qed.
Print Assumptions active_int_refuted.
(** The tolerance of an equality constraint that is an array of several entries stops
    the run. *)
Theorem active_array_equality_refuted : forall n a b l r, eq_tols ((n, Some (TArr (a :: b :: l))) :: r) = Err ValueError.
Proof. reflexivity. Qed.
Print Assumptions active_array_equality_refuted.

(** two screened constraints, one with an array of tolerances, and an objective *)
Example ex_active :
  let tols := [("c", TArr [1; 2]); ("d", TFloat (1#2))] in
  let cons := [("c", mkPy [Some 0; None] [None; Some 10] [3; 9]); ("d", mkPy [None] [Some 4] [4])] in
  let sol := fun v i => if String.eqb v "f" then [7; 7] else if String.eqb v "c" then [inject_Z (Z.of_nat i) + 1; 5] else [2; 3] in
  let sets := [(["f"], 1%nat); (["c"], 2%nat); (["d"], 1%nat)] in
  keeps_active tols cons sol sets (gradfunc false tols cons (fun _ => 2%nat) sol sets) /\
  gradfunc false tols cons (fun _ => 2%nat) sol sets = [(("f", 0%nat), [7; 7]); (("c", 0%nat), [0; 0]); (("c", 1%nat), [2; 5]); (("d", 0%nat), [2; 3])].
Proof.
  split; [|reflexivity]. apply active_screen_partial.
  - cbn. repeat constructor; cbn; intuition discriminate.
  - intros n t [E|[E|[]]]; injection E as <- <-; eexists.
    + split; [left; reflexivity|]. split; [split; [reflexivity|]; split; [reflexivity|]; right; exists [1; 2]; auto|]. intros [|[|j]] l u E1 E2; try discriminate. destruct j; discriminate.
    + split; [right; left; reflexivity|]. split; [split; [reflexivity|]; split; [reflexivity|]; left; eauto|]. intros [|[|j]] l u E1 E2; discriminate.
  - intros p n v [E|[E|[E|[]]]] Iv It; injection E as <- <-; destruct Iv as [<- |[]]; reflexivity.
Qed.

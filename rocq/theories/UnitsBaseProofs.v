(** Lemmas about reduction to base units (C06) and termination of library
    loading. *)
From Verif Require Import Base BaseFacts UnitsModel UnitsSpec UnitsProofs UnitsLibProofs.
From Coq Require Import Permutation Lqa Qpower.
Open Scope Q_scope.

Section BaseUnits.
  Variable t : table.
  Variable N : nat.

  Definition repr (u : punit) (f : nat -> Z) : Prop :=
    factor u == 1 /\ offset u == 0 /\ length (powers u) = N /\
    forall j, (j < N)%nat -> nth_error (powers u) j = Some (f j).

  Lemma zipwith_length : forall f a b, length a = length b -> length (zipwith f a b) = length a.
  Proof. intros f. induction a as [|x a IH]; intros [|y b] H; simpl in *; try discriminate; auto. Qed.

  Lemma repr_mul : forall u v f g, repr u f -> repr v g ->
      exists w, unit_mul u v = Ok w /\ repr w (fun j => (f j + g j)%Z).
  Proof.
    intros u v f g (Fu & Ou & Lu & Pu) (Fv & Ov & Lv & Pv). unfold unit_mul.
    rewrite (proj2 (Qeq_bool_iff _ _) Ou), (proj2 (Qeq_bool_iff _ _) Ov). simpl.
    eexists; split; [reflexivity|]. unfold repr; simpl.
    split; [rewrite Fu, Fv; reflexivity|]. split; [reflexivity|].
    split; [rewrite zipwith_length; lia|].
    intros j Hj. rewrite zipwith_nth by lia. rewrite (Pu j Hj), (Pv j Hj). reflexivity.
  Qed.

  Lemma repr_div : forall u v f g, repr u f -> repr v g ->
      exists w, unit_div u v = Ok w /\ repr w (fun j => (f j - g j)%Z).
  Proof.
    intros u v f g (Fu & Ou & Lu & Pu) (Fv & Ov & Lv & Pv). unfold unit_div.
    rewrite (proj2 (Qeq_bool_iff _ _) Ou), (proj2 (Qeq_bool_iff _ _) Ov). simpl.
    assert (Hz : ~ factor v == 0) by (rewrite Fv; discriminate).
    rewrite (proj2 (Qeq_bool_false _ _) Hz).
    eexists; split; [reflexivity|]. unfold repr; simpl.
    split; [rewrite Fu, Fv; reflexivity|]. split; [reflexivity|].
    split; [rewrite zipwith_length; lia|].
    intros j Hj. rewrite zipwith_nth by lia. rewrite (Pu j Hj), (Pv j Hj). reflexivity.
  Qed.

  Lemma repr_rdiv : forall u f, repr u f ->
      exists w, unit_rdiv_num 1 u = Ok w /\ repr w (fun j => (0 - f j)%Z).
  Proof.
    intros u f (Fu & Ou & Lu & Pu). unfold unit_rdiv_num.
    assert (Hz : ~ factor u == 0) by (rewrite Fu; discriminate).
    rewrite (proj2 (Qeq_bool_false _ _) Hz).
    eexists; split; [reflexivity|]. unfold repr; simpl.
    split; [rewrite Fu; reflexivity|]. split; [reflexivity|].
    split; [rewrite map_length; exact Lu|].
    intros j Hj. rewrite map_nth_error', (Pu j Hj). reflexivity.
  Qed.

  Lemma repr_pow : forall u f n, repr u f ->
      exists w, unit_pow u n = Ok w /\ repr w (fun j => (f j * n)%Z).
  Proof.
    intros u f n (Fu & Ou & Lu & Pu). unfold unit_pow.
    rewrite (proj2 (Qeq_bool_iff _ _) Ou). simpl.
    assert (Hz : ~ factor u == 0) by (rewrite Fu; discriminate).
    rewrite (proj2 (Qeq_bool_false _ _) Hz). simpl.
    eexists; split; [reflexivity|]. unfold repr; simpl.
    split; [rewrite Fu; apply Qpower_1|]. split; [reflexivity|].
    split; [rewrite map_length; exact Lu|].
    intros j Hj. rewrite map_nth_error', (Pu j Hj). reflexivity.
  Qed.

  Lemma repr_ext : forall u f g, repr u f -> (forall j, (j < N)%nat -> f j = g j) -> repr u g.
  Proof.
    intros u f g (F & O & L & P) H. repeat split; try assumption.
    intros j Hj. rewrite (P j Hj), (H j Hj). reflexivity.
  Qed.

  Definition ind (i j : nat) : Z := if Nat.eqb i j then 1%Z else 0%Z.

  Lemma base_atom_repr : forall n p i u,
      sget t n = Some u -> repr u (ind i) -> (0 < p)%Z ->
      exists w, ueval t (base_atom n p) = Ok (VUnit w) /\ repr w (fun j => (ind i j * p)%Z).
  Proof.
    intros n p i u Hn Hu Hp. unfold base_atom. destruct (Z.ltb_spec 1 p) as [H|H].
    - simpl. rewrite Hn. simpl. destruct (repr_pow u (ind i) p Hu) as (w & E & Hw).
      rewrite E. simpl. exists w. split; [reflexivity|exact Hw].
    - simpl. rewrite Hn. exists u. split; [reflexivity|].
      assert (p = 1%Z) by lia. subst. eapply repr_ext; [exact Hu|]. intros j _. simpl. lia.
  Qed.

  (** positive and negative parts of the exponents from index [k] on *)
  Fixpoint ppart (k : nat) (l : list (string * Z)) (j : nat) : Z :=
    match l with
    | [] => 0
    | (_, p) :: r => (ind k j * Z.max 0 p + ppart (S k) r j)%Z
    end.
  Fixpoint npart (k : nat) (l : list (string * Z)) (j : nat) : Z :=
    match l with
    | [] => 0
    | (_, p) :: r => (ind k j * Z.max 0 (- p) + npart (S k) r j)%Z
    end.

  Definition names_ok (k : nat) (l : list (string * Z)) : Prop :=
    forall i n p, nth_error l i = Some (n, p) -> exists u, sget t n = Some u /\ repr u (ind (k + i)).

  Lemma names_ok_cons : forall k x l, names_ok k (x :: l) -> names_ok (S k) l.
  Proof.
    intros k x l H i n p Hi. destruct (H (S i) n p Hi) as (u & Hu & Hr).
    exists u. split; [exact Hu|]. replace (S k + i)%nat with (k + S i)%nat by lia. exact Hr.
  Qed.

  Lemma names_ok_head : forall k n p l, names_ok k ((n, p) :: l) ->
      exists u, sget t n = Some u /\ repr u (ind k).
  Proof.
    intros k n p l H. destruct (H 0%nat n p eq_refl) as (u & Hu & Hr).
    exists u. rewrite Nat.add_0_r in Hr. split; assumption.
  Qed.

  Lemma base_num_some : forall l k e u f,
      names_ok k l -> ueval t e = Ok (VUnit u) -> repr u f ->
      exists e' w, base_num (Some e) l = Some e' /\ ueval t e' = Ok (VUnit w) /\
                   repr w (fun j => (f j + ppart k l j)%Z).
  Proof.
    induction l as [|[n p] l IH]; intros k e u f Hok He Hr; simpl.
    - exists e, u. split; [reflexivity|]. split; [exact He|]. eapply repr_ext; [exact Hr|]. intros; lia.
    - destruct (names_ok_head _ _ _ _ Hok) as (v & Hv & Hvr).
      pose proof (names_ok_cons _ _ _ Hok) as Hok'.
      destruct (Z.ltb_spec 0 p) as [Hp|Hp].
      + destruct (base_atom_repr n p k v Hv Hvr Hp) as (w & Ew & Hw).
        destruct (repr_mul u w _ _ Hr Hw) as (x & Ex & Hx).
        assert (Em : ueval t (UMul e (base_atom n p)) = Ok (VUnit x)).
        { simpl. rewrite He, Ew. simpl. rewrite Ex. reflexivity. }
        destruct (IH (S k) _ _ _ Hok' Em Hx) as (e' & y & E1 & E2 & E3).
        exists e', y. split; [exact E1|]. split; [exact E2|]. eapply repr_ext; [exact E3|].
        intros j _. simpl. rewrite Z.max_r by lia. lia.
      + destruct (IH (S k) _ _ _ Hok' He Hr) as (e' & y & E1 & E2 & E3).
        exists e', y. split; [exact E1|]. split; [exact E2|]. eapply repr_ext; [exact E3|].
        intros j _. simpl. rewrite Z.max_l by lia. lia.
  Qed.

  Lemma base_num_none : forall l k,
      names_ok k l ->
      (base_num None l = None /\ (forall j, ppart k l j = 0%Z) /\
       (forall n p, In (n, p) l -> (p <= 0)%Z))
      \/ exists e w, base_num None l = Some e /\ ueval t e = Ok (VUnit w) /\ repr w (ppart k l).
  Proof.
    induction l as [|[n p] l IH]; intros k Hok; simpl.
    - left. split; [reflexivity|]. split; [reflexivity|]. intros n p [].
    - destruct (names_ok_head _ _ _ _ Hok) as (v & Hv & Hvr).
      pose proof (names_ok_cons _ _ _ Hok) as Hok'.
      destruct (Z.ltb_spec 0 p) as [Hp|Hp].
      + right. destruct (base_atom_repr n p k v Hv Hvr Hp) as (w & Ew & Hw).
        destruct (base_num_some l (S k) _ _ _ Hok' Ew Hw) as (e' & y & E1 & E2 & E3).
        exists e', y. split; [exact E1|]. split; [exact E2|]. eapply repr_ext; [exact E3|].
        intros j _. simpl. rewrite Z.max_r by lia. lia.
      + destruct (IH (S k) Hok') as [(E & Hz & Hneg)|(e & w & E1 & E2 & E3)].
        * left. split; [exact E|]. split.
          -- intros j. rewrite Z.max_l by lia. rewrite Hz. lia.
          -- intros m q [Heq|Hin]; [injection Heq as <- <-; exact Hp|eapply Hneg; exact Hin].
        * right. exists e, w. split; [exact E1|]. split; [exact E2|]. eapply repr_ext; [exact E3|].
          intros j _. simpl. rewrite Z.max_l by lia. lia.
  Qed.

  Lemma base_den_unit : forall l k e u f,
      names_ok k l -> ueval t e = Ok (VUnit u) -> repr u f ->
      exists w, ueval t (base_den e l) = Ok (VUnit w) /\ repr w (fun j => (f j - npart k l j)%Z).
  Proof.
    induction l as [|[n p] l IH]; intros k e u f Hok He Hr; simpl.
    - exists u. split; [exact He|]. eapply repr_ext; [exact Hr|]. intros; lia.
    - destruct (names_ok_head _ _ _ _ Hok) as (v & Hv & Hvr).
      pose proof (names_ok_cons _ _ _ Hok) as Hok'.
      destruct (Z.ltb_spec p 0) as [Hp|Hp].
      + destruct (base_atom_repr n (- p) k v Hv Hvr ltac:(lia)) as (w & Ew & Hw).
        destruct (repr_div u w _ _ Hr Hw) as (x & Ex & Hx).
        assert (Em : ueval t (UDiv e (base_atom n (- p))) = Ok (VUnit x)).
        { simpl. rewrite He, Ew. simpl. rewrite Ex. reflexivity. }
        destruct (IH (S k) _ _ _ Hok' Em Hx) as (y & E2 & E3).
        exists y. split; [exact E2|]. eapply repr_ext; [exact E3|].
        intros j _. simpl. rewrite (Z.max_r 0 (- p)) by lia. lia.
      + destruct (IH (S k) _ _ _ Hok' He Hr) as (y & E2 & E3).
        exists y. split; [exact E2|]. eapply repr_ext; [exact E3|].
        intros j _. simpl. rewrite (Z.max_l 0 (- p)) by lia. lia.
  Qed.

  Lemma base_den_one : forall l k,
      names_ok k l -> (exists n p, In (n, p) l /\ (p < 0)%Z) ->
      exists w, ueval t (base_den (UNum 1) l) = Ok (VUnit w) /\ repr w (fun j => (0 - npart k l j)%Z).
  Proof.
    induction l as [|[n p] l IH]; intros k Hok Hex; simpl.
    - destruct Hex as (n & p & [] & _).
    - destruct (names_ok_head _ _ _ _ Hok) as (v & Hv & Hvr).
      pose proof (names_ok_cons _ _ _ Hok) as Hok'.
      destruct (Z.ltb_spec p 0) as [Hp|Hp].
      + destruct (base_atom_repr n (- p) k v Hv Hvr ltac:(lia)) as (w & Ew & Hw).
        destruct (repr_rdiv w _ Hw) as (x & Ex & Hx).
        assert (Em : ueval t (UDiv (UNum 1) (base_atom n (- p))) = Ok (VUnit x)).
        { simpl. rewrite Ew. simpl. rewrite Ex. reflexivity. }
        destruct (base_den_unit l (S k) _ _ _ Hok' Em Hx) as (y & E2 & E3).
        exists y. split; [exact E2|]. eapply repr_ext; [exact E3|].
        intros j _. simpl. rewrite (Z.max_r 0 (- p)) by lia. lia.
      + destruct (IH (S k) Hok') as (y & E2 & E3).
        { destruct Hex as (m & q & [Heq|Hin] & Hq); [injection Heq as <- <-; lia|].
          exists m, q. split; assumption. }
        exists y. split; [exact E2|]. eapply repr_ext; [exact E3|].
        intros j _. simpl. rewrite (Z.max_l 0 (- p)) by lia. lia.
  Qed.
End BaseUnits.

Lemma ppart_npart : forall bs ps k j,
    length bs = length ps ->
    (ppart k (combine bs ps) j - npart k (combine bs ps) j)%Z =
    (if Nat.leb k j then match nth_error ps (j - k) with Some p => p | None => 0%Z end else 0%Z).
Proof.
  induction bs as [|b bs IH]; intros [|p ps] k j Hl; try discriminate.
  - simpl. destruct (Nat.leb k j); [destruct (j - k)%nat|]; reflexivity.
  - assert (IH' := IH ps (S k) j ltac:(simpl in Hl; lia)). cbn [combine ppart npart]. unfold ind.
    destruct (Nat.eqb_spec k j) as [->|Hkj].
    + rewrite Nat.leb_refl, Nat.sub_diag. cbn [nth_error].
      rewrite (proj2 (Nat.leb_gt (S j) j)) in IH' by lia. lia.
    + destruct (Nat.leb_spec k j) as [Hle|Hgt].
      * rewrite (proj2 (Nat.leb_le (S k) j)) in IH' by lia.
        replace (j - k)%nat with (S (j - S k)) by lia. cbn [nth_error]. lia.
      * rewrite (proj2 (Nat.leb_gt (S k) j)) in IH' by lia. lia.
Qed.

Lemma list_nth_ext : forall (a b : list Z),
    length a = length b ->
    (forall j, (j < length a)%nat -> nth_error a j = nth_error b j) -> a = b.
Proof.
  induction a as [|x a IH]; intros [|y b] Hl H; simpl in *; try discriminate; [reflexivity|].
  pose proof (H 0%nat ltac:(lia)) as H0. simpl in H0. injection H0 as ->. f_equal.
  apply IH; [lia|]. intros j Hj. apply (H (S j)). lia.
Qed.

Lemma base_unit_expr_value : forall t bs ps,
    knows_base_units t bs -> length ps = length bs -> (exists p, In p ps /\ p <> 0%Z) ->
    exists u, ueval t (base_unit_expr bs ps) = Ok (VUnit u) /\
              factor u == 1 /\ offset u == 0 /\ powers u = ps.
Proof.
  intros t bs ps Hk Hl (p0 & Hp0 & Hne).
  assert (Hok : names_ok t (length bs) 0 (combine bs ps)).
  { intros i n p Hi. assert (Hb : nth_error bs i = Some n).
    { clear -Hi. revert ps i Hi. induction bs as [|b bs IH]; intros [|q ps] [|i] Hi; simpl in *; try discriminate.
      - injection Hi as -> _; reflexivity.
      - eapply IH; exact Hi. }
    destruct (Hk i n Hb) as (u & Hu & F & O & L & P). exists u. split; [exact Hu|].
    simpl. repeat split; try assumption. }
  assert (Hfin : forall w, repr (length bs) w (fun j => (ppart 0 (combine bs ps) j - npart 0 (combine bs ps) j)%Z) ->
                 factor w == 1 /\ offset w == 0 /\ powers w = ps).
  { intros w (F & O & L & P). repeat split; try assumption.
    apply list_nth_ext; [lia|]. intros j Hj. rewrite L in Hj. rewrite (P j Hj).
    rewrite ppart_npart by lia. simpl. rewrite Nat.sub_0_r.
    destruct (nth_error ps j) eqn:E; [reflexivity|]. apply nth_error_None in E. lia. }
  unfold base_unit_expr.
  destruct (base_num_none t (length bs) (combine bs ps) 0 Hok) as [(E & Hz & Hneg)|(e & w & E1 & E2 & E3)].
  - rewrite E.
    destruct (base_den_one t (length bs) (combine bs ps) 0 Hok) as (w & Ew & Hw).
    { destruct (In_nth_error _ _ Hp0) as [i Hi].
      assert (Hc : exists n, In (n, p0) (combine bs ps)).
      { clear -Hi Hl. revert ps i Hi Hl. induction bs as [|b bs IH]; intros [|q ps] [|i] Hi Hl; simpl in *; try discriminate.
        - injection Hi as ->. exists b. left; reflexivity.
        - destruct (IH ps i Hi ltac:(lia)) as [n Hn]. exists n. right; exact Hn. }
      destruct Hc as [n Hn]. exists n, p0. split; [exact Hn|]. specialize (Hneg n p0 Hn). lia. }
    exists w. split; [exact Ew|]. apply Hfin. eapply repr_ext; [exact Hw|]. intros j _. simpl. rewrite Hz. reflexivity.
  - rewrite E1. destruct (base_den_unit t (length bs) (combine bs ps) 0 e w _ Hok E2 E3) as (y & Ey & Hy).
    exists y. split; [exact Ey|]. apply Hfin. exact Hy.
Qed.

(** C06 *)
Lemma in_base_units_preserves : forall px t bs hist q,
    knows_base_units t bs -> length (powers (qunit q)) = length bs ->
    (exists p, In p (powers (qunit q)) /\ p <> 0%Z) -> offset (qunit q) == 0 ->
    exists q', in_base_units px bs (find_units px (mkUState t []) hist) q = Ok q' /\
      to_base (qunit q') (value q') == to_base (qunit q) (value q) /\
      same_dim (qunit q') (qunit q) /\ factor (qunit q') == 1.
Proof.
  intros px t bs hist q Hk Hl Hex Ho. unfold in_base_units.
  destruct (base_unit_expr_value t bs _ Hk Hl Hex) as (u & Ev & F & O & P).
  rewrite (find_unit_known_forever px t _ _ hist Ev). simpl.
  eexists; split; [reflexivity|]. simpl. repeat split; try assumption.
  unfold to_base. rewrite F, O, Ho. ring.
Qed.

(** ** Library loading always ends *)

Lemma lib_pass_length : forall px ds s s' r, lib_pass px s ds = Ok (s', r) -> (length r <= length ds)%nat.
Proof.
  intros px. induction ds as [|d ds IH]; intros s s' r H; simpl in H.
  - injection H as <- <-. simpl; lia.
  - destruct (add_def px s d) as [s1 [[]|er]]; [apply IH in H; simpl; lia|].
    destruct er; try discriminate.
    destruct (lib_pass px s1 ds) as [[s2 r2]|] eqn:E; simpl in H; [|discriminate].
    injection H as <- <-. apply IH in E. simpl; lia.
Qed.

Definition no_rt {A} (r : res A) : Prop := r <> Err RuntimeError.

Ltac rt := unfold no_rt in *; repeat (match goal with
  | |- Ok _ <> Err _ => discriminate
  | |- Err ?e <> Err RuntimeError => discriminate
  | |- (if ?b then _ else _) <> _ => destruct b
  | |- bind ?m _ <> _ => destruct m eqn:?; simpl
  | |- match ?x with _ => _ end <> _ => destruct x eqn:?
  end); try congruence.

Lemma unit_ops_no_rt : forall u v n z,
    no_rt (unit_mul u v) /\ no_rt (unit_mul_num u n) /\ no_rt (unit_div u v) /\
    no_rt (unit_div_num u n) /\ no_rt (unit_rdiv_num n u) /\ no_rt (unit_pow u z).
Proof.
  intros. unfold no_rt, unit_mul, unit_mul_num, unit_div, unit_div_num, unit_rdiv_num, unit_pow.
  repeat split; rt.
Qed.

Lemma ueval_no_rt : forall t e, no_rt (ueval t e).
Proof.
  intros t. induction e as [m|x|a IHa b IHb|a IHa b IHb|a IHa k]; simpl.
  - destruct (sget t m); unfold no_rt; discriminate.
  - unfold no_rt; discriminate.
  - destruct (ueval t a) as [[x|u]|]; simpl; try exact IHa;
      destruct (ueval t b) as [[y|v]|]; simpl; try exact IHb; try (unfold no_rt; discriminate).
    + destruct (unit_ops_no_rt v v x 0) as (_ & H & _). destruct (unit_mul_num v x); simpl; unfold no_rt in *; congruence.
    + destruct (unit_ops_no_rt u u y 0) as (_ & H & _). destruct (unit_mul_num u y); simpl; unfold no_rt in *; congruence.
    + destruct (unit_ops_no_rt u v 0 0) as (H & _). destruct (unit_mul u v); simpl; unfold no_rt in *; congruence.
  - destruct (ueval t a) as [[x|u]|]; simpl; try exact IHa;
      destruct (ueval t b) as [[y|v]|]; simpl; try exact IHb.
    + destruct (Qeq_bool y 0); unfold no_rt; discriminate.
    + destruct (unit_ops_no_rt v v x 0) as (_ & _ & _ & _ & H & _). destruct (unit_rdiv_num x v); simpl; unfold no_rt in *; congruence.
    + destruct (unit_ops_no_rt u u y 0) as (_ & _ & _ & H & _). destruct (unit_div_num u y); simpl; unfold no_rt in *; congruence.
    + destruct (unit_ops_no_rt u v 0 0) as (_ & _ & H & _). destruct (unit_div u v); simpl; unfold no_rt in *; congruence.
  - destruct (ueval t a) as [[x|u]|]; simpl; try exact IHa.
    + destruct (Qeq_bool x 0 && (k <? 0)%Z); unfold no_rt; discriminate.
    + destruct (unit_ops_no_rt u u 0 k) as (_ & _ & _ & _ & _ & H). destruct (unit_pow u k); simpl; unfold no_rt in *; congruence.
Qed.

Lemma add_unit_no_rt : forall t n u, no_rt (add_unit t n u).
Proof. intros. unfold add_unit. rt. Qed.

Lemma expand_items_no_rt : forall px items t, no_rt (snd (expand_items px t items)).
Proof.
  intros px. induction items as [|i r IH]; intros t; simpl; [unfold no_rt; discriminate|].
  destruct (expand_item px t i) as [t'|e] eqn:E; [apply IH|]. simpl.
  unfold expand_item in E. unfold no_rt. intros H. injection H as ->. revert E.
  assert (Hb : forall f u, bind (unit_mul_num u f) (fun w => add_unit t i w) <> Err RuntimeError).
  { intros f u. destruct (unit_ops_no_rt u u f 0) as (_ & H & _).
    destruct (unit_mul_num u f); simpl; [apply add_unit_no_rt|unfold no_rt in *; congruence]. }
  destruct (sget t i); [discriminate|].
  destruct (sget px (stake 1 i)); destruct (sget t (sdrop 1 i));
    try (apply Hb); destruct (sget px (stake 2 i)); destruct (sget t (sdrop 2 i));
      try (apply Hb); discriminate.
Qed.

Lemma find_unit_no_rt : forall px s e, no_rt (snd (find_unit px s e)).
Proof.
  intros px s e. unfold find_unit.
  assert (Ha : forall v, no_rt (as_unit v)) by (intros [x|u]; unfold no_rt; discriminate).
  destruct (dget uexpr_eqb (ucache s) e); simpl; [apply Ha|].
  destruct (ueval (utable s) e); simpl; [apply Ha|].
  pose proof (expand_items_no_rt px (unames e) (utable s)) as H.
  destruct (expand_items px (utable s) (unames e)) as [t' r]; simpl in H.
  destruct r as [[]|er]; simpl; [|unfold no_rt in *; congruence].
  pose proof (ueval_no_rt t' e) as H'. destruct (ueval t' e); simpl; [apply Ha|unfold no_rt in *; congruence].
Qed.

Lemma add_def_no_rt : forall px s d, no_rt (snd (add_def px s d)).
Proof.
  intros px s [n e|n b f o]; simpl.
  - unfold add_unit_expr. pose proof (ueval_no_rt (utable s) e) as H.
    destruct (ueval (utable s) e) as [[x|u]|]; simpl; [unfold no_rt; discriminate| |unfold no_rt in *; congruence].
    pose proof (add_unit_no_rt (utable s) n u) as H'. destruct (add_unit (utable s) n u); simpl;
      [unfold no_rt; discriminate|unfold no_rt in *; congruence].
  - unfold add_offset_unit. pose proof (find_unit_no_rt px s b) as H.
    destruct (find_unit px s b) as [s' [u|er]]; simpl in *; [|unfold no_rt in *; congruence].
    pose proof (add_unit_no_rt (utable s') n (mkUnit (factor u * f) (powers u) o)) as H'.
    destruct (add_unit (utable s') n (mkUnit (factor u * f) (powers u) o)); simpl;
      [unfold no_rt; discriminate|unfold no_rt in *; congruence].
Qed.

Lemma lib_pass_no_rt : forall px ds s, no_rt (lib_pass px s ds).
Proof.
  intros px. induction ds as [|d ds IH]; intros s; simpl; [unfold no_rt; discriminate|].
  pose proof (add_def_no_rt px s d) as H. destruct (add_def px s d) as [s1 [[]|er]]; [apply IH|].
  simpl in H. destruct er; try (unfold no_rt in *; congruence).
  pose proof (IH s1) as H1. destruct (lib_pass px s1 ds) as [[s2 r2]|]; simpl; [unfold no_rt; discriminate|].
  unfold no_rt in *; congruence.
Qed.

Lemma lib_retry_no_rt : forall px order fuel last count s retry,
    set_order order ->
    (last = count \/ (count = Z.of_nat (length retry) /\ length retry < fuel)%nat
     \/ (last = -1 /\ count = 0 /\ (length retry < pred fuel)%nat))%Z ->
    no_rt (lib_retry px order fuel last count s retry).
Proof.
  intros px order. induction fuel as [|fuel IH]; intros last count s retry Ho H; simpl.
  - destruct (Z.eqb_spec last count) as [E|E]; simpl.
    + destruct retry; unfold no_rt; discriminate.
    + exfalso. destruct H as [H|[H|H]]; [contradiction|lia|simpl in H; lia].
  - destruct (Z.eqb_spec last count) as [E|E]; simpl.
    + destruct retry; unfold no_rt; discriminate.
    + destruct (length retry =? 0)%nat eqn:E0; simpl.
      * destruct retry; [unfold no_rt; discriminate|simpl in E0; discriminate].
      * pose proof (lib_pass_no_rt px (order fuel retry) s) as Hp.
        destruct (lib_pass px s (order fuel retry)) as [[s1 r1]|er] eqn:E1; simpl;
          [|unfold no_rt in *; congruence].
        apply lib_pass_length in E1. rewrite <- (Permutation_length (Ho fuel retry)) in E1.
        apply IH; [exact Ho|].
        destruct H as [H|[[H1 H2]|[H1 [H2 H3]]]]; [contradiction| |].
        -- destruct (Nat.eq_dec (length r1) (length retry)) as [El|El]; [left; lia|right; left; lia].
        -- right; left. simpl in H3. lia.
Qed.

(** the fuel given to the model of the retry loop is always enough *)
Lemma update_library_terminates : forall px order s ds,
    set_order order -> update_library px order s ds <> Err RuntimeError.
Proof.
  intros px order s ds Ho. unfold update_library.
  pose proof (lib_pass_no_rt px ds s) as Hp.
  destruct (lib_pass px s ds) as [[s1 r1]|er] eqn:E1; cbn [bind]; [|unfold no_rt in *; congruence].
  apply lib_retry_no_rt; [exact Ho|]. apply lib_pass_length in E1. right; right. simpl. lia.
Qed.

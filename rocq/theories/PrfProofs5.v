(** Proofs for PrfProps.v: a clock that does not run backwards; grand totals. *)
From Coq Require Import Permutation Sorted Setoid Lqa.
From Verif Require Import Base BaseFacts PrfModel PrfSpec PrfProofs PrfProofs2 PrfProofs3 PrfProofs4.
Local Open Scope string_scope.
Local Open Scope nat_scope.
Local Open Scope list_scope.

Local Arguments Qplus : simpl never.
Local Arguments Qminus : simpl never.
Local Arguments Qmult : simpl never.
Local Arguments Qeq : simpl never.
Local Arguments Qle : simpl never.
Local Arguments sumq : simpl never.

(** the time of the calls directly within p *)
Definition direct (p : list string) (C : list pcall) : Q := sumq (fun c => if same p (removelast (c_path c)) then (c_elapsed c + c_ovr c)%Q else 0%Q) C.
Lemma timed_le : forall lo p hi, timed lo p hi -> (lo <= hi)%Q.
Proof. intros lo p hi H. induction H; lra. Qed.
Lemma direct_app : forall p C D, (direct p (C ++ D) == direct p C + direct p D)%Q.
Proof. intros. apply sumq_app. Qed.
Lemma direct_none : forall enc q on p, length q < length enc -> (direct q (fst (prof enc on p)) == 0)%Q.
Proof.
  intros enc q on p L. apply sumq_zero. intros c I. destruct (prof_paths _ _ _ _ I) as (n & r & E). destruct (same q (removelast (c_path c))) eqn:S; [|reflexivity]. apply same_iff in S.
  exfalso. apply (f_equal (@length string)) in S. rewrite E, removelast_app in S by discriminate. rewrite app_length in S. lia.
Qed.
Lemma direct_le : forall lo p hi, timed lo p hi -> forall enc on, (direct enc (fst (prof enc on p)) <= hi - lo)%Q.
Proof.
  intros lo p hi H. induction H as [lo hi H|lo t r hi H1 H2 IH|lo t r hi H1 H2 IH|lo n o s b e x r hi H1 H2 H3 IHb H4 IHr]; intros enc on.
  - unfold direct. cbn. rewrite sumq_nil. lra.
  - cbn [prof]. specialize (IH enc true). lra.
  - cbn [prof]. specialize (IH enc false). lra.
  - destruct on.
    + rewrite prof_call_on. cbn [fst]. unfold direct. rewrite sumq_cons. fold (direct enc (fst (prof (enc ++ [n]) true b) ++ fst (prof enc (snd (prof (enc ++ [n]) true b)) r))). rewrite direct_app, direct_none by (rewrite app_length; cbn; lia).
      cbn [c_path c_elapsed c_ovr]. rewrite removelast_last, same_refl. specialize (IHr enc (snd (prof (enc ++ [n]) true b))). lra.
    + rewrite prof_call_off. cbn [fst]. rewrite direct_app. specialize (IHb enc false). specialize (IHr enc (snd (prof enc false b))). lra.
Qed.
Lemma elapsed_app : forall C D p, (elapsed (C ++ D) p == elapsed C p + elapsed D p)%Q.
Proof. intros. apply sumq_app. Qed.
Lemma elapsed_none : forall enc on q p, length q <= length enc -> (elapsed (fst (prof enc on p)) q == 0)%Q.
Proof.
  intros enc on q p L. apply sumq_zero. intros c I. destruct (prof_paths _ _ _ _ I) as (n & r & E). destruct (same q (c_path c)) eqn:S; [|reflexivity]. apply same_iff in S.
  exfalso. apply (f_equal (@length string)) in S. rewrite E, app_length in S. cbn in S. lia.
Qed.
Lemma within : forall lo p hi, timed lo p hi -> forall enc on q, length enc < length q -> (direct q (fst (prof enc on p)) <= elapsed (fst (prof enc on p)) q)%Q.
Proof.
  intros lo p hi H. induction H as [lo hi H|lo t r hi H1 H2 IH|lo t r hi H1 H2 IH|lo n o s b e x r hi H1 H2 H3 IHb H4 IHr]; intros enc on q L.
  - unfold direct, elapsed. cbn. rewrite !sumq_nil. lra.
  - cbn [prof]. exact (IH enc true q L).
  - cbn [prof]. exact (IH enc false q L).
  - destruct on.
    + rewrite prof_call_on. cbn [fst]. set (c0 := mkCall (enc ++ [n]) (e - s) (s - o) x). set (Cb := fst (prof (enc ++ [n]) true b)). set (Cr := fst (prof enc (snd (prof (enc ++ [n]) true b)) r)).
      assert (R : (direct q Cr <= elapsed Cr q)%Q) by (apply IHr; exact L).
      assert (X1 : (direct q (c0 :: Cb ++ Cr) == direct q Cb + direct q Cr)%Q).
      { unfold direct at 1. rewrite sumq_cons. fold (direct q (Cb ++ Cr)). rewrite direct_app. cbn [c0 c_path]. rewrite removelast_last. destruct (same q enc) eqn:S; [apply same_iff in S; subst; lia|ring]. }
      assert (X2 : (elapsed (c0 :: Cb ++ Cr) q == (if same q (enc ++ [n]) then e - s else 0) + elapsed Cb q + elapsed Cr q)%Q).
      { unfold elapsed at 1. rewrite sumq_cons. fold (elapsed (Cb ++ Cr) q). rewrite elapsed_app. cbn [c0 c_path c_elapsed]. ring. }
      rewrite X1, X2. destruct (same q (enc ++ [n])) eqn:S.
      * apply same_iff in S. subst q. assert (Y : (direct (enc ++ [n]) Cb <= e - s)%Q) by (apply direct_le; exact H3). assert (Z : (elapsed Cb (enc ++ [n]) == 0)%Q) by (apply elapsed_none; lia). lra.
      * destruct (Nat.lt_ge_cases (length (enc ++ [n])) (length q)) as [Lq|Lq]; [pose proof (IHb (enc ++ [n]) true q Lq) as Y; fold Cb in Y; lra|].
        assert (Lq' : length q = length (enc ++ [n])) by (rewrite app_length in *; cbn in *; lia).
        assert (Y : (direct q Cb == 0)%Q).
        { apply sumq_zero. intros c I. destruct (prof_paths _ _ _ _ I) as (m & w & E). destruct (same q (removelast (c_path c))) eqn:S'; [|reflexivity]. apply same_iff in S'. exfalso. rewrite E, removelast_app in S' by discriminate.
          assert (U : q = enc ++ [n]) by (rewrite <- (app_nil_r q) in S'; exact (app_front _ _ _ _ S' Lq')). rewrite U, same_refl in S. discriminate. }
        assert (Z : (elapsed Cb q == 0)%Q) by (apply elapsed_none; lia). lra.
    + rewrite prof_call_off. cbn [fst]. rewrite direct_app, elapsed_app. specialize (IHb enc false q L). specialize (IHr enc (snd (prof enc false b)) q L). lra.
Qed.

Lemma app_ext_inj : forall d a b, (a ++ d)%string = (b ++ d)%string -> a = b.
Proof.
  intros d. induction a as [|x a IH]; intros [|y b] E; cbn in E; [reflexivity| | |].
  - apply (f_equal String.length) in E. cbn in E. rewrite app_len in E. lia.
  - apply (f_equal String.length) in E. cbn in E. rewrite app_len in E. lia.
  - injection E as -> E. rewrite (IH b E). reflexivity.
Qed.
Lemma map_inj : forall {A B} (g : A -> B), (forall a b, g a = g b -> a = b) -> forall l m, map g l = map g m -> l = m.
Proof. intros A B g I. induction l as [|a l IH]; intros [|b m] E; try discriminate; [reflexivity|]. cbn in E. injection E as E1 E2. rewrite (I _ _ E1), (IH _ E2). reflexivity. Qed.
Lemma removelast_map : forall {A B} (g : A -> B) l, removelast (map g l) = map g (removelast l).
Proof. intros A B g. induction l as [|a [|b l] IH]; [reflexivity|reflexivity|]. change (removelast (a :: b :: l)) with (a :: removelast (b :: l)). cbn [map]. rewrite <- IH. reflexivity. Qed.
Lemma within_ext : forall many ext C, closed C -> (forall p, p <> [] -> (direct p C <= elapsed C p)%Q) -> forall p, p <> [] -> (direct p (map (with_ext many ext) C) <= elapsed (map (with_ext many ext) C) p)%Q.
Proof.
  intros many ext C Cl H p Np. assert (Id : (forall c, with_ext many ext c = c) \/ exists d, many = true /\ ext = Some d).
  { destruct many; [destruct ext as [d|]|]; [right; exists d; split; reflexivity|left; reflexivity|left; reflexivity]. }
  destruct Id as [Id|(d & -> & ->)].
  - assert (E : map (with_ext many ext) C = C) by (rewrite <- (map_id C) at 2; apply map_ext; exact Id). rewrite E. apply H. exact Np.
  - unfold direct, elapsed. rewrite !sumq_map. cbn [with_ext c_path c_elapsed c_ovr]. set (g := fun n => (n ++ d)%string). assert (Ig : forall a b, g a = g b -> a = b) by (intros a b; apply app_ext_inj).
    destruct (existsb (fun c => same p (removelast (map g (c_path c)))) C) eqn:Ex.
    + apply existsb_exists in Ex. destruct Ex as (c0 & I0 & S0). apply same_iff in S0. rewrite removelast_map in S0. set (q := removelast (c_path c0)) in *. assert (Nq : q <> []) by (intros E; rewrite E in S0; contradiction).
      assert (M : forall w, same p (map g w) = same q w) by (intros w; apply eq_true_iff_eq; rewrite !same_iff, S0; split; [apply map_inj; exact Ig|intros ->; reflexivity]).
      pose proof (H q Nq) as Hq. unfold direct, elapsed in Hq. eapply Qle_trans; [|eapply Qle_trans; [exact Hq|]].
      * apply sumq_le. intros c _. rewrite removelast_map, M. apply Qle_refl.
      * apply sumq_le. intros c _. rewrite M. apply Qle_refl.
    + assert (Z : (sumq (fun c => if same p (removelast (map g (c_path c))) then (c_elapsed c + c_ovr c)%Q else 0%Q) C == 0)%Q).
      { apply sumq_zero. intros c I. destruct (same p (removelast (map g (c_path c)))) eqn:S; [|reflexivity]. exfalso. assert (X : existsb (fun c => same p (removelast (map g (c_path c)))) C = true) by (apply existsb_exists; exists c; split; assumption). congruence. }
      rewrite Z. destruct (existsb (fun c => same p (map g (c_path c))) C) eqn:Ex2.
      * apply existsb_exists in Ex2. destruct Ex2 as (c0 & I0 & S0). apply same_iff in S0. set (q := c_path c0) in *. assert (Nq : q <> []) by (intros E; rewrite E in S0; contradiction).
        assert (M : forall w, same p (map g w) = same q w) by (intros w; apply eq_true_iff_eq; rewrite !same_iff, S0; split; [apply map_inj; exact Ig|intros ->; reflexivity]).
        pose proof (H q Nq) as Hq. unfold direct, elapsed in Hq. eapply Qle_trans; [|eapply Qle_trans; [exact Hq|]].
        -- apply Qle_trans with (y := sumq (fun c => if same p (removelast (map g (c_path c))) then (c_elapsed c + c_ovr c)%Q else 0%Q) C); [rewrite Z; apply Qle_refl|]. apply sumq_le. intros c _. rewrite removelast_map, M. apply Qle_refl.
        -- apply sumq_le. intros c _. rewrite M. apply Qle_refl.
      * assert (Z2 : (sumq (fun c => if same p (map g (c_path c)) then c_elapsed c else 0%Q) C == 0)%Q).
        { apply sumq_zero. intros c I. destruct (same p (map g (c_path c))) eqn:S; [|reflexivity]. exfalso. assert (X : existsb (fun c => same p (map g (c_path c))) C = true) by (apply existsb_exists; exists c; split; assumption). congruence. }
        rewrite Z2. apply Qle_refl.
Qed.
Lemma all_within : forall xs, Forall (fun x => exists lo, timed lo (x_prog x) (x_end x)) xs -> forall p, p <> [] -> (direct p (all_calls xs) <= elapsed (all_calls xs) p)%Q.
Proof.
  intros xs T p Np. unfold all_calls. generalize (1 <? length xs). intros many. induction xs as [|x xs IH]; [unfold direct, elapsed; cbn; rewrite !sumq_nil; apply Qle_refl|]. inversion T; subst. cbn [flat_map]. rewrite direct_app, elapsed_app. apply Qplus_le_compat; [|exact (IH H2)].
  apply within_ext; [| |exact Np].
  - intros q m Nq Cq. unfold calls_of in *. apply (prof_closed _ _ _ q m); [destruct q; [congruence|cbn; lia]|exact Cq].
  - intros q Nq. destruct H1 as (lo & H1). apply (within _ _ _ H1). destruct q; [congruence|cbn; lia].
Qed.

Section Times.
  Variable C : list pcall.
  Hypothesis W : Forall wf_call C.
  Hypothesis Cl : closed C.
  Hypothesis Wi : forall p, p <> [] -> (direct p C <= elapsed C p)%Q.
  Lemma kids_names : forall p ks, kids_ok C p ks -> NoDup (map nm ks) /\ (forall n, In n (map nm ks) <-> called C (p ++ [n])) /\ ks = map (fun n => text (p ++ [n])) (map nm ks).
  Proof.
    intros p ks (Kin & Knd & _). assert (E : ks = map (fun n => text (p ++ [n])) (map nm ks)).
    { rewrite map_map. rewrite <- (map_id ks) at 1. apply map_ext_in. intros k I. apply Kin in I. destruct I as (n & Cn & ->). destruct (nm_snoc C W p n Cn) as [-> _]. reflexivity. }
    split; [|split; [|exact E]].
    - rewrite E in Knd. exact (NoDup_map_inv _ _ Knd).
    - intros n. rewrite in_map_iff. split.
      + intros (k & <- & I). apply Kin in I. destruct I as (m & Cm & ->). destruct (nm_snoc C W p m Cm) as [-> _]. exact Cm.
      + intros Cn. exists (text (p ++ [n])). split; [apply (nm_snoc C W p n Cn)|]. apply Kin. exists n. split; [exact Cn|reflexivity].
  Qed.
  Lemma one_level : forall (g : pcall -> Q) p ns, NoDup ns -> (forall n, In n ns <-> called C (p ++ [n])) ->
      (sumq (fun n => sumq (fun c => if same (p ++ [n]) (c_path c) then g c else 0%Q) C) ns == sumq (fun c => if same p (removelast (c_path c)) then g c else 0%Q) C)%Q.
  Proof.
    intros g p ns ND H. rewrite sumq_swap. apply sumq_ext. intros c Ic. pose proof (proj1 (Forall_forall _ _) W c Ic) as [Nc _]. assert (Ec : c_path c = removelast (c_path c) ++ [last (c_path c) ""]) by (apply app_removelast_last; exact Nc).
    destruct (same p (removelast (c_path c))) eqn:S.
    - apply same_iff in S. rewrite <- S in Ec. rewrite (sumq_one _ (last (c_path c) "") ns ND).
      + rewrite <- Ec, same_refl. reflexivity.
      + apply H. rewrite <- Ec. exists c. split; [exact Ic|reflexivity].
      + intros m _ Nm. destruct (same (p ++ [m]) (c_path c)) eqn:S2; [|reflexivity]. apply same_iff in S2. rewrite Ec in S2. apply app_inj_tail in S2. destruct S2 as [_ S2]. congruence.
    - apply sumq_zero. intros n _. destruct (same (p ++ [n]) (c_path c)) eqn:S2; [|reflexivity]. apply same_iff in S2. rewrite <- S2, removelast_last, same_refl in S. discriminate.
  Qed.
  Lemma kids_le : forall p ns, p <> [] -> NoDup ns -> (forall n, In n ns <-> called C (p ++ [n])) -> (sumq (fun n => time_of C (p ++ [n])) ns <= time_of C p)%Q.
  Proof.
    intros p ns Np ND H. assert (Neg : forall {A} (g h : A -> Q) l, (sumq (fun a => g a - h a) l == sumq g l - sumq h l)%Q) by (intros A g h l; induction l as [|a l IH]; [rewrite !sumq_nil; ring|]; rewrite !sumq_cons, IH; ring).
    unfold time_of. rewrite Neg. unfold elapsed at 1. rewrite (one_level c_elapsed p ns ND H).
    assert (D : (overhead_below C p == sumq (fun c => if same p (removelast (c_path c)) then c_ovr c else 0%Q) C + sumq (fun n => overhead_below C (p ++ [n])) ns)%Q).
    { unfold overhead_below at 1. rewrite <- (partition C Cl c_ovr p ns ND H). rewrite <- (one_level c_ovr p ns ND H), <- sumq_add. apply sumq_ext. intros n _. apply under_sum. }
    pose proof (Wi p Np) as X. assert (Y : (direct p C == sumq (fun c => if same p (removelast (c_path c)) then c_elapsed c else 0%Q) C + sumq (fun c => if same p (removelast (c_path c)) then c_ovr c else 0%Q) C)%Q).
    { unfold direct. rewrite <- sumq_add. apply sumq_ext. intros c _. destruct (same p (removelast (c_path c))); ring. }
    lra.
  Qed.
  Lemma bounded : exists M, forall p, called C p -> length p <= M.
  Proof. exists (list_max (map (fun c => length (c_path c)) C)). intros p (c & I & <-). pose proof (proj1 (list_max_le (map (fun c => length (c_path c)) C) _) (Nat.le_refl _)) as X. exact (proj1 (Forall_forall _ _) X _ (in_map _ _ _ I)). Qed.
  Lemma time_nonneg : (forall p, called C p -> exists ks, kids_ok C p ks) -> forall p, called C p -> (0 <= time_of C p)%Q.
  Proof.
    intros K. destruct bounded as (M & HM). assert (G : forall k p, called C p -> M < length p + k -> (0 <= time_of C p)%Q).
    { induction k as [|k IH]; intros p Cp L; [specialize (HM p Cp); lia|]. destruct (K p Cp) as (ks & Kp). destruct (kids_names p ks Kp) as (ND & In_ & _). destruct (cwf C W p Cp) as [Np _].
      eapply Qle_trans; [|exact (kids_le p _ Np ND In_)]. rewrite <- (sumq_zero (fun _ : string => 0%Q) (map nm ks)) at 1 by reflexivity. apply sumq_le. intros n I. apply IH; [apply In_; exact I|]. rewrite app_length. cbn. lia. }
    intros p Cp. apply (G (S M)); [exact Cp|lia].
  Qed.
End Times.

(** ** Grand totals *)
Definition ginv (l : list (string * (Q * nat))) (d : list (string * (nat * Q))) : Prop :=
  forall m, (sget d m = None <-> ~ exists x, In x l /\ method (fst x) = m) /\
    forall c t, sget d m = Some (c, t) -> (t == sumq (fun x => if is_method m (fst x) then fst (snd x) else 0%Q) l)%Q /\ (qn c == sumq (fun x => if is_method m (fst x) then qn (snd (snd x)) else 0%Q) l)%Q.
Lemma ginv_step : forall l d x, ginv l d -> ginv (l ++ [x]) (add_grand d x).
Proof.
  intros l d x I m. unfold add_grand. fold (method (fst x)).
  assert (Z : sget d m = None -> forall g : string * (Q * nat) -> Q, (sumq (fun x => if is_method m (fst x) then g x else 0%Q) l == 0)%Q).
  { intros N g. apply sumq_zero. intros y Iy. unfold is_method. destruct (String.eqb_spec m (method (fst y))) as [E|]; [|reflexivity]. exfalso. apply (proj1 (proj1 (I m)) N). exists y. split; [exact Iy|congruence]. }
  assert (Ex : (exists y, In y (l ++ [x]) /\ method (fst y) = m) <-> (exists y, In y l /\ method (fst y) = m) \/ method (fst x) = m).
  { split.
    - intros (y & Iy & E). apply in_app_or in Iy. destruct Iy as [Iy|[<-|[]]]; [left; exists y; split; assumption|right; exact E].
    - intros [(y & Iy & E)|E]; [exists y|exists x]; (split; [apply in_or_app|exact E]); [left; exact Iy|right; left; reflexivity]. }
  destruct (match sget d (method (fst x)) with Some ct => ct | None => (0, 0%Q) end) as [c0 t0] eqn:G0. assert (Gm : forall v, sget (sset d (method (fst x)) v) m = if String.eqb m (method (fst x)) then Some v else sget d m) by (intros v; unfold sget, sset; apply (dget_dset String.eqb String.eqb_eq)). rewrite Gm.
  assert (Im : is_method m (fst x) = String.eqb m (method (fst x))) by reflexivity. destruct (String.eqb_spec m (method (fst x))) as [->|Ne].
  - split; [split; [discriminate|intros N; exfalso; apply N; apply Ex; right; reflexivity]|]. intros c t G. injection G as <- <-. rewrite !sumq_app, !sumq_cons, !sumq_nil, Im. destruct (sget d (method (fst x))) as [[c1 t1]|] eqn:G1.
    + injection G0 as -> ->. destruct (proj2 (I (method (fst x))) c0 t0 G1) as [Et Ec]. rewrite qn_add, Et, Ec. split; ring.
    + injection G0 as <- <-. pose proof (Z eq_refl) as Z'. rewrite !Z'. cbn [Nat.add]. split; ring.
  - split.
    + rewrite (proj1 (I m)), Ex. split; [intros N [X|X]; [exact (N X)|apply Ne; symmetry; exact X]|intros N X; apply N; left; exact X].
    + intros c t G. destruct (proj2 (I m) c t G) as [Et Ec]. rewrite !sumq_app, !sumq_cons, !sumq_nil, Im, Et, Ec. split; ring.
Qed.
Lemma ginv_fold : forall k l d, ginv l d -> ginv (l ++ k) (fold_left add_grand k d).
Proof. induction k as [|x k IH]; intros l d I; [rewrite app_nil_r; exact I|]. cbn [fold_left]. specialize (IH (l ++ [x]) (add_grand d x) (ginv_step l d x I)). rewrite <- app_assoc in IH. exact IH. Qed.
Lemma grand_ok : forall l, ginv l (fold_left add_grand l []).
Proof. intros l. apply (ginv_fold l [] []). intros m. split; [|intros c t G; discriminate]. split; [intros _ (x & [] & _)|reflexivity]. Qed.

Lemma tot_sum : forall (F : string -> Q * nat -> Q) (T : list (string * (Q * nat))), NoDup (dkeys T) ->
    (sumq (fun x => F (fst x) (snd x)) T == sumq (fun k => match sget T k with Some v => F k v | None => 0%Q end) (dkeys T))%Q.
Proof.
  intros F. induction T as [|[k v] T IH]; intros ND; [reflexivity|]. unfold dkeys in *. cbn [map fst] in *. inversion ND; subst. rewrite !sumq_cons. cbn [fst snd]. unfold sget at 1. cbn [dget]. rewrite String.eqb_refl, IH by assumption.
  apply Qplus_comp; [reflexivity|]. apply sumq_ext. intros k' I. unfold sget. cbn [dget]. destruct (String.eqb_spec k' k) as [->|]; [contradiction|reflexivity].
Qed.
Section Grand.
  Variable C : list pcall.
  Hypothesis W : Forall wf_call C.
  Hypothesis Cl : closed C.
  Variable N : list string.
  Hypothesis Nd : NoDup N.
  Hypothesis Nin : forall n, In n N <-> exists p, called C p /\ last p "" = n.
  Lemma by_last : forall (f : string -> Q) (g : pcall -> Q), (sumq (fun n => f n * sumq (fun c => if ends_in n (c_path c) then g c else 0%Q) C) N == sumq (fun c => f (last (c_path c) "") * g c) C)%Q.
  Proof.
    intros f g. assert (Sc : forall {A} q (g : A -> Q) l, (q * sumq g l == sumq (fun a => q * g a) l)%Q) by (intros A q g' l; induction l as [|a l IH]; [rewrite !sumq_nil; ring|]; rewrite !sumq_cons, <- IH; ring).
    rewrite (sumq_ext _ (fun n => sumq (fun c => f n * (if ends_in n (c_path c) then g c else 0))%Q C)) by (intros n _; apply Sc). rewrite sumq_swap. apply sumq_ext. intros c Ic. rewrite (sumq_one _ (last (c_path c) "") N Nd).
    - unfold ends_in. rewrite String.eqb_refl. reflexivity.
    - apply Nin. exists (c_path c). split; [exists c; split; [exact Ic|reflexivity]|reflexivity].
    - intros n _ Nn. unfold ends_in. assert (X : String.eqb n (last (c_path c) "") = false) by (apply String.eqb_neq; exact Nn). rewrite X. ring.
  Qed.
  Lemma occs : forall m l, (forall n, In n l -> In n N) -> (sumq (fun n => (if is_method m n then 1 else 0) * qn (count_occ string_dec l n)) N == qn (length (filter (is_method m) l)))%Q.
  Proof.
    intros m. induction l as [|a l IH]; intros H.
    - cbn. apply sumq_zero. intros n _. change (qn 0) with 0%Q. ring.
    - assert (IH' := IH (fun n I => H n (or_intror I))). assert (S : (sumq (fun n => (if is_method m n then 1 else 0) * qn (count_occ string_dec (a :: l) n)) N == sumq (fun n => (if is_method m n then 1 else 0) * qn (count_occ string_dec l n)) N + sumq (fun n => (if is_method m n then 1 else 0) * (if string_dec a n then 1 else 0)) N)%Q).
      { rewrite <- sumq_add. apply sumq_ext. intros n _. cbn [count_occ]. destruct (string_dec a n); [change (S (count_occ string_dec l n)) with (1 + count_occ string_dec l n); rewrite qn_add; change (qn 1) with 1%Q; ring|ring]. }
      rewrite S, IH'. rewrite (sumq_one _ a N Nd (H a (or_introl eq_refl))).
      + destruct (string_dec a a) as [_|X]; [|congruence]. cbn [filter]. destruct (is_method m a); [cbn [length]; change (Datatypes.S (length (filter (is_method m) l))) with (1 + length (filter (is_method m) l)); rewrite qn_add; change (qn 1) with 1%Q; ring|ring].
      + intros b _ Nb. destruct (string_dec a b) as [E|_]; [congruence|ring].
  Qed.
  Lemma enclosing : forall c n, In c C -> In n (removelast (c_path c)) -> In n N.
  Proof.
    intros c n Ic I. apply in_split in I. destruct I as (l1 & l2 & E). apply Nin. exists (l1 ++ [n]). split; [|apply last_last]. pose proof (proj1 (Forall_forall _ _) W c Ic) as [Nc _].
    apply (cprefix C Cl (l2 ++ [last (c_path c) ""])); [destruct l1; discriminate|]. exists c. split; [exact Ic|]. rewrite (app_removelast_last "" Nc) at 1. rewrite E, <- !app_assoc. reflexivity.
  Qed.
  Lemma method_time : forall m, (sumq (fun n => if is_method m n then time_of_name C n else 0%Q) N == time_of_method C m)%Q.
  Proof.
    intros m. set (f := fun n => if is_method m n then 1%Q else 0%Q).
    assert (S : (sumq (fun n => if is_method m n then time_of_name C n else 0%Q) N == sumq (fun n => f n * sumq (fun c => if ends_in n (c_path c) then c_elapsed c else 0%Q) C) N + sumq (fun n => - (f n * sumq (fun c => qn (count_occ string_dec (removelast (c_path c)) n) * c_ovr c) C)) N)%Q).
    { rewrite <- sumq_add. apply sumq_ext. intros n _. unfold f, time_of_name, qn. destruct (is_method m n); ring. }
    assert (Neg : forall {A} (g : A -> Q) l, (sumq (fun a => - g a) l == - sumq g l)%Q) by (intros A g l; induction l as [|a l IH]; [reflexivity|]; rewrite !sumq_cons, IH; ring).
    assert (Sc : forall {A} q (g : A -> Q) l, (q * sumq g l == sumq (fun a => q * g a) l)%Q) by (intros A q g l; induction l as [|a l IH]; [rewrite !sumq_nil; ring|]; rewrite !sumq_cons, <- IH; ring).
    rewrite S, Neg, by_last. unfold time_of_method. apply Qplus_comp; [|apply Qopp_comp].
    - apply sumq_ext. intros c _. unfold f. destruct (is_method m (last (c_path c) "")); ring.
    - rewrite (sumq_ext _ (fun n => sumq (fun c => f n * (qn (count_occ string_dec (removelast (c_path c)) n) * c_ovr c))%Q C)) by (intros n _; apply Sc). rewrite sumq_swap. apply sumq_ext. intros c Ic.
      fold (qn (length (filter (is_method m) (removelast (c_path c))))). rewrite <- (occs m (removelast (c_path c))) by (intros n I; exact (enclosing c n Ic I)). rewrite Qmult_comm, Sc. apply sumq_ext. intros n _. unfold f. ring.
  Qed.
  Lemma method_count : forall m, (sumq (fun n => if is_method m n then qn (number (fun c => ends_in n (c_path c)) C) else 0%Q) N == qn (number (fun c => is_method m (last (c_path c) "")) C))%Q.
  Proof.
    intros m. set (f := fun n => if is_method m n then 1%Q else 0%Q). rewrite number_sum. rewrite (sumq_ext _ (fun n => f n * sumq (fun c => if ends_in n (c_path c) then 1 else 0) C)%Q).
    - rewrite (by_last f (fun _ => 1%Q)). apply sumq_ext. intros c _. unfold f. destruct (is_method m (last (c_path c) "")); ring.
    - intros n _. unfold f. destruct (is_method m n); [rewrite number_sum; ring|ring].
  Qed.
End Grand.

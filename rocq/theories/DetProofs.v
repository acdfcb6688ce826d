(** Determinants over a commutative ring, as far as they are needed to show that a
    square system of equations with a solution for every right hand side has only one. *)
From Verif Require Import Base.
From Coq Require Import Permutation Ring.
Local Open Scope nat_scope.
Local Open Scope list_scope.

Section Det.
  Context {F : Type} (F0 F1 : F) (fadd fmul fsub : F -> F -> F) (fopp : F -> F) (Fth : ring_theory F0 F1 fadd fmul fsub fopp eq).
  Add Ring Fr : Fth.
  Infix "+!" := fadd (at level 50, left associativity).
  Infix "*!" := fmul (at level 40, left associativity).
  Infix "-!" := fsub (at level 50, left associativity).
  Notation vec := (nat -> F).

  Fixpoint alt (f : list vec -> vec -> list vec -> F) (pre cols : list vec) : F :=
    match cols with [] => F0 | c :: t => f pre c t -! alt f (pre ++ [c]) t end.
  (** expansion along the first row *)
  Fixpoint det (rs : list nat) (cols : list vec) : F :=
    match rs with [] => F1 | r :: rs' => alt (fun pre c post => c r *! det rs' (pre ++ post)) [] cols end.

  Lemma alt_zero : forall f cols pre, (forall a c b, cols = a ++ c :: b -> f (pre ++ a) c b = F0) -> alt f pre cols = F0.
  Proof.
    intros f cols. induction cols as [|c t IH]; intros pre H; cbn [alt]; auto.
    pose proof (H [] c t eq_refl) as K. rewrite app_nil_r in K. rewrite K, IH; [ring|].
    intros a d b E. rewrite <- app_assoc. apply H. rewrite E. reflexivity.
  Qed.
  (** the sign of the terms after the first n *)
  Fixpoint sgn (n : nat) (x : F) : F := match n with O => x | S k => fopp (sgn k x) end.
  Lemma sgn_zero : forall n, sgn n F0 = F0. Proof. induction n as [|n IH]; cbn [sgn]; [reflexivity|rewrite IH; ring]. Qed.
  Lemma sgn_add : forall n x y, sgn n (x +! y) = sgn n x +! sgn n y. Proof. induction n as [|n IH]; intros; cbn [sgn]; [reflexivity|rewrite IH; ring]. Qed.
  Lemma sgn_opp : forall n x, sgn n (fopp x) = fopp (sgn n x). Proof. induction n as [|n IH]; intros; cbn [sgn]; [reflexivity|rewrite IH; ring]. Qed.
  Lemma sgn_mul : forall n a x, sgn n (a *! x) = a *! sgn n x. Proof. induction n as [|n IH]; intros; cbn [sgn]; [reflexivity|rewrite IH; ring]. Qed.
  Lemma alt_app : forall f u v pre, alt f pre (u ++ v) = alt (fun a c b => f a c (b ++ v)) pre u +! sgn (length u) (alt f (pre ++ u) v).
  Proof.
    intros f u. induction u as [|c u IH]; intros v pre; cbn [alt app length sgn].
    - rewrite app_nil_r. ring.
    - rewrite IH, <- app_assoc. cbn [app]. ring.
  Qed.

  Definition same (rs : list nat) (a b : list vec) : Prop := Forall2 (fun u v : vec => forall r, In r rs -> u r = v r) a b.
  Lemma det_ext : forall rs a b, same rs a b -> det rs a = det rs b.
  Proof.
    induction rs as [|r rs IH]; intros a b H; cbn [det]; auto.
    assert (G : forall a b pa pb, same (r :: rs) a b -> same (r :: rs) pa pb ->
      alt (fun pre c post => c r *! det rs (pre ++ post)) pa a = alt (fun pre c post => c r *! det rs (pre ++ post)) pb b).
    { clear a b H. intros a b pa pb H. revert pa pb. induction H as [|c d a b E H IHs]; intros pa pb Hp; cbn [alt]; auto.
      rewrite (E r) by (left; reflexivity). rewrite (IH (pa ++ a) (pb ++ b)).
      - rewrite (IHs (pa ++ [c]) (pb ++ [d])); [reflexivity|]. apply Forall2_app; auto.
      - assert (W : forall x y, same (r :: rs) x y -> same rs x y) by (intros x y K; induction K; constructor; auto; intros q Hq; apply H0; right; exact Hq).
        apply Forall2_app; apply W; auto. }
    apply G; auto. constructor.
  Qed.

  (** linear in each column *)
  Lemma det_linear : forall rs pre post u v a b, length rs = S (length pre + length post) ->
    det rs (pre ++ (fun r => a *! u r +! b *! v r) :: post) = a *! det rs (pre ++ u :: post) +! b *! det rs (pre ++ v :: post).
  Proof.
    induction rs as [|r rs IH]; intros pre post u v a b L; [discriminate L|]. cbn [det]. cbn [length] in L. injection L as L.
    rewrite !alt_app. cbn [app alt].
    assert (G1 : forall l, (forall p c q, l = p ++ c :: q ->
        det rs ((p ++ q) ++ (fun r => a *! u r +! b *! v r) :: post) = a *! det rs ((p ++ q) ++ u :: post) +! b *! det rs ((p ++ q) ++ v :: post)) ->
      forall p0 l0, l = p0 ++ l0 ->
      alt (fun p c q => c r *! det rs (p ++ q ++ (fun r => a *! u r +! b *! v r) :: post)) p0 l0 =
      a *! alt (fun p c q => c r *! det rs (p ++ q ++ u :: post)) p0 l0 +! b *! alt (fun p c q => c r *! det rs (p ++ q ++ v :: post)) p0 l0).
    { intros l H p0 l0. revert p0. induction l0 as [|c l0 IHl]; intros p0 E; cbn [alt]; [ring|].
      rewrite (IHl (p0 ++ [c])) by (rewrite <- app_assoc; exact E).
      pose proof (H p0 c l0 E) as K. rewrite <- !app_assoc in K. rewrite K. ring. }
    assert (G2 : forall l, (forall p c q, l = p ++ c :: q ->
        det rs (pre ++ (fun r => a *! u r +! b *! v r) :: p ++ q) = a *! det rs (pre ++ u :: p ++ q) +! b *! det rs (pre ++ v :: p ++ q)) ->
      forall p0 l0, l = p0 ++ l0 ->
      alt (fun p c q => c r *! det rs (p ++ q)) (pre ++ (fun r => a *! u r +! b *! v r) :: p0) l0 =
      a *! alt (fun p c q => c r *! det rs (p ++ q)) (pre ++ u :: p0) l0 +! b *! alt (fun p c q => c r *! det rs (p ++ q)) (pre ++ v :: p0) l0).
    { intros l H p0 l0. revert p0. induction l0 as [|c l0 IHl]; intros p0 E; cbn [alt]; [ring|].
      assert (K := IHl (p0 ++ [c])). rewrite <- app_assoc in K. specialize (K E).
      rewrite <- !app_assoc. cbn [app]. rewrite K.
      rewrite (H p0 c l0 E). ring. }
    rewrite (G1 pre) with (p0 := []) (l0 := pre); [|intros p c q E; apply IH; rewrite L, E, !app_length; cbn [length]; lia|reflexivity].
    rewrite (G2 post) with (p0 := []) (l0 := post); [|intros p c q E; apply IH; rewrite L, E, !app_length; cbn [length]; lia|reflexivity].
    cbn [app].
    match goal with |- _ +! sgn ?n ((_ +! _) *! ?d -! (_ *! ?x +! _ *! ?y)) = _ *! (_ +! sgn _ (?ur *! _ -! _)) +! _ *! (_ +! sgn _ (?vr *! _ -! _)) =>
      replace ((a *! ur +! b *! vr) *! d -! (a *! x +! b *! y)) with (a *! (ur *! d -! x) +! b *! (vr *! d -! y)) by ring end.
    rewrite sgn_add, !sgn_mul. ring.
  Qed.

  (** two equal neighbours *)
  Lemma det_twice : forall rs pre u post, length rs = S (S (length pre + length post)) -> det rs (pre ++ u :: u :: post) = F0.
  Proof.
    induction rs as [|r rs IH]; intros pre u post L; [discriminate L|]. cbn [det]. cbn [length] in L. injection L as L.
    rewrite alt_app. cbn [app alt].
    rewrite alt_zero.
    2:{ intros a c b E. cbn [app] in E. rewrite app_assoc, IH; [ring|]. subst pre. rewrite L, !app_length. cbn [length]. lia. }
    rewrite <- !app_assoc. cbn [app].
    rewrite (alt_zero _ post).
    2:{ intros a c b E. rewrite <- app_assoc. cbn [app]. rewrite <- app_assoc. cbn [app]. rewrite IH; [ring|].
        rewrite L, E, !app_length. cbn [length]. lia. }
    replace (_ -! _) with F0 by ring. rewrite sgn_zero. ring.
  Qed.

  Lemma det_swap : forall rs pre u v post, length rs = S (S (length pre + length post)) ->
    det rs (pre ++ u :: v :: post) = fopp (det rs (pre ++ v :: u :: post)).
  Proof.
    intros rs pre u v post L.
    set (w := fun r => F1 *! u r +! F1 *! v r).
    assert (E : det rs (pre ++ w :: w :: post) = F0) by (apply det_twice; exact L).
    unfold w in E at 1. rewrite det_linear in E by (cbn [length]; lia).
    assert (S1 : forall x, det rs (pre ++ x :: w :: post) = F1 *! det rs (pre ++ x :: u :: post) +! F1 *! det rs (pre ++ x :: v :: post)).
    { intros x. change (pre ++ x :: w :: post) with (pre ++ [x] ++ w :: post). rewrite app_assoc. unfold w.
      rewrite det_linear by (rewrite app_length; cbn [length]; lia). rewrite <- !app_assoc. reflexivity. }
    rewrite !S1, !det_twice in E by exact L.
    transitivity (det rs (pre ++ u :: v :: post) -! (F1 *! (F1 *! F0 +! F1 *! det rs (pre ++ u :: v :: post)) +! F1 *! (F1 *! det rs (pre ++ v :: u :: post) +! F1 *! F0))); [rewrite E; ring|ring].
  Qed.

  (** two equal columns *)
  Lemma det_repeat : forall rs mid pre u post, length rs = S (S (length pre + length mid + length post)) -> det rs (pre ++ u :: mid ++ u :: post) = F0.
  Proof.
    intros rs mid. induction mid as [|c mid IH]; intros pre u post L.
    - apply det_twice. cbn [length] in L. lia.
    - cbn [app]. rewrite det_swap by (rewrite app_length; cbn [length] in L |- *; lia).
      change (pre ++ c :: u :: mid ++ u :: post) with (pre ++ [c] ++ u :: mid ++ u :: post). rewrite app_assoc, IH; [ring|].
      rewrite app_length. cbn [length] in L |- *. lia.
  Qed.

  (** a column that is a combination of others *)
  Definition combo (xs : list (F * vec)) : vec := fun r => fold_right (fun p acc => fst p *! snd p r +! acc) F0 xs.
  Lemma det_zero_col : forall rs pre post, length rs = S (length pre + length post) -> det rs (pre ++ (fun _ => F0) :: post) = F0.
  Proof.
    intros rs pre post L.
    assert (E := det_linear rs pre post (fun _ => F0) (fun _ => F0) F0 F0 L).
    erewrite det_ext; [rewrite E; ring|].
    apply Forall2_app; [|constructor].
    - clear. induction pre; constructor; auto.
    - intros r _. ring.
    - clear. induction post; constructor; auto.
  Qed.
  Lemma det_combo : forall rs pre post xs, length rs = S (length pre + length post) ->
    det rs (pre ++ combo xs :: post) = fold_right (fun p acc => fst p *! det rs (pre ++ snd p :: post) +! acc) F0 xs.
  Proof.
    intros rs pre post xs L. induction xs as [|[x v] xs IH]; cbn [fold_right fst snd].
    - unfold combo. cbn [fold_right]. apply det_zero_col. exact L.
    - transitivity (det rs (pre ++ (fun r => x *! v r +! F1 *! combo xs r) :: post)).
      + apply det_ext. apply Forall2_app; [|constructor].
        * clear. induction pre; constructor; auto.
        * intros r _. unfold combo. cbn [fold_right fst snd]. ring.
        * clear. induction post; constructor; auto.
      + rewrite det_linear by exact L. rewrite IH. ring.
  Qed.

  (** the identity *)
  Definition unit (k : nat) : vec := fun r => if r =? k then F1 else F0.
  Lemma det_unit : forall rs, NoDup rs -> det rs (map unit rs) = F1.
  Proof.
    induction rs as [|r rs IH]; intros H; cbn [det map]; auto. inversion H as [|? ? Hn Hd]; subst. cbn [alt app].
    rewrite alt_zero.
    - rewrite IH by exact Hd. unfold unit. rewrite Nat.eqb_refl. ring.
    - intros a c b E. assert (Hc : In c (map unit rs)) by (rewrite E; apply in_or_app; right; left; reflexivity).
      apply in_map_iff in Hc. destruct Hc as [k [<- Hk]]. unfold unit at 1. destruct (Nat.eqb_spec r k); [subst; contradiction|ring].
  Qed.

  (** columns of a matrix, in any order, with or without repetition *)
  Variable A : nat -> vec.       (* A c: column c *)
  Lemma det_perm : forall rs cs cs', Permutation cs cs' -> forall pre post, length rs = length pre + length cs + length post ->
    exists q, det rs (pre ++ map A cs ++ post) = q *! det rs (pre ++ map A cs' ++ post).
  Proof.
    intros rs cs cs' H. induction H as [|c cs cs' H IH|c d cs|cs cs1 cs2 H1 IH1 H2 IH2]; intros pre post L.
    - exists F1. ring.
    - destruct (IH (pre ++ [A c]) post) as [q E]; [rewrite app_length; cbn [length] in *; lia|].
      exists q. rewrite <- !app_assoc in E. exact E.
    - exists (fopp F1). cbn [map app]. rewrite det_swap by (rewrite app_length, map_length; cbn [length] in *; lia). ring.
    - destruct (IH1 pre post L) as [q1 E1]. destruct (IH2 pre post) as [q2 E2]; [rewrite <- (Permutation_length H1); exact L|].
      exists (q1 *! q2). rewrite E1, E2. ring.
  Qed.
  Lemma repeats : forall cs : list nat, ~ NoDup cs -> exists a c b d, cs = a ++ c :: b ++ c :: d.
  Proof.
    induction cs as [|c cs IH]; intros H; [exfalso; apply H; constructor|].
    destruct (in_dec Nat.eq_dec c cs) as [Hi|Hn].
    - apply in_split in Hi. destruct Hi as [b [d ->]]. exists [], c, b, d. reflexivity.
    - destruct IH as (a & x & b & d & ->); [intros N; apply H; constructor; auto|]. exists (c :: a), x, b, d. reflexivity.
  Qed.
  Lemma det_columns : forall rs cs, NoDup rs -> incl cs rs -> length cs = length rs -> exists q, det rs (map A cs) = q *! det rs (map A rs).
  Proof.
    intros rs cs Hd Hi Hl. destruct (ListDec.NoDup_dec Nat.eq_dec cs) as [N|N].
    - assert (P : Permutation cs rs) by (apply NoDup_Permutation_bis; auto; lia).
      destruct (det_perm rs cs rs P [] []) as [q E]; [cbn [length]; lia|]. rewrite !app_nil_r in E. exists q. exact E.
    - destruct (repeats cs N) as (a & c & b & d & ->). exists F0. rewrite !map_app. cbn [map]. rewrite map_app. cbn [map]. rewrite det_repeat; [ring|].
      rewrite !map_length. rewrite <- Hl, !app_length. cbn [length]. rewrite app_length. cbn [length]. lia.
  Qed.
  Lemma det_span : forall rs ws cs, NoDup rs -> incl cs rs -> length cs + length ws = length rs ->
    Forall (fun w => exists p : nat -> F, w = combo (map (fun k => (p k, A k)) rs)) ws ->
    exists q, det rs (map A cs ++ ws) = q *! det rs (map A rs).
  Proof.
    intros rs ws. induction ws as [|w ws IH]; intros cs Hd Hi Hl Hw.
    - rewrite app_nil_r. apply det_columns; auto. cbn [length] in Hl. lia.
    - inversion Hw as [|? ? [p ->] Hw']; subst. cbn [length] in Hl.
      rewrite det_combo by (rewrite map_length; lia).
      assert (G : forall l, incl l rs -> exists q,
        fold_right (fun p acc => fst p *! det rs (map A cs ++ snd p :: ws) +! acc) F0 (map (fun k => (p k, A k)) l) = q *! det rs (map A rs)).
      { induction l as [|k l IHl]; intros Hl'; cbn [map fold_right fst snd].
        - exists F0. ring.
        - destruct IHl as [q E]; [intros x Hx; apply Hl'; right; exact Hx|].
          destruct (IH (cs ++ [k])) as [q' E']; auto.
          + intros x Hx. apply in_app_or in Hx. destruct Hx as [Hx|[<-|[]]]; [apply Hi; exact Hx|apply Hl'; left; reflexivity].
          + rewrite app_length. cbn [length]. lia.
          + rewrite map_app, <- app_assoc in E'. cbn [map app] in E'. exists (p k *! q' +! q). rewrite E, E'. ring. }
      apply G. apply incl_refl.
  Qed.

  (** a square system with a solution for every right hand side has only one *)
  Theorem onto_unique : forall rs, NoDup rs ->
    (forall b : vec, exists x, forall r, In r rs -> combo (map (fun c => (x c, A c)) rs) r = b r) ->
    forall x, (forall r, In r rs -> combo (map (fun c => (x c, A c)) rs) r = F0) -> forall j, In j rs -> x j = F0.
  Proof.
    intros rs Hd Hs x Hx j Hj.
    assert (Hu : exists q, F1 = q *! det rs (map A rs)).
    { assert (Hws : exists ws, same rs ws (map unit rs) /\ Forall (fun w => exists p : nat -> F, w = combo (map (fun k => (p k, A k)) rs)) ws).
      { assert (G : forall l, exists ws, same rs ws (map unit l) /\ Forall (fun w => exists p : nat -> F, w = combo (map (fun k => (p k, A k)) rs)) ws).
        { induction l as [|k l [ws [H1 H2]]]; [exists []; split; constructor|].
          destruct (Hs (unit k)) as [p Hp]. exists (combo (map (fun c => (p c, A c)) rs) :: ws). split; constructor; auto. exists p. reflexivity. }
        apply G. }
      destruct Hws as [ws [H1 H2]]. destruct (det_span rs ws [] Hd) as [q E]; auto.
      - intros y [].
      - cbn [length]. rewrite <- (map_length unit rs). clear -H1. unfold same in H1. revert H1. generalize (map unit rs). intros l H1. cbn [Nat.add length]. revert H1. generalize rs at 1. intros rs0 H1. induction H1; cbn [length]; congruence.
      - exists q. rewrite <- E. cbn [map app]. rewrite (det_ext rs ws (map unit rs) H1). symmetry. apply det_unit. exact Hd. }
    destruct Hu as [q Hq].
    destruct (in_split j rs Hj) as [a [b Es]].
    assert (Z : x j *! det rs (map A rs) = F0).
    { assert (E0 : det rs (map A a ++ combo (map (fun c => (x c, A c)) rs) :: map A b) = F0).
      { erewrite det_ext; [apply (det_zero_col rs (map A a) (map A b))|].
        - rewrite !map_length. rewrite Es at 1. rewrite app_length. cbn [length]. lia.
        - apply Forall2_app; [|constructor]; [|exact Hx|]; clear; [induction a|induction b]; constructor; auto. }
      rewrite det_combo in E0 by (rewrite !map_length; rewrite Es at 1; rewrite app_length; cbn [length]; lia).
      rewrite <- E0. clear E0.
      assert (L : length rs = S (length (map A a) + length (map A b))) by (rewrite !map_length, Es, app_length; cbn [length]; lia).
      assert (Hj' : ~ In j (a ++ b)) by (rewrite Es in Hd; apply NoDup_remove_2 in Hd; exact Hd).
      assert (N : forall l, incl l (a ++ b) -> fold_right (fun p acc => fst p *! det rs (map A a ++ snd p :: map A b) +! acc) F0 (map (fun c => (x c, A c)) l) = F0).
      { induction l as [|k l IHl]; intros Hl; cbn [map fold_right fst snd]; auto.
        rewrite IHl by (intros y Hy; apply Hl; right; exact Hy).
        assert (Zk : det rs (map A a ++ A k :: map A b) = F0).
        { pose proof (Hl k (or_introl eq_refl)) as Hk. apply in_app_or in Hk. destruct Hk as [Hk|Hk]; apply in_split in Hk; destruct Hk as [u [v ->]].
          - rewrite map_app. cbn [map]. rewrite <- app_assoc. cbn [app]. apply det_repeat. rewrite L, !map_length, !app_length. cbn [length]. lia.
          - rewrite map_app. cbn [map]. rewrite det_repeat; [reflexivity|]. rewrite L, !map_length, !app_length. cbn [length]. lia. }
        rewrite Zk. ring. }
      assert (Fa : forall l1 l2, fold_right (fun p acc => fst p *! det rs (map A a ++ snd p :: map A b) +! acc) F0 (map (fun c => (x c, A c)) (l1 ++ l2)) =
        fold_right (fun p acc => fst p *! det rs (map A a ++ snd p :: map A b) +! acc) F0 (map (fun c => (x c, A c)) l1) +!
        fold_right (fun p acc => fst p *! det rs (map A a ++ snd p :: map A b) +! acc) F0 (map (fun c => (x c, A c)) l2)).
      { induction l1 as [|k l1 IHl]; intros l2; cbn [app map fold_right fst snd]; [ring|rewrite IHl; ring]. }
      rewrite Es at 3. rewrite Fa. rewrite (N a) by (intros y Hy; apply in_or_app; left; exact Hy).
      change (j :: b) with ([j] ++ b). rewrite Fa, (N b) by (intros y Hy; apply in_or_app; right; exact Hy).
      cbn [map fold_right fst snd]. rewrite Es at 2. rewrite map_app. cbn [map]. ring. }
    transitivity (x j *! (q *! det rs (map A rs))); [rewrite <- Hq; ring|].
    transitivity (q *! (x j *! det rs (map A rs))); [ring|rewrite Z; ring].
  Qed.
End Det.

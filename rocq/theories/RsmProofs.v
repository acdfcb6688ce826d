(** Lemmas about the response surface. *)
From Verif Require Import Base RsmModel RsmSpec.
From Coq Require Import Ring Ring_theory.
Local Open Scope nat_scope.
Local Open Scope list_scope.

Section Facts.
  Context {F : Type} (F0 F1 : F) (fadd fmul fsub : F -> F -> F) (fopp : F -> F).
  Hypothesis RT : ring_theory F0 F1 fadd fmul fsub fopp (@eq F).
  Add Ring Fring : RT.
  Infix "+!" := fadd (at level 50, left associativity).
  Infix "*!" := fmul (at level 40, left associativity).
  Notation inner := (inner F0 fadd fmul).
  Notation move := (move fadd fmul).
  Notation scale := (scale fmul).
  Notation addv := (addv fadd).
  Notation vdot := (vdot F0 fadd fmul).

  Fixpoint quad (x : list F) : list F := match x with [] => [] | a :: r => scale a x ++ quad r end.
  Fixpoint tri (n : nat) : nat := match n with 0 => 0 | S m => S m + tri m end.
  Lemma quad_length : forall x, length (quad x) = tri (length x).
  Proof. induction x as [|a r IH]; [reflexivity|]. cbn [quad length tri]. rewrite app_length. unfold RsmModel.scale. rewrite map_length, IH. reflexivity. Qed.
  Lemma tri_double : forall n, 2 * tri n = n * (n + 1).
  Proof. induction n as [|n IH]; [reflexivity|]. cbn [tri]. nia. Qed.
  Lemma tri_total : forall n, ((n + 1) * (n + 2)) / 2 = 1 + n + tri n.
  Proof. intros n. assert (T := tri_double n). symmetry. apply (Nat.div_unique _ _ _ 0); [lia|]. nia. Qed.
  Lemma put_fits : forall (a v : list F) off, off + length v <= length a -> put a off (length v) v = Ok (firstn off a ++ v ++ skipn (off + length v) a).
  Proof. intros a v off L. unfold put. rewrite Nat.min_l by lia. rewrite Nat.eqb_refl. reflexivity. Qed.
  Lemma quad_loop_ok : forall x off X, off + tri (length x) <= length X -> quad_loop fmul x off X = Ok (firstn off X ++ quad x ++ skipn (off + tri (length x)) X).
  Proof.
    induction x as [|a r IH]; intros off X L; cbn [quad_loop quad length tri] in *.
    - rewrite Nat.add_0_r. cbn. rewrite firstn_skipn. reflexivity.
    - assert (LS : length (scale a (a :: r)) = S (length r)) by (unfold RsmModel.scale; rewrite map_length; reflexivity).
      rewrite <- LS. rewrite put_fits by lia. cbn [bind]. rewrite LS.
      set (v := scale a (a :: r)) in *.
      assert (LF : length (firstn off X) = off) by (rewrite firstn_length; lia).
      rewrite IH by (rewrite !app_length, skipn_length; lia).
      replace (firstn (off + S (length r)) (firstn off X ++ v ++ skipn (off + S (length r)) X)) with (firstn off X ++ v).
      2: { rewrite app_assoc. rewrite firstn_app. rewrite (firstn_all2 (firstn off X ++ v)) by (rewrite app_length; lia). replace (off + S (length r) - length (firstn off X ++ v)) with 0 by (rewrite app_length; lia). rewrite app_nil_r. reflexivity. }
      replace (skipn (off + S (length r) + tri (length r)) (firstn off X ++ v ++ skipn (off + S (length r)) X)) with (skipn (off + (S (length r) + tri (length r))) X).
      2: { rewrite app_assoc. rewrite skipn_app. rewrite (skipn_all2 (firstn off X ++ v)) by (rewrite app_length; lia). cbn [app]. rewrite app_length, LF, LS.
           assert (SK : forall (l : list F) p q, skipn p (skipn q l) = skipn (q + p) l). { induction l as [|y l IHl]; intros p [|q]; cbn; try reflexivity; [rewrite !skipn_nil; reflexivity|]. apply IHl. }
           rewrite SK. f_equal. lia. }
      rewrite <- !app_assoc. reflexivity.
  Qed.
  Lemma row_ok : forall n x, length x = n -> row_of F0 F1 fmul n x = Ok (F1 :: x ++ quad x).
  Proof.
    intros n x L. unfold row_of. rewrite tri_total. rewrite (put_fits _ [F1] 0) by (cbn; rewrite repeat_length; lia). cbn [bind firstn app length Nat.add].
    replace (skipn 1 (repeat F0 (S (n + tri n)))) with (repeat F0 (n + tri n)) by reflexivity.
    rewrite put_fits by (cbn [length]; rewrite repeat_length; lia). cbn [bind firstn app].
    replace (skipn (1 + length x) (F1 :: repeat F0 (n + tri n))) with (repeat F0 (tri n)).
    2: { cbn [Nat.add skipn]. rewrite L. clear. induction n as [|n IH]; cbn [Nat.add repeat skipn]; [reflexivity|]. assert (G : forall p m, skipn p (repeat F0 (p + m)) = repeat F0 m) by (induction p; intros; cbn; auto). symmetry. apply (G n). }
    rewrite quad_loop_ok by (cbn [length]; rewrite app_length, repeat_length, L; lia).
    replace (length x + 1) with (S (length x)) by lia. cbn [firstn]. rewrite firstn_app, firstn_all, Nat.sub_diag. cbn [firstn]. rewrite app_nil_r.
    rewrite skipn_all2 by (cbn [length]; rewrite app_length, repeat_length; rewrite L; lia). rewrite app_nil_r. reflexivity.
  Qed.
  (** the terms of the specification *)
  Lemma quad_terms : forall x pre, quad x = flat_map (fun i => map (fun j => fmul (nth i (pre ++ x) F0) (nth j (pre ++ x) F0)) (seq i (length (pre ++ x) - i))) (seq (length pre) (length x)).
  Proof.
    induction x as [|a r IH]; intros pre; [reflexivity|]. cbn [quad length seq flat_map]. f_equal.
    - replace (length (pre ++ a :: r) - length pre) with (length (a :: r)) by (rewrite app_length; lia).
      rewrite app_nth2 by lia. rewrite Nat.sub_diag. unfold RsmModel.scale. cbn [nth].
      generalize (a :: r) as l. intros l. revert pre. induction l as [|b l IHl]; intros pre; [reflexivity|]. cbn [map length seq]. rewrite app_nth2 by lia. rewrite Nat.sub_diag. cbn [nth]. f_equal.
      replace (pre ++ b :: l) with ((pre ++ [b]) ++ l) by (rewrite <- app_assoc; reflexivity). rewrite (IHl (pre ++ [b])). replace (length (pre ++ [b])) with (S (length pre)) by (rewrite app_length; cbn; lia). reflexivity.
    - replace (pre ++ a :: r) with ((pre ++ [a]) ++ r) by (rewrite <- app_assoc; reflexivity). rewrite (IH (pre ++ [a])). replace (length (pre ++ [a])) with (S (length pre)) by (rewrite app_length; cbn; lia). reflexivity.
  Qed.
  Lemma terms_quad : forall x, terms F0 F1 fmul x = F1 :: x ++ quad x.
  Proof. intros x. unfold terms. rewrite (quad_terms x []). reflexivity. Qed.

  (** columns *)
  Definition col (c : nat) (M : list (list F)) : list F := map (fun r => nth c r F0) M.
  Definition wide (k : nat) (M : list (list F)) : Prop := forall r, In r M -> length r = k.
  Lemma addv_length : forall a b, length a = length b -> length (addv a b) = length a.
  Proof. intros a b E. unfold RsmModel.addv. rewrite map_length, combine_length. lia. Qed.
  Lemma scale_length : forall c a, length (scale c a) = length a.
  Proof. intros. apply map_length. Qed.
  Lemma addv_nth : forall a b c, length a = length b -> nth c (addv a b) F0 = nth c a F0 +! nth c b F0.
  Proof.
    induction a as [|x a IH]; intros [|y b] [|c] E; try discriminate; unfold RsmModel.addv in *; cbn; try ring. apply IH. injection E as E. exact E.
  Qed.
  Lemma scale_nth : forall c a i, nth i (scale c a) F0 = c *! nth i a F0.
  Proof. intros c. induction a as [|x a IH]; intros [|i]; cbn; try ring. apply IH. Qed.
  Lemma vdot_length : forall k v M, wide k M -> length (vdot k v M) = k.
  Proof. intros k. induction v as [|c v IH]; intros [|r M] W; cbn; try apply repeat_length. assert (R : length r = k) by (apply W; left; reflexivity). assert (I : length (vdot k v M) = k) by (apply IH; intros r' I; apply W; right; exact I). rewrite addv_length; rewrite scale_length; lia. Qed.
  Lemma nth_zero : forall k c, nth c (repeat F0 k) F0 = F0.
  Proof. induction k as [|k IH]; intros [|c]; cbn; auto. Qed.
  Lemma vdot_col : forall k c v M, wide k M -> nth c (vdot k v M) F0 = inner v (col c M).
  Proof.
    intros k c. induction v as [|a v IH]; intros [|r M] W; cbn; try apply nth_zero. assert (R : length r = k) by (apply W; left; reflexivity). assert (WM : wide k M) by (intros r' I; apply W; right; exact I).
    rewrite addv_nth by (rewrite scale_length, vdot_length by exact WM; exact R). rewrite scale_nth, IH by exact WM. reflexivity.
  Qed.
  Lemma wide_firstn : forall k n M, wide k M -> wide k (firstn n M).
  Proof. intros k n M W r I. apply W. rewrite <- (firstn_skipn n M). apply in_or_app. left. exact I. Qed.
  Lemma wide_skipn : forall k n M, wide k M -> wide k (skipn n M).
  Proof. intros k n M W r I. apply W. rewrite <- (firstn_skipn n M). apply in_or_app. right. exact I. Qed.

  (** linearize for one column *)
  Fixpoint lin1 (x jac beta : list F) : list F :=
    match x, jac with
    | xi :: r, ji :: js =>
        let b := firstn (length x) beta in
        match addv ((ji +! inner x b) :: js) (scale xi b) with
        | j :: js' => j :: lin1 r js' (skipn (length x) beta)
        | [] => []
        end
    | _, _ => jac
    end.
  Definition upd (xi : F) (M b : list (list F)) : list (list F) := map (fun p => addv (fst p) (scale xi (snd p))) (combine M b).
  Lemma upd_wide : forall xi k M b, wide k M -> wide k b -> wide k (upd xi M b).
  Proof.
    intros xi k. induction M as [|r M IH]; intros [|s b] W W' q I; try (cbn in I; contradiction). destruct I as [<- |I].
    - cbn [fst snd]. rewrite addv_length; [apply W; left; reflexivity|]. rewrite scale_length, (W r), (W' s); [reflexivity|left; reflexivity|left; reflexivity].
    - apply (IH b); [| |exact I]; intros z Iz; [apply W|apply W']; right; exact Iz.
  Qed.
  Lemma upd_col : forall xi k c M b, wide k M -> wide k b -> col c (upd xi M b) = addv (col c M) (scale xi (col c b)).
  Proof.
    intros xi k c. induction M as [|r M IH]; intros [|s b] W W'; try reflexivity.
    unfold upd, col, RsmModel.addv, RsmModel.scale in *. cbn [combine map fst snd]. f_equal.
    - change (map (fun p : F * F => fst p +! snd p) (combine r (map (fmul xi) s))) with (addv r (scale xi s)). rewrite addv_nth, scale_nth; [reflexivity|]. rewrite scale_length, (W r), (W' s); [reflexivity|left; reflexivity|left; reflexivity].
    - apply IH; intros z Iz; [apply W|apply W']; right; exact Iz.
  Qed.
  Lemma upd_length : forall xi M b, length (upd xi M b) = Nat.min (length M) (length b).
  Proof. intros. unfold upd. rewrite map_length, combine_length. reflexivity. Qed.
  Lemma col_length : forall c M, length (col c M) = length M.
  Proof. intros. apply map_length. Qed.
  Notation lin_loop := (lin_loop F0 fadd fmul).
  Lemma lin_col : forall k c x jac beta, wide k jac -> wide k beta -> length jac = length x -> tri (length x) <= length beta ->
      col c (lin_loop k x jac beta) = lin1 x (col c jac) (col c beta) /\ wide k (lin_loop k x jac beta) /\ length (lin_loop k x jac beta) = length x.
  Proof.
    intros k c. induction x as [|xi r IH]; intros [|ji js] beta W W' L T; try discriminate; [cbn; auto|].
    cbn [length tri] in *. cbn [RsmModel.lin_loop].
    set (b := firstn (length (xi :: r)) beta). set (M := addv ji (vdot k (xi :: r) b) :: js). change (map (fun p => addv (fst p) (scale xi (snd p))) (combine M b)) with (upd xi M b).
    assert (Wb : wide k b) by (apply wide_firstn; exact W'). assert (WM : wide k M). { intros q [<- |I]; [|apply W; right; exact I]. rewrite addv_length; [apply W; left; reflexivity|]. rewrite vdot_length by exact Wb. apply W. left. reflexivity. }
    assert (Lb : length b = S (length r)) by (unfold b; rewrite firstn_length; cbn [length]; lia).
    assert (C := upd_col xi k c M b WM Wb). assert (U := upd_wide xi k M b WM Wb). assert (UL := upd_length xi M b). rewrite Lb in UL. unfold M at 2 in UL. cbn [length] in UL.
    destruct (upd xi M b) as [|j js'] eqn:E; [cbn in UL; lia|].
    assert (Lj : length js' = length r) by (cbn [length] in UL; injection L as L; lia).
    destruct (IH js' (skipn (length (xi :: r)) beta)) as (I1 & I2 & I3); [intros q Iq; apply U; right; exact Iq|apply wide_skipn; exact W'|exact Lj|rewrite skipn_length; cbn [length]; lia|].
    split; [|split].
    - change (col c (ji :: js)) with (nth c ji F0 :: col c js). cbn [lin1].
      assert (Eb : firstn (length (xi :: r)) (col c beta) = col c b) by (unfold b, col; rewrite firstn_map; reflexivity).
      rewrite Eb. rewrite <- (vdot_col k c (xi :: r) b Wb). rewrite <- addv_nth by (rewrite vdot_length by exact Wb; apply W; left; reflexivity).
      change (nth c (addv ji (vdot k (xi :: r) b)) F0 :: col c js) with (col c M). rewrite <- C. change (col c (j :: js')) with (nth c j F0 :: col c js'). change (col c (j :: lin_loop k r js' (skipn (length (xi :: r)) beta))) with (nth c j F0 :: col c (lin_loop k r js' (skipn (length (xi :: r)) beta))). rewrite I1. unfold col. rewrite skipn_map. reflexivity.
    - intros q [<- |Iq]; [apply U; left; reflexivity|apply I2; exact Iq].
    - change (S (length (lin_loop k r js' (skipn (length (xi :: r)) beta))) = S (length r)). rewrite I3. reflexivity.
  Qed.

  (** the bilinear part *)
  Fixpoint bil (x d beta : list F) : F :=
    match x, d with
    | a :: r, b :: d' => let B := firstn (length x) beta in b *! inner x B +! a *! inner B d +! bil r d' (skipn (length x) beta)
    | _, _ => F0
    end.
  Lemma inner_addv : forall a b d, length a = length b -> inner (addv a b) d = inner a d +! inner b d.
  Proof. induction a as [|x a IH]; intros [|y b] [|z d] E; try discriminate; unfold RsmModel.addv in *; cbn; try ring. rewrite IH by (injection E as E; exact E). ring. Qed.
  Lemma inner_scale : forall c a d, inner (scale c a) d = c *! inner a d.
  Proof. intros c. induction a as [|x a IH]; intros [|z d]; cbn; try ring. change (map (fmul c) a) with (scale c a). rewrite IH. ring. Qed.
  Lemma inner_nil : forall d, inner d [] = F0. Proof. intros [|]; reflexivity. Qed.
  Lemma inner_app : forall a b beta, inner (a ++ b) beta = inner a (firstn (length a) beta) +! inner b (skipn (length a) beta).
  Proof. induction a as [|x a IH]; intros b beta; cbn [app length firstn skipn]; [cbn; ring|]. destruct beta as [|y beta]; cbn; [destruct b; cbn; ring|]. rewrite IH. ring. Qed.
  Lemma inner_comm : forall a b, inner a b = inner b a.
  Proof. induction a as [|x a IH]; intros [|y b]; cbn; try ring. rewrite IH. ring. Qed.
  Lemma lin1_inner : forall x jac beta d, length jac = length x -> length d = length x -> tri (length x) <= length beta ->
      inner (lin1 x jac beta) d = inner jac d +! bil x d beta /\ length (lin1 x jac beta) = length x.
  Proof.
    induction x as [|a r IH]; intros [|j js] beta d L Ld T; try discriminate; [cbn; split; [ring|reflexivity]|]. destruct d as [|b d]; [discriminate|]. cbn [length tri] in *.
    cbn [lin1 bil]. set (B := firstn (length (a :: r)) beta).
    assert (LB : length B = S (length r)) by (unfold B; rewrite firstn_length; cbn [length]; lia).
    assert (AL : length (addv ((j +! inner (a :: r) B) :: js) (scale a B)) = S (length r)) by (rewrite addv_length; cbn [length]; [lia|rewrite scale_length; lia]).
    assert (AI := inner_addv ((j +! inner (a :: r) B) :: js) (scale a B) (b :: d)). rewrite inner_scale in AI.
    destruct (addv ((j +! inner (a :: r) B) :: js) (scale a B)) as [|j' js'] eqn:E; [discriminate|]. specialize (AI ltac:(rewrite scale_length; cbn [length]; lia)).
    destruct (IH js' (skipn (length (a :: r)) beta) d) as (I1 & I2); [cbn [length] in AL; lia|lia|rewrite skipn_length; cbn [length]; lia|].
    split; [|change (S (length (lin1 r js' (skipn (length (a :: r)) beta))) = S (length r)); rewrite I2; reflexivity].
    change (inner (j' :: lin1 r js' (skipn (length (a :: r)) beta)) (b :: d)) with (j' *! b +! inner (lin1 r js' (skipn (length (a :: r)) beta)) d). rewrite I1.
    change (inner (j' :: js') (b :: d)) with (j' *! b +! inner js' d) in AI. change (inner ((j +! inner (a :: r) B) :: js) (b :: d)) with ((j +! inner (a :: r) B) *! b +! inner js d) in AI. change (inner (j :: js) (b :: d)) with (j *! b +! inner js d).
    transitivity ((j' *! b +! inner js' d) +! bil r d (skipn (length (a :: r)) beta)); [ring|]. rewrite AI. ring.
  Qed.
  Lemma move_length : forall x t d, length (move x t d) = length x.
  Proof. induction x as [|a x IH]; intros t [|b d]; cbn; auto. Qed.
  Lemma inner_move : forall x t d beta, length d = length x -> inner (move x t d) beta = inner x beta +! t *! inner d beta.
  Proof. induction x as [|a x IH]; intros t [|b d] [|c beta] E; try discriminate; cbn; try ring. rewrite IH by (injection E as E; exact E). ring. Qed.
  Lemma quad_move : forall x t d beta, length d = length x -> tri (length x) <= length beta ->
      inner (quad (move x t d)) beta = inner (quad x) beta +! t *! bil x d beta +! t *! t *! inner (quad d) beta.
  Proof.
    induction x as [|a r IH]; intros t [|b d] beta E T; try discriminate; [cbn; ring|].
    change (move (a :: r) t (b :: d)) with ((a +! t *! b) :: move r t d). cbn [quad bil length tri] in *.
    rewrite !inner_app. rewrite !scale_length. rewrite !inner_scale. cbn [length]. rewrite move_length. assert (E' : length d = length r) by lia. rewrite E'.
    rewrite IH by (try exact E'; rewrite skipn_length; lia).
    set (B := firstn (S (length r)) beta). set (B' := skipn (S (length r)) beta).
    change (inner ((a +! t *! b) :: move r t d) B) with (inner (move (a :: r) t (b :: d)) B). rewrite inner_move by (cbn; lia).
    rewrite (inner_comm B (b :: d)). ring.
  Qed.
  (** rows of the transpose *)
  Lemma transpose_length : forall k M, wide k M -> length (transpose k M) = k.
  Proof. intros k. induction M as [|r M IH]; intros W; cbn; [apply repeat_length|]. rewrite map_length, combine_length, IH by (intros q I; apply W; right; exact I). rewrite (W r) by (left; reflexivity). lia. Qed.
  Lemma transpose_nth : forall k M c, wide k M -> c < k -> nth c (transpose k M) [] = col c M.
  Proof.
    intros k. induction M as [|r M IH]; intros c W L.
    - cbn. clear. revert c. induction k as [|k IH]; intros [|c]; cbn; auto.
    - assert (WM : wide k M) by (intros q I; apply W; right; exact I). assert (TL := transpose_length k M WM). assert (R : length r = k) by (apply W; left; reflexivity).
      change (nth c (map (fun p : F * list F => fst p :: snd p) (combine r (transpose k M))) [] = nth c r F0 :: col c M). rewrite <- (IH c WM L). clear IH W WM. generalize dependent (transpose k M). intros T TL. revert r c k L R TL. induction T as [|y T IHT]; intros [|a r] c k L R TL; cbn in *; try lia. destruct c as [|c]; [reflexivity|]. cbn. apply (IHT r c (pred k)); lia.
  Qed.
  Theorem surface_derivative : forall s x c,
      length x = rs_n s -> wide (rs_k s) (rs_betas s) -> length (rs_betas s) = length (terms F0 F1 fmul x) -> c < rs_k s ->
      let f := fun y => inner (terms F0 F1 fmul y) (col c (rs_betas s)) in
      (forall y, length y = rs_n s -> exists v, predict F0 F1 fadd fmul s y = Ok v /\ length v = rs_k s /\ nth c v F0 = f y) /\
      length (linearize F0 fadd fmul s x) = rs_k s /\
      derivative_at F0 fadd fmul f x (nth c (linearize F0 fadd fmul s x) []).
  Proof.
    intros s x c L W LB Lc f. rewrite terms_quad in LB. cbn [length] in LB. rewrite app_length, quad_length in LB.
    assert (WJ : wide (rs_k s) (firstn (rs_n s) (skipn 1 (rs_betas s)))) by (apply wide_firstn, wide_skipn; exact W).
    assert (WO : wide (rs_k s) (skipn (rs_n s + 1) (rs_betas s))) by (apply wide_skipn; exact W).
    destruct (lin_col (rs_k s) c x (firstn (rs_n s) (skipn 1 (rs_betas s))) (skipn (rs_n s + 1) (rs_betas s)) WJ WO) as (C1 & C2 & C3); [rewrite firstn_length, skipn_length; lia|rewrite skipn_length; lia|].
    split; [|split].
    - intros y Ly. unfold predict. rewrite row_ok by exact Ly. cbn [bind]. replace (length (F1 :: y ++ quad y) =? length (rs_betas s)) with true by (symmetry; apply Nat.eqb_eq; cbn [length]; rewrite app_length, quad_length, Ly, <- L; lia).
      eexists. split; [reflexivity|]. split; [apply vdot_length; exact W|]. rewrite vdot_col by exact W. unfold f. rewrite terms_quad. reflexivity.
    - unfold linearize. apply transpose_length. exact C2.
    - unfold linearize. rewrite transpose_nth by assumption. split; [rewrite col_length; exact C3|].
      intros d Ld. set (be := skipn (rs_n s + 1) (col c (rs_betas s))). exists (inner (quad d) be). intros t. unfold f. rewrite !terms_quad. rewrite C1.
      assert (BE : col c (skipn (rs_n s + 1) (rs_betas s)) = be) by (unfold be, col; rewrite skipn_map; reflexivity). rewrite BE.
      assert (BJ : col c (firstn (rs_n s) (skipn 1 (rs_betas s))) = firstn (rs_n s) (skipn 1 (col c (rs_betas s)))) by (unfold col; rewrite skipn_map, firstn_map; reflexivity). rewrite BJ.
      assert (Lc' : length (col c (rs_betas s)) = S (rs_n s + tri (rs_n s))) by (rewrite col_length, LB, L; lia).
      assert (Lbe : length be = tri (rs_n s)) by (unfold be; rewrite skipn_length, Lc'; lia).
      rewrite (proj1 (lin1_inner x (firstn (rs_n s) (skipn 1 (col c (rs_betas s)))) be d ltac:(rewrite firstn_length, skipn_length, Lc'; lia) Ld ltac:(rewrite Lbe, L; lia))).
      destruct (col c (rs_betas s)) as [|b0 bs] eqn:EC; [discriminate|]. cbn [skipn].
      change (inner (F1 :: move x t d ++ quad (move x t d)) (b0 :: bs)) with (F1 *! b0 +! inner (move x t d ++ quad (move x t d)) bs). change (inner (F1 :: x ++ quad x) (b0 :: bs)) with (F1 *! b0 +! inner (x ++ quad x) bs).
      rewrite !inner_app, move_length, L. unfold be. replace (rs_n s + 1) with (S (rs_n s)) by lia. cbn [skipn].
      assert (Ls : tri (length x) <= length (skipn (rs_n s) bs)) by (cbn [length] in Lc'; rewrite skipn_length, L; lia).
      rewrite (quad_move x t d _ Ld Ls). rewrite inner_move by exact Ld. rewrite (inner_comm (firstn (rs_n s) bs) d). ring.
  Qed.
  Lemma rows_ok : forall n x, (forall p, In p x -> length p = n) -> rows_of F0 F1 fmul n x = Ok (map (terms F0 F1 fmul) x).
  Proof. intros n. induction x as [|p r IH]; intros H; [reflexivity|]. cbn [rows_of map]. rewrite row_ok by (apply H; left; reflexivity). cbn [bind]. rewrite IH by (intros q I; apply H; right; exact I). rewrite terms_quad. reflexivity. Qed.
End Facts.

(** C109: constraint components.  The expression ConstraintComp builds for a constraint
    written as one comparison of two arithmetic expressions has the value of their
    difference, which tells whether the constraint holds; and what becomes of the texts
    that are not of that form. *)
From Verif Require Import Base BaseFacts OrderModel FileModel ExprModel CstrPy CstrModel CstrSpec CstrProofs.
From Coq Require Import Lqa.
Local Open Scope nat_scope.
Local Open Scope list_scope.

Lemma written_comparator : forall c, c <> CEq -> comparator (written c).
Proof. intros [] H; unfold comparator; cbn; auto; contradiction. Qed.
Lemma read_split : forall m s e, read m s = Some e -> exists ts, tokens s = Some ts /\ parse_all m ts = Some e.
Proof. intros m s e H. unfold read in H. destruct (tokens s) as [ts|]; [|discriminate]. exists ts. auto. Qed.
Lemma combined_plain : forall op l r, comparator op -> plain l -> plain r ->
  combined_expr (l ++ op ++ r) = Ok (if contains (t_ ">") (firstn 1 op) then combine (strip r) (strip l) else combine (strip l) (strip r)).
Proof.
  intros op l r Ho Hl Hr. unfold combined_expr. rewrite (parse_constraint_plain _ _ _ Ho Hl Hr). cbn [bind].
  destruct (contains (t_ ">") (firstn 1 op)); unfold combine; destruct (is_zero _); try reflexivity; destruct (is_zero _); reflexivity.
Qed.
(** the value assigned, for any comparator *)
Lemma comp_value : forall op l r a b out, comparator op -> plain l -> plain r -> arithmetic l = Some a -> arithmetic r = Some b -> is_name out ->
  exists stmt, constraint_comp (l ++ op ++ r) out = Ok stmt /\
  forall W rho,
    match minus2 (eval W rho (if contains (t_ ">") (firstn 1 op) then b else a)) (eval W rho (if contains (t_ ">") (firstn 1 op) then a else b)) with
    | Some d => exists v, exec W stmt rho = Some (assign rho out v) /\ (v == d)%Q
    | None => exec W stmt rho = None
    end.
Proof.
  intros op l r a b out Ho Hl Hr Ha Hb Hn. apply read_split in Ha. apply read_split in Hb.
  destruct Ha as (ta & Ta & Pa). destruct Hb as (tb & Tb & Pb).
  apply tokens_strip in Ta. apply tokens_strip in Tb.
  unfold constraint_comp. rewrite (combined_plain _ _ _ Ho Hl Hr). cbn [bind]. eexists. split; [reflexivity|].
  intros W rho. destruct (contains (t_ ">") (firstn 1 op)).
  - destruct (combine_reads _ _ _ _ _ _ Tb Pb Ta (read_cmp_level _ _ Pa)) as (te & e & Te & Pe & V). specialize (V W rho).
    rewrite (exec_stmt W out _ te e rho Hn Te (read_cmp_level _ _ Pe)).
    destruct (minus2 _ _); destruct (eval W rho e); cbn in V; try contradiction; [eexists; split; [reflexivity|exact V]|reflexivity].
  - destruct (combine_reads _ _ _ _ _ _ Ta Pa Tb (read_cmp_level _ _ Pb)) as (te & e & Te & Pe & V). specialize (V W rho).
    rewrite (exec_stmt W out _ te e rho Hn Te (read_cmp_level _ _ Pe)).
    destruct (minus2 _ _); destruct (eval W rho e); cbn in V; try contradiction; [eexists; split; [reflexivity|exact V]|reflexivity].
Qed.

(** An inequality between two arithmetic expressions, neither of which contains a
    comparator, is accepted.  Running the component sets its output, and nothing else, to
    the margin: at most 0 exactly when <= or >= holds and below 0 exactly when < or > holds.
    When one of the two sides has no value the component fails. *)
Theorem C109_inequality : forall c l r a b out,
  c <> CEq -> plain l -> plain r -> arithmetic l = Some a -> arithmetic r = Some b -> is_name out ->
  exists stmt, constraint_comp (l ++ written c ++ r) out = Ok stmt /\
  (forall W rho x y, eval W rho a = Some x -> eval W rho b = Some y ->
     exists rho' v, exec W stmt rho = Some rho' /\ rho' out = Some v /\ (forall n, n <> out -> rho' n = rho n) /\
       (v == margin c x y)%Q /\
       (c = CLe \/ c = CGe -> ((v <= 0)%Q <-> holds c x y)) /\
       (c = CLt \/ c = CGt -> ((v < 0)%Q <-> holds c x y))) /\
  (forall W rho, eval W rho a = None \/ eval W rho b = None -> exec W stmt rho = None).
Proof.
  intros c l r a b out Hc Hl Hr Ha Hb Hn.
  destruct (comp_value (written c) l r a b out (written_comparator _ Hc) Hl Hr Ha Hb Hn) as (stmt & E & V).
  exists stmt. split; [exact E|]. split.
  - intros W rho x y Ex Ey. specialize (V W rho).
    assert (D : exists v, exec W stmt rho = Some (assign rho out v) /\ (v == margin c x y)%Q) by (destruct c; [| | | |contradiction]; cbn in V |- *; rewrite Ex, Ey in V; exact V).
    destruct D as (v & EV & Hv). exists (assign rho out v), v. split; [exact EV|]. split; [apply assign_same|]. split; [intros n Hd; apply assign_other; exact Hd|]. split; [exact Hv|].
    split; intros Hcc; destruct c; cbn in Hv |- *; try (destruct Hcc; discriminate); rewrite Hv; split; intros H.
    all: lra.
  - intros W rho H. specialize (V W rho). destruct (contains (t_ ">") (firstn 1 (written c))); destruct H as [H|H]; rewrite H in V; cbn in V;
      try (destruct (eval W rho b)); try (destruct (eval W rho a)); cbn in V; try exact V; discriminate.
Qed.

(** Python reads the text of the constraint as that comparison too. *)
Theorem C109_reading : forall c l r a b,
  c <> CEq -> plain r -> arithmetic l = Some a -> arithmetic r = Some b ->
  exists e, expression (l ++ written c ++ r) = Some e /\
  forall W rho x y, eval W rho a = Some x -> eval W rho b = Some y ->
    exists t, eval W rho e = Some t /\ (t = 1%Q \/ t = 0%Q) /\ (t = 1%Q <-> holds c x y).
Proof.
  intros c l r a b Hc Hr Ha Hb. apply read_split in Ha. apply read_split in Hb.
  destruct Ha as (ta & Ta & Pa). destruct Hb as (tb & Tb & Pb). exists (ECmp a [(c, b)]). split.
  - unfold expression, read. assert (T : tokens (l ++ written c ++ r) = Some (ta ++ TCmp c :: tb)).
    { destruct (plain_not _ Hr) as (_ & _ & R3).
      assert (NE : match r with x :: _ => Ascii.eqb x "="%char = false | [] => True end).
      { destruct r as [|x r]; [exact I|]. apply Ascii.eqb_neq. intros ->. apply R3. left. reflexivity. }
      assert (X : exists h t, written c = h :: t /\ stopc h /\ tokens (h :: t ++ r) = Some (TCmp c :: tb)).
      { destruct c; [| | | |contradiction].
        - exists "<"%char, []. split; [reflexivity|]. split; [split; [reflexivity|split; discriminate]|]. cbn [app].
          rewrite (tokens_step "<"%char r (TCmp CLt) r); [rewrite Tb; reflexivity|reflexivity|]. destruct r as [|x r]; [reflexivity|]. change (lex1 ("<"%char :: x :: r)) with (if Ascii.eqb x "="%char then Some (TCmp CLe, r) else Some (TCmp CLt, x :: r)). rewrite NE. reflexivity.
        - exists ">"%char, []. split; [reflexivity|]. split; [split; [reflexivity|split; discriminate]|]. cbn [app].
          rewrite (tokens_step ">"%char r (TCmp CGt) r); [rewrite Tb; reflexivity|reflexivity|]. destruct r as [|x r]; [reflexivity|]. change (lex1 (">"%char :: x :: r)) with (if Ascii.eqb x "="%char then Some (TCmp CGe, r) else Some (TCmp CGt, x :: r)). rewrite NE. reflexivity.
        - exists "<"%char, ["="%char]. split; [reflexivity|]. split; [split; [reflexivity|split; discriminate]|]. cbn [app].
          rewrite (tokens_step "<"%char ("="%char :: r) (TCmp CLe) r); [rewrite Tb; reflexivity|reflexivity|reflexivity].
        - exists ">"%char, ["="%char]. split; [reflexivity|]. split; [split; [reflexivity|split; discriminate]|]. cbn [app].
          rewrite (tokens_step ">"%char ("="%char :: r) (TCmp CGe) r); [rewrite Tb; reflexivity|reflexivity|reflexivity]. }
      destruct X as (h & t & Ew & Sh & Et). rewrite Ew. cbn [app]. rewrite (tokens_cat _ _ h (t ++ r) Ta Sh). rewrite Et. reflexivity. }
    rewrite T. apply read_compare; assumption.
  - intros W rho x y Ex Ey. cbn [eval]. rewrite Ex, Ey. destruct (truth c x y) eqn:E; eexists; (split; [reflexivity|]); (split; [auto|]); (split; [intros H|intros H]).
    + destruct c; cbn in E |- *; [apply negb_true_iff in E|apply negb_true_iff in E| | |contradiction].
      * apply Qnot_le_lt. intros L. apply Qle_bool_iff in L. congruence.
      * apply Qnot_le_lt. intros L. apply Qle_bool_iff in L. congruence.
      * apply Qle_bool_iff. exact E.
      * apply Qle_bool_iff. exact E.
    + reflexivity.
    + discriminate H.
    + exfalso. destruct c; cbn in E, H; [apply negb_false_iff in E|apply negb_false_iff in E| | |contradiction].
      * apply Qle_bool_iff in E. lra.
      * apply Qle_bool_iff in E. lra.
      * apply Qle_bool_iff in H. congruence.
      * apply Qle_bool_iff in H. congruence.
Qed.

(** An equation sets the output to the difference, 0 exactly when the equation holds. *)
Theorem C109_equality : forall l r a b out,
  plain l -> plain r -> arithmetic l = Some a -> arithmetic r = Some b -> is_name out ->
  exists stmt, constraint_comp (l ++ t_ "=" ++ r) out = Ok stmt /\
  forall W rho x y, eval W rho a = Some x -> eval W rho b = Some y ->
    exists rho' v, exec W stmt rho = Some rho' /\ rho' out = Some v /\ (forall n, n <> out -> rho' n = rho n) /\
      (v == x - y)%Q /\ ((v == 0)%Q <-> (x == y)%Q).
Proof.
  intros l r a b out Hl Hr Ha Hb Hn.
  destruct (comp_value (t_ "=") l r a b out) as (stmt & E & V); try assumption; [unfold comparator; auto|].
  exists stmt. split; [exact E|]. intros W rho x y Ex Ey. specialize (V W rho). cbn in V. rewrite Ex, Ey in V. cbn in V.
  destruct V as (v & EV & Hv). exists (assign rho out v), v. split; [exact EV|]. split; [apply assign_same|]. split; [intros n Hd; apply assign_other; exact Hd|].
  split; [exact Hv|]. rewrite Hv. split; intros H; lra.
Qed.
(** "Considered to be satisfied if it evaluates to a value <= 0" (lines 75-77) is wrong for
    an equation, whenever its left side is the smaller one, ... *)
Theorem C109_equality_refuted : forall l r a b out W rho x y,
  plain l -> plain r -> arithmetic l = Some a -> arithmetic r = Some b -> is_name out ->
  eval W rho a = Some x -> eval W rho b = Some y -> (x < y)%Q ->
  exists stmt rho' v, constraint_comp (l ++ t_ "=" ++ r) out = Ok stmt /\ exec W stmt rho = Some rho' /\ rho' out = Some v /\
    (v <= 0)%Q /\ ~ (x == y)%Q.
Proof.
  intros l r a b out W rho x y Hl Hr Ha Hb Hn Ex Ey L. destruct (C109_equality l r a b out Hl Hr Ha Hb Hn) as (stmt & E & V).
  destruct (V W rho x y Ex Ey) as (rho' & v & E1 & E2 & _ & E3 & _). exists stmt, rho', v. repeat (split; [assumption|]). rewrite E3. split; [lra|]. intros H. lra.
Qed.
(** ... and for a strict inequality whenever its sides are equal. *)
Theorem C109_strict_refuted : forall c l r a b out W rho x y, c = CLt \/ c = CGt ->
  plain l -> plain r -> arithmetic l = Some a -> arithmetic r = Some b -> is_name out ->
  eval W rho a = Some x -> eval W rho b = Some y -> (x == y)%Q ->
  exists stmt rho' v, constraint_comp (l ++ written c ++ r) out = Ok stmt /\ exec W stmt rho = Some rho' /\ rho' out = Some v /\
    (v <= 0)%Q /\ ~ holds c x y.
Proof.
  intros c l r a b out W rho x y Hc Hl Hr Ha Hb Hn Ex Ey L. destruct (C109_inequality c l r a b out) as (stmt & E & V & _); try assumption; [destruct Hc; subst; discriminate|].
  destruct (V W rho x y Ex Ey) as (rho' & v & E1 & E2 & _ & E3 & _). exists stmt, rho', v. repeat (split; [assumption|]). rewrite E3.
  destruct Hc; subst c; cbn; (split; [lra|intros H; lra]).
Qed.

(** A text without a comparator, one with == and one with the same comparator twice are
    refused. *)
Theorem C109_rejects : forall out,
  (forall s, plain s -> constraint_comp s out = Err ValueError) /\
  (forall l r, plain l -> plain r -> constraint_comp (l ++ t_ "==" ++ r) out = Err ValueError) /\
  (forall op l m r, In op [t_ "<"; t_ ">"; t_ "<="; t_ ">="; t_ "="] -> plain l -> plain m -> plain r ->
     constraint_comp (l ++ op ++ m ++ op ++ r) out = Err ValueError).
Proof.
  intros out. unfold constraint_comp, combined_expr. split; [|split].
  - intros s H. rewrite (parse_constraint_none _ H). reflexivity.
  - intros l r Hl Hr. rewrite (parse_constraint_eqeq _ _ Hl Hr). reflexivity.
  - intros op l m r Ho Hl Hm Hr. rewrite parse_constraint_twice; [reflexivity| |assumption|assumption|assumption].
    unfold comparator. cbn in Ho. intuition (subst; auto).
Qed.

(** A double inequality l <= m < r is not refused: the output becomes l less the truth
    value of m < r, so it says "satisfied" for every value of m and r when l is not
    positive (as in 0 <= m < r). *)
Theorem C109_double_refuted : forall l m r a b c out,
  plain l -> plain m -> plain r -> arithmetic l = Some a -> arithmetic m = Some b -> arithmetic r = Some c -> is_name out ->
  exists stmt, constraint_comp (l ++ t_ "<=" ++ m ++ t_ "<" ++ r) out = Ok stmt /\
  forall W rho x y z, eval W rho a = Some x -> eval W rho b = Some y -> eval W rho c = Some z ->
    exists rho' v, exec W stmt rho = Some rho' /\ rho' out = Some v /\
      ((y < z)%Q -> (v == x - 1)%Q) /\ ((z <= y)%Q -> (v == x)%Q) /\ ((x <= 0)%Q -> (v <= 0)%Q).
Proof.
  intros l m r a b c out Hl Hm Hr Ha Hb Hc Hn.
  destruct (C109_reading CLt m r b c) as (e0 & He0 & V0); [discriminate|assumption|assumption|assumption|].
  apply read_split in Ha. apply read_split in He0. destruct Ha as (ta & Ta & Pa). destruct He0 as (tb & Tb & Pb).
  apply tokens_strip in Ta. apply tokens_strip in Tb.
  destruct (combine_reads _ _ _ _ _ _ Ta Pa Tb Pb) as (te & e & Te & Pe & V).
  eexists. split.
  - unfold constraint_comp, combined_expr. rewrite (parse_constraint_double _ _ _ Hl Hm Hr). cbn [bind].
    replace (contains (t_ ">") (firstn 1 (t_ "<="))) with false by reflexivity.
    instantiate (1 := out ++ t_ " = " ++ combine (strip l) (strip (m ++ written CLt ++ r))).
    unfold combine. change (written CLt) with (t_ "<"). destruct (is_zero _); [reflexivity|]. destruct (is_zero _); reflexivity.
  - intros W rho x y z Ex Ey Ez. rewrite (exec_stmt W out _ te e rho Hn Te (read_cmp_level _ _ Pe)).
    specialize (V W rho). destruct (V0 W rho y z Ey Ez) as (t & Et & H01 & Ht). rewrite Ex, Et in V.
    destruct (eval W rho e) as [v|]; [|contradiction]. change (v == x - t)%Q in V. exists (assign rho out v), v. split; [reflexivity|]. split; [apply assign_same|].
    cbn in Ht. split; [|split].
    + intros L. apply Ht in L. subst t. exact V.
    + intros L. destruct H01 as [H1|H1]; [apply Ht in H1; lra|]. subst t. lra.
    + intros L. destruct H01; subst t; lra.
Qed.

(** A constraint with nothing on its left is not refused: the output is minus the right
    side, so "< 3" is always satisfied. *)
Theorem C109_missing_refuted : forall r b out, plain r -> arithmetic r = Some b -> is_name out ->
  exists stmt, constraint_comp (t_ "<" ++ r) out = Ok stmt /\
  forall W rho y, eval W rho b = Some y -> ~ (y == 0)%Q ->
    exists rho' v, exec W stmt rho = Some rho' /\ rho' out = Some v /\ (v == - y)%Q.
Proof.
  intros r b out Hr Hb Hn. apply read_split in Hb. destruct Hb as (tb & Tb & Pb). apply tokens_strip in Tb.
  exists (out ++ t_ " = " ++ combine [] (strip r)). split.
  - unfold constraint_comp. rewrite (combined_plain (t_ "<") [] r : _ -> _ -> _ -> combined_expr (t_ "<" ++ r) = _); [reflexivity|unfold comparator; auto|intros c []|assumption].
  - intros W rho y Ey Hy. unfold combine. replace (is_zero []) with false by reflexivity.
    destruct (is_zero (strip r)) eqn:Z.
    + exfalso. destruct (is_zero_eval _ _ _ Z Tb (read_cmp_level _ _ Pb) W rho) as (z & Ez & Hz). rewrite Ey in Ez. injection Ez as ->. contradiction.
    + change ([] ++ t_ "-(" ++ strip r ++ t_ ")") with (t_ "-(" ++ strip r ++ t_ ")").
      rewrite (exec_stmt W out _ _ _ rho Hn (tokens_neg _ _ Tb) (read_cmp_level _ _ (read_neg _ _ (read_cmp_level _ _ Pb)))).
      cbn [eval]. rewrite Ey. cbn [option_map]. exists (assign rho out (- y)%Q), (- y)%Q. split; [reflexivity|]. split; [apply assign_same|reflexivity].
Qed.

Lemma letter_not : forall c, letter c = true -> is_space c = false /\ blank c = false /\ digit c = false /\ Ascii.eqb c dot = false /\ Ascii.eqb c "+"%char = false /\ Ascii.eqb c "-"%char = false.
Proof. intros c H. destruct c as [[] [] [] [] [] [] [] []]; try discriminate H; repeat split. Qed.
Lemma strip_name : forall n, is_name n -> strip (n ++ t_ " =") = n ++ t_ " =".
Proof.
  intros n (c & r & -> & Hc & _). destruct (letter_not _ Hc) as (S & _). unfold strip. cbn [app lstrip]. rewrite S.
  unfold rstrip. cbn [rev]. unfold t_. cbn [list_ascii_of_string]. rewrite rev_app_distr. cbn [rev app lstrip].
  replace (is_space "="%char) with false by reflexivity. cbn [rev app]. rewrite !rev_app_distr. rewrite rev_involutive. cbn [rev app]. rewrite <- app_assoc. reflexivity.
Qed.
Lemma zero_name : forall n, is_name n -> is_zero (n ++ t_ " =") = false.
Proof.
  intros n Hn. unfold is_zero. rewrite (strip_name _ Hn). destruct Hn as (c & r & -> & Hc & _). destruct (letter_not _ Hc) as (_ & _ & D & P & Q1 & Q2).
  cbn [app]. rewrite Q1, Q2. cbn [orb]. unfold number. cbn [span]. rewrite D, P. reflexivity.
Qed.
Lemma name_plain : forall n, is_name n -> plain n.
Proof.
  intros n (c & r & -> & Hc & Hr) d Hd.
  assert (D : namec d = true).
  { destruct Hd as [<-|Hd]; [unfold namec, wordc; rewrite Hc; reflexivity|]. exact (proj1 (forallb_forall _ _) Hr d Hd). }
  repeat split; intros ->; discriminate D.
Qed.
(** A reversed comparator is not refused: n =< r becomes the chained assignment
    out = n = -(r), which ignores n and overwrites it. *)
Theorem C109_reversed_refuted : forall n r b out, is_name n -> n <> out -> plain r -> arithmetic r = Some b -> is_name out ->
  exists stmt, constraint_comp (n ++ t_ " =< " ++ r) out = Ok stmt /\
  forall W rho y, eval W rho b = Some y -> ~ (y == 0)%Q ->
    exists rho' v w, exec W stmt rho = Some rho' /\ rho' out = Some v /\ (v == - y)%Q /\ rho' n = Some w /\ (w == - y)%Q.
Proof.
  intros n r b out Hv Hd Hr Hb Hn.
  assert (Hr' : plain (" "%char :: r)) by (intros c [<-|Hc]; [repeat split; discriminate|apply Hr; exact Hc]).
  assert (Hv' : plain (n ++ [" "%char])).
  { intros c Hc. apply in_app_or in Hc. destruct Hc as [Hc|[<-|[]]]; [apply (name_plain _ Hv); exact Hc|repeat split; discriminate]. }
  apply read_split in Hb. destruct Hb as (tb & Tb & Pb).
  assert (Tb' : tokens (" "%char :: r) = Some tb) by (rewrite tokens_blank by reflexivity; exact Tb). apply tokens_strip in Tb'.
  set (second := strip (" "%char :: r)) in *.
  exists (out ++ t_ " = " ++ combine (n ++ t_ " =") second). split.
  - unfold constraint_comp, combined_expr. replace (n ++ t_ " =< " ++ r) with ((n ++ [" "%char]) ++ t_ "=<" ++ " "%char :: r) by (rewrite <- app_assoc; reflexivity).
    rewrite (parse_constraint_reversed _ _ Hv' Hr'). cbn [bind]. replace (contains (t_ ">") (firstn 1 (t_ "<"))) with false by reflexivity.
    replace (strip ((n ++ [" "%char]) ++ t_ "=")) with (n ++ t_ " =") by (rewrite <- app_assoc; symmetry; exact (strip_name _ Hv)).
    fold second. unfold combine. destruct (is_zero _); [reflexivity|]. destruct (is_zero _); reflexivity.
  - intros W rho y Ey Hy. unfold combine. rewrite (zero_name _ Hv). destruct (is_zero second) eqn:Z.
    + exfalso. destruct (is_zero_eval _ _ _ Z Tb' (read_cmp_level _ _ Pb) W rho) as (z & Ez & Hz). rewrite Ey in Ez. injection Ez as ->. contradiction.
    + pose proof (tokens_neg _ _ Tb') as N.
      assert (T : tokens ((n ++ t_ " =") ++ t_ "-(" ++ second ++ t_ ")") = Some (TName n :: TAssign :: TMinus :: TLp :: tb ++ [TRp])).
      { rewrite <- app_assoc. change (t_ " =" ++ t_ "-(" ++ second ++ t_ ")") with (" "%char :: "="%char :: t_ "-(" ++ second ++ t_ ")").
        rewrite (tokens_cat _ _ " "%char _ (tokens_name _ Hv)); [|split; [reflexivity|split; discriminate]]. rewrite tokens_blank by reflexivity.
        rewrite (tokens_step "="%char _ TAssign (t_ "-(" ++ second ++ t_ ")")); [|reflexivity|reflexivity]. rewrite N. reflexivity. }
      unfold exec. rewrite (tokens_stmt _ _ _ Hn T). cbn [statement]. rewrite (read_cmp_level _ _ (read_neg _ _ (read_cmp_level _ _ Pb))).
      cbn [eval]. rewrite Ey. cbn [option_map fold_left]. exists (assign (assign rho out (- y)%Q) n (- y)%Q), (- y)%Q, (- y)%Q.
      split; [reflexivity|]. split; [rewrite assign_other by congruence; apply assign_same|]. split; [reflexivity|]. split; [apply assign_same|reflexivity].
Qed.

(** A comparator inside a call is taken for that of the constraint: "abs(x <= 1) < y" is a
    comparison for Python, and is accepted, but the component compares x - 1 with y inside
    the call; with <= instead of < it is refused. *)
Theorem C109_nested_refuted :
  let s := t_ "abs(x <= 1) < y" in
  expression s = Some (ECmp (ECall (t_ "abs") [ECmp (EVar (t_ "x")) [(CLe, ENum 1)]]) [(CLt, EVar (t_ "y"))]) /\
  (exists stmt, constraint_comp s (t_ "out") = Ok stmt /\
     forall W rho x y, rho (t_ "x") = Some x -> rho (t_ "y") = Some y ->
       exec W stmt rho = match w_call W (t_ "abs") [if truth CLt (x - 1) y then 1%Q else 0%Q] with Some v => Some (assign rho (t_ "out") v) | None => None end) /\
  constraint_comp (t_ "abs(x <= 1) <= y") (t_ "out") = Err ValueError.
Proof.
  cbv zeta. split; [vm_compute; reflexivity|]. split; [|vm_compute; reflexivity].
  exists (t_ "out = abs(x-(1) < y)"). split; [vm_compute; reflexivity|]. intros W rho x y Hx Hy. unfold exec.
  replace (tokens (t_ "out = abs(x-(1) < y)")) with (Some [TName (t_ "out"); TAssign; TName (t_ "abs"); TLp; TName (t_ "x"); TMinus; TLp; TNum 1; TRp; TCmp CLt; TName (t_ "y"); TRp]) by (vm_compute; reflexivity).
  cbn [statement].
  replace (parse_all MCmp [TName (t_ "abs"); TLp; TName (t_ "x"); TMinus; TLp; TNum 1; TRp; TCmp CLt; TName (t_ "y"); TRp])
    with (Some (ECall (t_ "abs") [ECmp (ESub (EVar (t_ "x")) (ENum 1)) [(CLt, EVar (t_ "y"))]])) by (vm_compute; reflexivity).
  cbn [eval lift2]. rewrite Hx, Hy. cbn [lift2]. destruct (truth CLt (x - 1) y); reflexivity.
Qed.

(** The hypotheses are met: a constraint, run at a point. *)
Definition ex_world : world := mkWorld (fun _ _ => None) (fun _ _ => None) (fun x y => if Qeq_bool y 2 then Some (x * x)%Q else None).
Definition ex_env : env := fun n => if teqb n (t_ "a") then Some 3%Q else if teqb n (t_ "C1:b") then Some 2%Q else None.
Example C109_ex :
  constraint_comp (t_ " -a**2 + 2.50 * C1:b>= (a - 7)/2 ") (t_ "out") = Ok (t_ "out = (a - 7)/2-(-a**2 + 2.50 * C1:b)") /\
  (exists a b, arithmetic (t_ " -a**2 + 2.50 * C1:b") = Some a /\ arithmetic (t_ " (a - 7)/2 ") = Some b /\
     (exists x, eval ex_world ex_env a = Some x /\ (x == - (4))%Q) /\ (exists y, eval ex_world ex_env b = Some y /\ (y == - (2))%Q)) /\
  (exists rho v, exec ex_world (t_ "out = (a - 7)/2-(-a**2 + 2.50 * C1:b)") ex_env = Some rho /\ rho (t_ "out") = Some v /\ (v == 2)%Q) /\
  constraint_comp (t_ "0.0 < a") (t_ "c") = Ok (t_ "c = -(a)") /\ constraint_comp (t_ "0.0 > a") (t_ "c") = Ok (t_ "c = a") /\
  constraint_comp (t_ "a <= -0.") (t_ "c") = Ok (t_ "c = a") /\
  constraint_comp (t_ "0 <= a < 1") (t_ "c") = Ok (t_ "c = -(a < 1)").
Proof.
  split; [vm_compute; reflexivity|]. split.
  { eexists. eexists. split; [vm_compute; reflexivity|]. split; [vm_compute; reflexivity|]. split; (eexists; split; [vm_compute; reflexivity|reflexivity]). }
  split; [eexists; eexists; split; [vm_compute; reflexivity|split; [vm_compute; reflexivity|reflexivity]]|].
  repeat split; vm_compute; reflexivity.
Qed.

Print Assumptions C109_inequality.
Print Assumptions C109_reading.
Print Assumptions C109_equality.
Print Assumptions C109_equality_refuted.
Print Assumptions C109_strict_refuted.
Print Assumptions C109_rejects.
Print Assumptions C109_double_refuted.
Print Assumptions C109_missing_refuted.
Print Assumptions C109_reversed_refuted.
Print Assumptions C109_nested_refuted.

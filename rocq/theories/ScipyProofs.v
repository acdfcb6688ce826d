(** Lemmas about the constraint functions of the SciPy optimizer. *)
From Verif Require Import Base BaseFacts DriverModel DriverSpec ScipyModel ScipySpec.
Local Open Scope Q_scope.
Local Open Scope list_scope.

Lemma substring_all : forall n, String.substring 0 (String.length n) n = n.
Proof. induction n as [|c n IH]; [reflexivity|]. cbn. rewrite IH. reflexivity. Qed.
Lemma prefix_cons : forall c d s t, String.prefix (String c s) (String d t) = if ascii_dec c d then String.prefix s t else false.
Proof. reflexivity. Qed.
Lemma strip2_no : forall n, String.prefix prefix2 n = false -> strip2 n = (n, false).
Proof. intros n H. unfold strip2. rewrite H. reflexivity. Qed.
Lemma prefix_nil : forall s, String.prefix EmptyString s = true.
Proof. destruct s; reflexivity. Qed.
Lemma strip2_yes : forall n, strip2 (prefix2 ++ n) = (n, true).
Proof.
  intros n. unfold strip2. assert (P : String.prefix prefix2 (prefix2 ++ n) = true) by (cbn; apply prefix_nil). rewrite P. f_equal.
  change (String.length (prefix2 ++ n) - 4)%nat with (String.length n - 0)%nat. rewrite Nat.sub_0_r. cbn [prefix2 append]. cbn [substring]. apply substring_all.
Qed.

Lemma dget_in : forall A (d : list (string * A)) n a, NoDup (map fst d) -> In (n, a) d -> dget String.eqb d n = Some a.
Proof.
  intros A. induction d as [|[m b] d IH]; intros n a N I; [destruct I|]. cbn in N. inversion N; subst. cbn. destruct I as [E|I].
  - injection E as -> ->. rewrite String.eqb_refl. reflexivity.
  - destruct (String.eqb n m) eqn:Q; [apply String.eqb_eq in Q; subst m; exfalso; apply H1; apply in_map_iff; exists (n, a); auto|]. apply IH; assumption.
Qed.
Lemma bound_fits : forall b size j, fits b size -> (j < size)%nat -> bound_at b j = Ok (entry b j).
Proof.
  intros [x|a] size j F L; [reflexivity|]. cbn in *. destruct (nth_error a j) as [y|] eqn:E; [|apply nth_error_None in E; lia]. erewrite nth_error_nth by eassumption. reflexivity.
Qed.

Section Cons.
  Variable cons : list (string * (con * nat)).
  Hypothesis G : good_cons cons.
  Lemma look_con : forall n k size, In (n, (k, size)) cons -> lookup cons n = Ok (k, size).
  Proof. intros n k size I. unfold lookup. rewrite (dget_in _ cons n (k, size)); [reflexivity|apply G|exact I]. Qed.
  Lemma look_cache : forall value n k size, In (n, (k, size)) cons -> lookup (cache_of cons value) n = Ok (value n).
  Proof.
    intros value n k size I. unfold lookup, cache_of. rewrite (dget_in _ _ n (value n)); [reflexivity| |].
    - rewrite map_map. cbn. apply G.
    - apply in_map_iff. exists (n, (k, size)). auto.
  Qed.
  (** the dictionaries *)
  Lemma in_dicts : forall opt d, In d (constraints_of opt cons) ->
      exists n k size j, In (n, (k, size)) cons /\ (j < size)%nat /\ arg_idx d = j /\ has_jac d = opt_in opt constraint_grad_optimizers /\
        ((arg_name d = n /\ ctype_eq d = has (k_equals k)) \/ (arg_name d = (prefix2 ++ n)%string /\ ctype_eq d = false /\ has (k_upper k) = true /\ has (k_lower k) = true)).
  Proof.
    intros opt d I. unfold constraints_of in I. destruct (opt_in opt constraint_optimizers); [|destruct I]. apply in_flat_map in I. destruct I as ([n [k size]] & Ic & I). cbn [fst snd] in I. unfold dicts_of in I. apply in_app_or in I. destruct I as [I|I].
    - apply in_map_iff in I. destruct I as (j & <- & I). apply in_seq in I. exists n, k, size, j. cbn. split; [exact Ic|]. split; [lia|]. auto 6.
    - destruct (has (k_upper k)) eqn:U; [|destruct I]. destruct (has (k_lower k)) eqn:L; [|destruct I]. cbn [andb] in I. apply in_map_iff in I. destruct I as (j & <- & I). apply in_seq in I. exists n, k, size, j. cbn [arg_idx arg_name ctype_eq has_jac]. split; [exact Ic|]. split; [lia|]. auto 8.
  Qed.
  Lemma dict_in : forall opt n k size j, opt_in opt constraint_optimizers = true -> In (n, (k, size)) cons -> (j < size)%nat ->
      In (mkC (has (k_equals k)) (opt_in opt constraint_grad_optimizers) n j) (constraints_of opt cons) /\
      (has (k_upper k) = true -> has (k_lower k) = true -> In (mkC false (opt_in opt constraint_grad_optimizers) (prefix2 ++ n) j) (constraints_of opt cons)).
  Proof.
    intros opt n k size j O I L. unfold constraints_of. rewrite O. split.
    - apply in_flat_map. exists (n, (k, size)). split; [exact I|]. unfold dicts_of. apply in_or_app. left. cbn [fst snd]. apply in_map. apply in_seq. lia.
    - intros U W. apply in_flat_map. exists (n, (k, size)). split; [exact I|]. unfold dicts_of. apply in_or_app. right. cbn [fst snd]. rewrite U, W. cbn [andb]. apply in_map. apply in_seq. lia.
  Qed.

  (** the value of a constraint function *)
  Variable value : string -> list Q.
  Hypothesis S : sized cons value.
  Lemma value_at : forall n k size j, In (n, (k, size)) cons -> (j < size)%nat -> exists v, nth_error (value n) j = Some v.
  Proof. intros n k size j I L. destruct (nth_error (value n) j) eqn:E; [eauto|]. apply nth_error_None in E. rewrite (S n k size I) in E. lia. Qed.
  Lemma confunc_first : forall n k size j v, In (n, (k, size)) cons -> (j < size)%nat -> nth_error (value n) j = Some v ->
      confunc cons (cache_of cons value) n j = Ok (match k_equals k, k_lower k, k_upper k with Some b, _, _ => entry b j - v | None, None, Some u => entry u j - v | None, Some l, _ => v - entry l j | None, None, None => 0 end).
  Proof.
    intros n k size j v I L E. destruct G as [_ GG]. destruct (GG n k size I) as ((_ & NE & F1 & F2 & F3) & P). unfold confunc. rewrite (strip2_no n P), (look_con n k size I). cbn [bind fst].
    assert (It : item (value n) j = Ok v) by (unfold item; rewrite E; reflexivity).
    destruct (k_equals k) as [b|].
    - rewrite (bound_fits b size j (F1 b eq_refl) L). cbn [bind]. rewrite (look_cache value n k size I). cbn [bind]. rewrite It. reflexivity.
    - destruct (k_lower k) as [l|]; cbn [has negb orb].
      + rewrite (bound_fits l size j (F2 l eq_refl) L). cbn [bind]. rewrite (look_cache value n k size I). cbn [bind]. rewrite It. reflexivity.
      + destruct (k_upper k) as [u|]; [|destruct NE as [X|[X|X]]; congruence]. rewrite (bound_fits u size j (F3 u eq_refl) L). cbn [bind]. rewrite (look_cache value n k size I). cbn [bind]. rewrite It. reflexivity.
  Qed.
  Lemma confunc_second : forall n k size j v u, In (n, (k, size)) cons -> (j < size)%nat -> nth_error (value n) j = Some v -> k_upper k = Some u ->
      confunc cons (cache_of cons value) (prefix2 ++ n) j = Ok (entry u j - v).
  Proof.
    intros n k size j v u I L E U. destruct G as [_ GG]. destruct (GG n k size I) as ((EX & NE & F1 & F2 & F3) & P). unfold confunc. rewrite strip2_yes, (look_con n k size I). cbn [bind fst].
    assert (It : item (value n) j = Ok v) by (unfold item; rewrite E; reflexivity).
    destruct (k_equals k) as [b|]; [destruct EX as [_ EX]; congruence|]. rewrite orb_true_r, U. rewrite (bound_fits u size j (F3 u U) L). cbn [bind]. rewrite (look_cache value n k size I). cbn [bind]. rewrite It. reflexivity.
  Qed.
  Lemma feasible_iff : forall opt, opt_in opt constraint_optimizers = true -> (feasible (constraints_of opt cons) (confunc cons (cache_of cons value)) <-> all_ok cons value).
  Proof.
    intros opt O. split.
    - intros F n k size j v I L E. destruct (dict_in opt n k size j O I L) as (D1 & D2). destruct (F _ D1) as (w & W & C). cbn [arg_name arg_idx ctype_eq] in W, C. rewrite (confunc_first n k size j v I L E) in W. injection W as <-.
      destruct G as [_ GG]. destruct (GG n k size I) as ((EX & NE & _) & _). split; [|split].
      + intros b Eb. rewrite Eb in C. cbn [has] in C. rewrite <- (Qplus_0_l v), <- C. ring.
      + intros b Eb. destruct (k_equals k) as [e|]; [destruct EX as [EX _]; congruence|]. rewrite Eb in C. cbn [has] in C. apply Qle_minus_iff. rewrite Qle_minus_iff in C. rewrite Qle_minus_iff. eapply Qle_trans; [exact C|]. apply Qle_lteq. right. ring.
      + intros b Eb. destruct (k_equals k) as [e|]; [destruct EX as [_ EX]; congruence|]. destruct (k_lower k) as [l|] eqn:El.
        * assert (U : has (k_upper k) = true) by (rewrite Eb; reflexivity). destruct (F _ (D2 U eq_refl)) as (w & W & C2). cbn [arg_name arg_idx ctype_eq] in W, C2. rewrite (confunc_second n k size j v b I L E Eb) in W. injection W as <-. apply Qle_minus_iff. exact C2.
        * rewrite Eb in C. cbn [has] in C. apply Qle_minus_iff. exact C.
    - intros A d I. destruct (in_dicts opt d I) as (n & k & size & j & Ic & L & Ej & _ & D). destruct (value_at n k size j Ic L) as (v & E). destruct (A n k size j v Ic L E) as (A1 & A2 & A3). destruct G as [_ GG]. destruct (GG n k size Ic) as ((EX & NE & _) & _). rewrite Ej. destruct D as [(-> & ->)|(-> & -> & U & W)].
      + eexists. split; [apply (confunc_first n k size j v Ic L E)|]. destruct (k_equals k) as [b|]; cbn [has].
        * rewrite (A1 b eq_refl). ring.
        * destruct (k_lower k) as [l|]; [apply -> Qle_minus_iff; apply A2; reflexivity|]. destruct (k_upper k) as [u|]; [apply -> Qle_minus_iff; apply A3; reflexivity|]. apply Qle_refl.
      + destruct (k_upper k) as [u|] eqn:Eu; [|discriminate]. exists (entry u j - v). split; [apply (confunc_second n k size j v u Ic L E Eu)|]. apply -> Qle_minus_iff. apply A3. reflexivity.
  Qed.
End Cons.

(** ** gradients *)
Lemma con_idx_get : forall cons i n k size (rows : string -> list (list Q)), NoDup (map fst cons) -> grad_sized cons rows -> In (n, (k, size)) cons ->
    exists o, dget String.eqb (con_idx i cons) n = Some (i + o)%nat /\ forall j, (j < size)%nat -> nth_error (flat_map (fun c => rows (fst c)) cons) (o + j) = nth_error (rows n) j.
Proof.
  induction cons as [|[m [k' s']] cons IH]; intros i n k size rows N GS I; [destruct I|]. cbn in N. inversion N as [|? ? N1 N2]; subst. cbn [con_idx dget]. destruct I as [E|I].
  - injection E as -> -> ->. rewrite String.eqb_refl. exists 0%nat. split; [f_equal; lia|]. intros j L. cbn [flat_map fst]. rewrite nth_error_app1; [reflexivity|]. cbn. rewrite (GS n k size); [exact L|left; reflexivity].
  - destruct (String.eqb n m) eqn:Q; [apply String.eqb_eq in Q; subst m; exfalso; apply N1; apply in_map_iff; exists (n, (k, size)); auto|].
    destruct (IH (i + s')%nat n k size rows N2) as (o & D & H); [intros a b c Ia; apply (GS a b c); right; exact Ia|exact I|]. exists (s' + o)%nat. split; [rewrite D; f_equal; lia|]. intros j L. cbn [flat_map fst].
    assert (Lm : length (rows m) = s') by (apply (GS m k' s'); left; reflexivity). rewrite nth_error_app2 by lia. rewrite Lm. replace (s' + o + j - s')%nat with (o + j)%nat by lia. apply H. exact L.
Qed.
Lemma dot_opp : forall r d, dot (map Qopp r) d == - dot r d.
Proof. induction r as [|x r IH]; intros [|y d]; cbn; try reflexivity. rewrite IH. ring. Qed.

Section Grad.
  Variable cons : list (string * (con * nat)).
  Hypothesis G : good_cons cons.
  Variable obj : list Q.
  Variable rows : string -> list (list Q).
  Hypothesis GS : grad_sized cons rows.
  Lemma congrad_row : forall name n k size j dbl, strip2 name = (n, dbl) -> In (n, (k, size)) cons -> (j < size)%nat -> exists r, nth_error (rows n) j = Some r /\
      congradfunc cons (grad_of cons obj rows) name j = Ok (if has (k_equals k) then map Qopp r else if negb (has (k_lower k)) || dbl then map Qopp r else r).
  Proof.
    intros name n k size j dbl St I L. destruct (con_idx_get cons 0 n k size rows (proj1 G) GS I) as (o & D & H). specialize (H j L). destruct (nth_error (rows n) j) as [r|] eqn:R; [|apply nth_error_None in R; rewrite (GS n k size I) in R; lia]. exists r. split; [reflexivity|].
    unfold congradfunc. rewrite St, (look_con cons G n k size I). cbn [bind fst]. unfold lookup at 1. rewrite D. cbn [bind]. unfold row, grad_of. replace (0 + o + j + 1)%nat with (Datatypes.S (o + j)) by lia. cbn [nth_error]. rewrite H. cbn [bind]. destruct (has (k_equals k)); [reflexivity|]. destruct (negb (has (k_lower k)) || dbl); reflexivity.
  Qed.
End Grad.

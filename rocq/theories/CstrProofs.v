From Verif Require Import Base BaseFacts OrderModel FileModel ExprModel CstrPy CstrModel CstrSpec.
Local Open Scope nat_scope.
Local Open Scope list_scope.

(** ** Lexical analysis *)
Definition stopc (c : ascii) : Prop := namec c = false /\ c <> "*"%char /\ c <> "="%char.

Lemma span_len : forall p s a r, span p s = (a, r) -> s = a ++ r.
Proof.
  intros p. induction s as [|c s IH]; intros a r H; cbn in H; [injection H as <- <-; reflexivity|].
  destruct (p c); [|injection H as <- <-; reflexivity].
  destruct (span p s) as [a1 r1]. injection H as <- <-. cbn. f_equal. apply IH. reflexivity.
Qed.
Lemma span_ext : forall p s a r c b, span p s = (a, r) -> p c = false -> span p (s ++ c :: b) = (a, r ++ c :: b).
Proof.
  intros p. induction s as [|d s IH]; intros a r c b H Hc; cbn in H |- *.
  - injection H as <- <-. rewrite Hc. reflexivity.
  - destruct (p d) eqn:E; [|injection H as <- <-; reflexivity].
    destruct (span p s) as [a1 r1] eqn:E1. injection H as <- <-. rewrite (IH _ _ c b eq_refl Hc). reflexivity.
Qed.
Lemma namec_digit : forall c, namec c = false -> digit c = false.
Proof. intros c H. unfold namec, wordc in H. apply orb_false_iff in H. destruct H as [H _]. apply orb_false_iff in H. destruct H as [H _]. apply orb_false_iff in H. apply H. Qed.
Lemma namec_dot : forall c, namec c = false -> Ascii.eqb c dot = false.
Proof. intros c H. unfold namec in H. apply orb_false_iff in H. destruct H as [H _]. apply orb_false_iff in H. apply H. Qed.
Lemma number_ext : forall s q r c b, number s = Some (q, r) -> namec c = false -> number (s ++ c :: b) = Some (q, r ++ c :: b).
Proof.
  intros s q r c b H Hc. unfold number in *. destruct (span digit s) as [ip r0] eqn:E.
  rewrite (span_ext _ _ _ _ c b E (namec_digit _ Hc)).
  destruct r0 as [|d r0]; cbn [app].
  - rewrite (namec_dot _ Hc). destruct ip; [discriminate|]. injection H as <- <-. reflexivity.
  - destruct (Ascii.eqb d dot).
    + destruct (span digit r0) as [fp r2] eqn:E2. rewrite (span_ext _ _ _ _ c b E2 (namec_digit _ Hc)).
      destruct (ip ++ fp); [discriminate|]. injection H as <- <-. reflexivity.
    + destruct ip; [discriminate|]. injection H as <- <-. reflexivity.
Qed.
Lemma number_len : forall s q r, number s = Some (q, r) -> length r < length s.
Proof.
  intros s q r H. unfold number in H. destruct (span digit s) as [ip r0] eqn:E. apply span_len in E. subst s.
  destruct r0 as [|d r0].
  - destruct ip; [discriminate|]. injection H as _ <-. cbn. lia.
  - destruct (Ascii.eqb d dot).
    + destruct (span digit r0) as [fp r2] eqn:E2. apply span_len in E2. subst r0.
      destruct (ip ++ fp); [discriminate|]. injection H as _ <-. rewrite !app_length. cbn. rewrite app_length. lia.
    + destruct ip; [discriminate|]. injection H as _ <-. rewrite !app_length. cbn. lia.
Qed.
Lemma lex1_len : forall s t r, lex1 s = Some (t, r) -> length r < length s.
Proof.
  intros [|c s] t r H; [discriminate|]. cbn [lex1] in H. destruct (letter c).
  - destruct (span namec s) as [w r1] eqn:E. apply span_len in E. subst s. injection H as _ <-. cbn. rewrite app_length. lia.
  - destruct (digit c || Ascii.eqb c dot).
    + destruct (number (c :: s)) as [[q r0]|] eqn:E; [|discriminate]. apply number_len in E.
      destruct r0 as [|d r1]; [injection H as _ <-; cbn in *; lia|].
      destruct (namec d); [discriminate|]. injection H as _ <-. exact E.
    + repeat (match type of H with
              | (match ?x with _ => _ end) = _ => destruct x eqn:?; cbn [length] in *; try discriminate
              end); injection H as _ <-; cbn [length] in *; lia.
Qed.
Lemma double_stop : forall c d2 t2 t1 d, double c = Some (d2, t2, t1) -> stopc d -> Ascii.eqb d d2 = false.
Proof.
  intros c d2 t2 t1 d H (_ & H1 & H2). unfold double in H.
  repeat match type of H with (if ?x then _ else _) = _ => destruct x end; try discriminate; injection H as <- _ _; apply Ascii.eqb_neq; assumption.
Qed.
Lemma lex1_ext : forall s t r c b, lex1 s = Some (t, r) -> stopc c -> lex1 (s ++ c :: b) = Some (t, r ++ c :: b).
Proof.
  intros [|d s] t r c b H Hc; [discriminate|]. cbn [lex1 app] in *. destruct (letter d).
  - destruct (span namec s) as [w r1] eqn:E. rewrite (span_ext _ _ _ _ c b E (proj1 Hc)). injection H as <- <-. reflexivity.
  - destruct (digit d || Ascii.eqb d dot).
    + destruct (number (d :: s)) as [[q r0]|] eqn:E; [|discriminate].
      pose proof (number_ext _ _ _ c b E (proj1 Hc)) as E2. cbn [app] in E2. rewrite E2.
      destruct r0 as [|e r1]; cbn [app]; [rewrite (proj1 Hc); injection H as <- <-; reflexivity|].
      destruct (namec e); [discriminate|]. injection H as <- <-. reflexivity.
    + destruct (single d); [injection H as <- <-; reflexivity|].
      destruct (double d) as [[[d2 t2] t1]|] eqn:Ed; [|discriminate].
      destruct s as [|e s]; cbn [app].
      * rewrite (double_stop _ _ _ _ _ Ed Hc). injection H as <- <-. reflexivity.
      * destruct (Ascii.eqb e d2); injection H as <- <-; reflexivity.
Qed.
Lemma lex_fuel : forall f g s, length s <= f -> length s <= g -> lex f s = lex g s.
Proof.
  induction f as [|f IH]; intros g s Hf Hg; destruct s as [|c s]; cbn [length] in *; try lia; [destruct g; reflexivity|destruct g; reflexivity|].
  destruct g as [|g]; [lia|]. cbn [lex]. destruct (blank c); [apply IH; lia|].
  destruct (lex1 (c :: s)) as [[t r]|] eqn:E; [|reflexivity]. apply lex1_len in E. cbn [length] in E. rewrite (IH g r); [reflexivity|lia|lia].
Qed.
Lemma tokens_blank : forall c s, blank c = true -> tokens (c :: s) = tokens s.
Proof. intros c s H. unfold tokens. cbn [length lex]. rewrite H. reflexivity. Qed.
Lemma tokens_step : forall c s t r, blank c = false -> lex1 (c :: s) = Some (t, r) ->
  tokens (c :: s) = match tokens r with Some ts => Some (t :: ts) | None => None end.
Proof.
  intros c s t r H E. unfold tokens at 1. cbn [length lex]. rewrite H, E. apply lex1_len in E. cbn [length] in E.
  unfold tokens. rewrite (lex_fuel (length s) (length r) r); [reflexivity|lia|lia].
Qed.
Lemma tokens_none : forall c s, blank c = false -> lex1 (c :: s) = None -> tokens (c :: s) = None.
Proof. intros c s H E. unfold tokens. cbn [length lex]. rewrite H, E. reflexivity. Qed.
Definition after (ts : list tok) (o : option (list tok)) : option (list tok) := option_map (app ts) o.
Lemma tokens_app : forall n s ts c b, length s <= n -> tokens s = Some ts -> stopc c -> tokens (s ++ c :: b) = after ts (tokens (c :: b)).
Proof.
  induction n as [|n IH]; intros s ts c b Hn H Hc; destruct s as [|d s]; cbn [length] in *; try lia.
  - injection H as <-. cbn [app]. destruct (tokens (c :: b)); reflexivity.
  - injection H as <-. cbn [app]. destruct (tokens (c :: b)); reflexivity.
  - cbn [app]. destruct (blank d) eqn:Eb.
    + rewrite tokens_blank in H |- * by assumption. apply IH; [lia|exact H|exact Hc].
    + destruct (lex1 (d :: s)) as [[t r]|] eqn:E; [|rewrite tokens_none in H; [discriminate|assumption|assumption]].
      rewrite (tokens_step _ _ _ _ Eb E) in H. pose proof (lex1_ext _ _ _ c b E Hc) as E2. cbn [app] in E2.
      rewrite (tokens_step _ _ _ _ Eb E2). apply lex1_len in E. cbn [length] in E.
      destruct (tokens r) as [ts1|] eqn:E1; [|discriminate]. injection H as <-.
      rewrite (IH r ts1 c b); [|lia|exact E1|exact Hc]. destruct (tokens (c :: b)); reflexivity.
Qed.
Lemma tokens_cat : forall s ts c b, tokens s = Some ts -> stopc c -> tokens (s ++ c :: b) = after ts (tokens (c :: b)).
Proof. intros. apply tokens_app with (n := length s); auto. Qed.

(** blanks around a text do not change its tokens *)
Lemma space_lex : forall c s ts, is_space c = true -> tokens (c :: s) = Some ts -> blank c = true.
Proof.
  intros c s ts H E. destruct (blank c) eqn:Eb; [reflexivity|]. exfalso.
  assert (N : lex1 (c :: s) = None).
  { destruct c as [[] [] [] [] [] [] [] []]; try discriminate H; try discriminate Eb; reflexivity. }
  rewrite (tokens_none _ _ Eb N) in E. discriminate.
Qed.
Lemma tokens_lstrip : forall s ts, tokens s = Some ts -> tokens (lstrip s) = Some ts.
Proof.
  induction s as [|c s IH]; intros ts H; [exact H|]. cbn [lstrip]. destruct (is_space c) eqn:E; [|exact H].
  apply IH. rewrite tokens_blank in H; [exact H|]. exact (space_lex _ _ _ E H).
Qed.
Lemma space_stop : forall c, is_space c = true -> stopc c.
Proof. intros c H. destruct c as [[] [] [] [] [] [] [] []]; try discriminate H; (split; [reflexivity|split; discriminate]). Qed.
Lemma number_none : forall s c b, number s = None -> namec c = false -> number (s ++ c :: b) = None.
Proof.
  intros s c b H Hc. unfold number in *. destruct (span digit s) as [ip r0] eqn:E.
  rewrite (span_ext _ _ _ _ c b E (namec_digit _ Hc)).
  destruct r0 as [|d r0]; cbn [app].
  - rewrite (namec_dot _ Hc). destruct ip; [reflexivity|discriminate].
  - destruct (Ascii.eqb d dot).
    + destruct (span digit r0) as [fp r2] eqn:E2. rewrite (span_ext _ _ _ _ c b E2 (namec_digit _ Hc)).
      destruct (ip ++ fp); [reflexivity|discriminate].
    + destruct ip; [reflexivity|discriminate].
Qed.
Lemma lex1_none : forall d s c b, lex1 (d :: s) = None -> stopc c -> lex1 (d :: s ++ c :: b) = None.
Proof.
  intros d s c b H Hc. cbn [lex1] in *. destruct (letter d).
  - destruct (span namec s); discriminate.
  - destruct (digit d || Ascii.eqb d dot).
    + destruct (number (d :: s)) as [[q r0]|] eqn:E.
      * pose proof (number_ext _ _ _ c b E (proj1 Hc)) as E2. cbn [app] in E2. rewrite E2.
        destruct r0 as [|e r1]; [discriminate|]. cbn [app]. destruct (namec e); [reflexivity|discriminate].
      * pose proof (number_none _ c b E (proj1 Hc)) as E2. cbn [app] in E2. rewrite E2. reflexivity.
    + destruct (single d); [discriminate|]. destruct (double d) as [[[d2 t2] t1]|]; [|reflexivity].
      destruct s as [|e s]; [discriminate|]. destruct (Ascii.eqb e d2); discriminate.
Qed.
Lemma tokens_front : forall n s ts c b, length s <= n -> stopc c -> tokens (s ++ c :: b) = Some ts -> exists ts1, tokens s = Some ts1.
Proof.
  induction n as [|n IH]; intros s ts c b Hn Hc H; destruct s as [|d s]; cbn [length] in *; try lia; [exists []; reflexivity|exists []; reflexivity|].
  cbn [app] in H. destruct (blank d) eqn:Eb.
  - rewrite tokens_blank in H |- * by assumption. apply IH with (ts := ts) (c := c) (b := b); [lia|exact Hc|exact H].
  - destruct (lex1 (d :: s)) as [[t r]|] eqn:E.
    + rewrite (tokens_step _ _ _ _ Eb E). pose proof (lex1_ext _ _ _ c b E Hc) as E2. cbn [app] in E2.
      rewrite (tokens_step _ _ _ _ Eb E2) in H. apply lex1_len in E. cbn [length] in E.
      destruct (tokens (r ++ c :: b)) as [ts2|] eqn:E3; [|discriminate].
      destruct (IH r ts2 c b) as (ts1 & E1); [lia|exact Hc|exact E3|]. rewrite E1. eexists; reflexivity.
    + rewrite (tokens_none _ _ Eb (lex1_none _ _ _ _ E Hc)) in H. discriminate.
Qed.
Lemma tokens_snoc : forall s c ts, is_space c = true -> tokens (s ++ [c]) = Some ts -> tokens s = Some ts.
Proof.
  intros s c ts Hc H. pose proof (space_stop _ Hc) as Hs. destruct (tokens_front (length s) s ts c [] (le_n _) Hs H) as (ts1 & E).
  rewrite (tokens_cat _ _ _ [] E Hs) in H. destruct (tokens [c]) as [t2|] eqn:E2; [|discriminate]. cbn in H. injection H as <-.
  pose proof (space_lex _ _ _ Hc E2) as Hb. rewrite tokens_blank in E2 by exact Hb. injection E2 as <-. rewrite app_nil_r. exact E.
Qed.
Lemma lstrip_split : forall s, exists w, s = w ++ lstrip s /\ forallb is_space w = true.
Proof.
  induction s as [|c s (w & IH & F)]; [exists []; split; reflexivity|]. cbn [lstrip]. destruct (is_space c) eqn:E; [|exists []; split; reflexivity].
  exists (c :: w). cbn. rewrite E, F. split; [f_equal; exact IH|reflexivity].
Qed.
Lemma tokens_snocs : forall w s ts, forallb is_space w = true -> tokens (s ++ w) = Some ts -> tokens s = Some ts.
Proof.
  induction w as [|c w IH]; intros s ts F H; [rewrite app_nil_r in H; exact H|].
  cbn in F. apply andb_true_iff in F. destruct F as [Fc Fw]. apply tokens_snoc with (c := c); [exact Fc|].
  apply IH; [exact Fw|]. rewrite <- app_assoc. exact H.
Qed.
Lemma rstrip_split : forall s, exists w, s = rstrip s ++ w /\ forallb is_space w = true.
Proof.
  intros s. destruct (lstrip_split (rev s)) as (w & E & F). exists (rev w). unfold rstrip. split.
  - rewrite <- rev_app_distr, <- E, rev_involutive. reflexivity.
  - apply forallb_forall. intros x Hx. apply in_rev in Hx. exact (proj1 (forallb_forall _ _) F x Hx).
Qed.
Lemma tokens_strip : forall s ts, tokens s = Some ts -> tokens (strip s) = Some ts.
Proof.
  intros s ts H. apply tokens_lstrip in H. unfold strip. destruct (rstrip_split (lstrip s)) as (w & E & F).
  rewrite E in H. exact (tokens_snocs _ _ _ F H).
Qed.
Lemma strip_in : forall s c, In c (strip s) -> In c s.
Proof.
  intros s c H. unfold strip in H. destruct (lstrip_split s) as (w & E & _). rewrite E. apply in_or_app. right.
  destruct (rstrip_split (lstrip s)) as (w2 & E2 & _). rewrite E2. apply in_or_app. left. exact H.
Qed.

(** ** Reading *)
Definition stops (m : mode) (k : tok) : bool :=
  match m, k with
  | _, (TRp | TRb | TComma | TAssign) => true
  | (MArith | MArithL _ | MTerm | MTermL _ | MFactor | MPower | MAtom | MPost _), TCmp _ => true
  | (MTerm | MTermL _ | MFactor | MPower | MAtom | MPost _), (TPlus | TMinus) => true
  | (MFactor | MPower | MAtom | MPost _), (TStar | TSlash) => true
  | (MAtom | MPost _), TPow => true
  | MArgs _ _, _ => true
  | _, _ => false
  end.
Lemma parse_mono : forall f g m ts x, parse f m ts = Some x -> f <= g -> parse g m ts = Some x.
Proof.
  induction f as [|f IH]; intros g m ts x H Hg; [discriminate|]. destruct g as [|g]; [lia|].
  assert (M : forall m ts x, parse f m ts = Some x -> parse g m ts = Some x) by (intros; apply IH; [assumption|lia]). clear IH.
  cbn [parse] in *.
  destruct m;
  repeat match type of H with
  | context [parse f ?m ?t] => 
      let E := fresh "E" in destruct (parse f m t) as [[? ?]|] eqn:E; [rewrite (M _ _ _ E)|]
  | (match ?x with _ => _ end) = Some _ => destruct x; try discriminate H
  end; try discriminate H; try exact H; auto.
Qed.
Lemma parse_nil : forall f m e r, parse f m [] = Some (e, r) -> r = [].
Proof.
  induction f as [|f IH]; intros m e r H; [discriminate|]. cbn [parse] in H.
  destruct m; try (injection H as _ <-; reflexivity); try discriminate H.
  - destruct (parse f MArith []) as [[a r1]|] eqn:E; [|discriminate]. rewrite (IH _ _ _ E) in H. exact (IH _ _ _ H).
  - destruct (parse f MTerm []) as [[a r1]|] eqn:E; [|discriminate]. rewrite (IH _ _ _ E) in H. exact (IH _ _ _ H).
  - destruct (parse f MFactor []) as [[a r1]|] eqn:E; [|discriminate]. rewrite (IH _ _ _ E) in H. exact (IH _ _ _ H).
  - exact (IH _ _ _ H).
  - destruct (parse f MAtom []) as [[a r1]|] eqn:E; [|discriminate]. rewrite (IH _ _ _ E) in H. injection H as _ <-. reflexivity.
  - destruct (parse f MCmp []) as [[a r1]|] eqn:E; [|discriminate]. rewrite (IH _ _ _ E) in H. discriminate.
Qed.
Section Ext.
Variable k : tok.
Variable w : list tok.
Lemma parse_ext : forall f m ts e r, parse f m ts = Some (e, r) -> (r = [] -> stops m k = true) -> parse f m (ts ++ k :: w) = Some (e, r ++ k :: w).
Proof.
  induction f as [|f IH]; intros m ts e r H Hs; [discriminate|].
  (* a first part followed by the rest of the same level *)
  assert (two : forall m1 m2 ts a r1 e, parse f m1 ts = Some (a, r1) -> parse f m2 r1 = Some (e, r) -> (stops m k = true -> stops m1 k = true) -> (stops m k = true -> stops m2 k = true) ->
                parse f m1 (ts ++ k :: w) = Some (a, r1 ++ k :: w) /\ parse f m2 (r1 ++ k :: w) = Some (e, r ++ k :: w)).
  { intros m1 m2 t0 a r1 e0 H1 H2 S1 S2. split; apply IH; auto. intros ->. apply S1, Hs. exact (parse_nil _ _ _ _ H2). }
  assert (inside : forall m1 ts a d r1, parse f m1 ts = Some (a, d :: r1) -> parse f m1 (ts ++ k :: w) = Some (a, d :: r1 ++ k :: w)).
  { intros m1 t0 a d r1 H1. apply (IH _ _ _ (d :: r1)); [exact H1|discriminate]. }
  cbn [parse] in *. destruct m.
  - destruct (parse f MArith ts) as [[a r1]|] eqn:E; [|discriminate]. destruct (two _ _ _ _ _ _ E H) as [-> ->]; [destruct k; auto|auto|reflexivity].
  - destruct ts as [|t ts]; cbn [app].
    + injection H as <- <-. specialize (Hs eq_refl). destruct k; cbn in Hs; try discriminate Hs; reflexivity.
    + destruct t; try (injection H as <- <-; reflexivity).
      destruct (parse f MArith ts) as [[b r1]|] eqn:E; [|discriminate]. destruct (two _ _ _ _ _ _ E H) as [-> ->]; [destruct k; auto|auto|reflexivity].
  - destruct (parse f MTerm ts) as [[a0 r1]|] eqn:E; [|discriminate]. destruct (two _ _ _ _ _ _ E H) as [-> ->]; [destruct k; auto|auto|reflexivity].
  - destruct ts as [|t ts]; cbn [app].
    + injection H as <- <-. specialize (Hs eq_refl). destruct k; cbn in Hs; try discriminate Hs; reflexivity.
    + destruct t; try (injection H as <- <-; reflexivity);
      (destruct (parse f MTerm ts) as [[b r1]|] eqn:E; [|discriminate]; destruct (two _ _ _ _ _ _ E H) as [-> ->]; [destruct k; auto|auto|reflexivity]).
  - destruct (parse f MFactor ts) as [[a0 r1]|] eqn:E; [|discriminate]. destruct (two _ _ _ _ _ _ E H) as [-> ->]; [destruct k; auto|auto|reflexivity].
  - destruct ts as [|t ts]; cbn [app].
    + injection H as <- <-. specialize (Hs eq_refl). destruct k; cbn in Hs; try discriminate Hs; reflexivity.
    + destruct t; try (injection H as <- <-; reflexivity);
      (destruct (parse f MFactor ts) as [[b r1]|] eqn:E; [|discriminate]; destruct (two _ _ _ _ _ _ E H) as [-> ->]; [destruct k; auto|auto|reflexivity]).
  - assert (P : parse f MPower ts = Some (e, r) -> parse f MPower (ts ++ k :: w) = Some (e, r ++ k :: w)) by (intros HP; apply IH; [exact HP|intros ->; specialize (Hs eq_refl); destruct k; auto]).
    destruct ts as [|t ts]; cbn [app] in *.
    + destruct f; [discriminate H|]. cbn in H. destruct f; cbn in H; discriminate H.
    + destruct t; try (apply P; exact H).
      * apply IH; [exact H|exact Hs].
      * destruct (parse f MFactor ts) as [[a r1]|] eqn:E; [|discriminate]. injection H as <- <-. rewrite (IH _ _ _ _ E); [reflexivity|exact Hs].
  - destruct (parse f MAtom ts) as [[a r1]|] eqn:E; [|discriminate]. destruct r1 as [|d r1].
    + injection H as <- <-. rewrite (IH _ _ _ _ E); [|intros _; specialize (Hs eq_refl); destruct k; auto]. specialize (Hs eq_refl). cbn [app]. destruct k; try discriminate Hs; reflexivity.
    + rewrite (inside _ _ _ _ _ E). destruct d; try (injection H as <- <-; reflexivity).
      destruct (parse f MFactor r1) as [[b r2]|] eqn:E2; [|discriminate]. injection H as <- <-. rewrite (IH _ _ _ _ E2); [reflexivity|intros ->; specialize (Hs eq_refl); destruct k; auto].
  - destruct ts as [|t ts]; cbn [app]; [discriminate|].
    assert (P : forall a t0, parse f (MPost a) t0 = Some (e, r) -> parse f (MPost a) (t0 ++ k :: w) = Some (e, r ++ k :: w)) by (intros a t0 HP; apply IH; [exact HP|intros ->; specialize (Hs eq_refl); destruct k; auto]).
    destruct t; try discriminate H.
    + apply P; exact H.
    + destruct ts as [|t ts]; cbn [app].
      * assert (Hr : r = []) by exact (parse_nil _ _ _ _ H). specialize (P _ _ H). cbn [app] in P. specialize (Hs Hr). destruct k; try discriminate Hs; exact P.
      * destruct t; try (apply (P _ (_ :: ts)); exact H).
        assert (Q : match parse f (MArgs n []) ts with Some (a, r1) => parse f (MPost a) r1 | None => None end = Some (e, r) ->
                    match parse f (MArgs n []) (ts ++ k :: w) with Some (a, r1) => parse f (MPost a) r1 | None => None end = Some (e, r ++ k :: w)).
        { intros HQ. destruct (parse f (MArgs n []) ts) as [[a r1]|] eqn:E; [|discriminate]. rewrite (IH _ _ _ _ E); [|intros _; destruct k; reflexivity]. apply P; exact HQ. }
        destruct ts as [|t ts]; cbn [app] in *.
        -- exfalso. destruct f as [|f']; [discriminate H|]. destruct (parse (S f') (MArgs n []) []) as [[a r1]|] eqn:E; [|discriminate H].
           cbn [parse] in E. destruct (parse f' MCmp []) as [[a0 r0]|] eqn:E0; [|discriminate E]. rewrite (parse_nil _ _ _ _ E0) in E. discriminate E.
        -- destruct t; try (apply Q; exact H). apply P; exact H.
    + destruct (parse f MCmp ts) as [[a r1]|] eqn:E; [|discriminate]. destruct r1 as [|d r1]; [discriminate|].
      rewrite (inside _ _ _ _ _ E). destruct d; try discriminate H. apply P; exact H.
  - destruct ts as [|t ts]; cbn [app].
    + injection H as <- <-. specialize (Hs eq_refl). destruct k; cbn in Hs; try discriminate Hs; reflexivity.
    + destruct t; try (injection H as <- <-; reflexivity).
      destruct (parse f MCmp ts) as [[i r1]|] eqn:E; [|discriminate]. destruct r1 as [|d r1]; [discriminate|].
      rewrite (inside _ _ _ _ _ E). destruct d; try discriminate H. apply IH; [exact H|exact Hs].
  - destruct (parse f MCmp ts) as [[a r1]|] eqn:E; [|discriminate]. destruct r1 as [|d r1]; [discriminate|].
    rewrite (inside _ _ _ _ _ E). destruct d; try discriminate H; [injection H as <- <-; reflexivity|]. apply IH; [exact H|]. destruct k; reflexivity.
Qed.
End Ext.
Lemma parse_all_in : forall m ts e, parse_all m ts = Some e -> parse (fuel_for m ts) m ts = Some (e, []).
Proof. intros m ts e H. unfold parse_all in H. destruct (parse (fuel_for m ts) m ts) as [[x [|]]|]; try discriminate. injection H as ->. reflexivity. Qed.
Lemma parse_all_at : forall f m ts e, parse f m ts = Some (e, []) -> f <= fuel_for m ts -> parse_all m ts = Some e.
Proof. intros f m ts e H L. unfold parse_all. rewrite (parse_mono _ _ _ _ _ H L). reflexivity. Qed.
Lemma loop_minus : forall f acc ts e more d x, parse f (MArithL acc) ts = Some (e, []) -> parse d (MArithL e) (TMinus :: more) = Some x ->
  parse (f + d) (MArithL acc) (ts ++ TMinus :: more) = Some x.
Proof.
  induction f as [|f IH]; intros acc ts e more d x H Hd; [discriminate|]. cbn [parse plus] in H |- *.
  destruct ts as [|t ts].
  - injection H as <-. cbn [app]. assert (L : d <= S (f + d)) by lia. exact (parse_mono _ _ _ _ _ Hd L).
  - destruct t; try discriminate H; cbn [app];
    (destruct (parse f MTerm ts) as [[b r1]|] eqn:E; [|discriminate];
     rewrite (parse_mono f (f + d) MTerm (ts ++ TMinus :: more) (b, r1 ++ TMinus :: more)); [eapply IH; eassumption| |lia];
     apply parse_ext; [exact E|reflexivity]).
Qed.
(** a parenthesised expression after a minus sign *)
Lemma factor_paren : forall tb b, parse_all MCmp tb = Some b -> parse (fuel_for MCmp tb + 3) MFactor (TLp :: tb ++ [TRp]) = Some (b, []).
Proof.
  intros tb b H. apply parse_all_in in H. pose proof (parse_ext TRp [] _ _ _ _ _ H (fun _ => eq_refl)) as E. cbn [app] in E.
  replace (fuel_for MCmp tb + 3) with (S (S (S (fuel_for MCmp tb)))) by lia. cbn [parse]. rewrite E. unfold fuel_for. rewrite (Nat.add_comm (16 * _)). reflexivity.
Qed.
Lemma term_paren : forall tb b, parse_all MCmp tb = Some b -> parse (fuel_for MCmp tb + 4) MTerm (TLp :: tb ++ [TRp]) = Some (b, []).
Proof.
  intros tb b H. replace (fuel_for MCmp tb + 4) with (S (fuel_for MCmp tb + 3)) by lia. change (parse (S (fuel_for MCmp tb + 3)) MTerm (TLp :: tb ++ [TRp])) with
    (match parse (fuel_for MCmp tb + 3) MFactor (TLp :: tb ++ [TRp]) with Some (a, r) => parse (fuel_for MCmp tb + 3) (MTermL a) r | None => None end).
  rewrite (factor_paren _ _ H). unfold fuel_for. rewrite (Nat.add_comm (16 * _)). reflexivity.
Qed.
Lemma read_sub : forall ta tb a b, parse_all MArith ta = Some a -> parse_all MCmp tb = Some b -> parse_all MArith (ta ++ TMinus :: TLp :: tb ++ [TRp]) = Some (ESub a b).
Proof.
  intros ta tb a b Ha Hb. apply parse_all_in in Ha. pose proof (term_paren _ _ Hb) as T.
  assert (D : parse (fuel_for MCmp tb + 5) (MArithL a) (TMinus :: TLp :: tb ++ [TRp]) = Some (ESub a b, [])).
  { replace (fuel_for MCmp tb + 5) with (S (fuel_for MCmp tb + 4)) by lia. cbn [parse]. rewrite T. unfold fuel_for. rewrite (Nat.add_comm (16 * _)). reflexivity. }
  remember (fuel_for MArith ta) as fa. destruct fa as [|f]; [discriminate|]. cbn [parse] in Ha. destruct (parse f MTerm ta) as [[x r]|] eqn:E; [|discriminate].
  apply parse_all_at with (f := S (f + (fuel_for MCmp tb + 5))).
  - cbn [parse]. rewrite (parse_mono f (f + (fuel_for MCmp tb + 5)) MTerm _ (x, r ++ TMinus :: TLp :: tb ++ [TRp])); [eapply loop_minus; eassumption| |lia].
    apply parse_ext; [exact E|reflexivity].
  - unfold fuel_for in *. rewrite app_length. cbn [length]. rewrite app_length. cbn [length]. lia.
Qed.
Lemma read_neg : forall tb b, parse_all MCmp tb = Some b -> parse_all MArith (TMinus :: TLp :: tb ++ [TRp]) = Some (ENeg b).
Proof.
  intros tb b H. pose proof (factor_paren _ _ H) as F. apply parse_all_at with (f := S (S (S (fuel_for MCmp tb + 3)))).
  - change (parse (S (S (S (fuel_for MCmp tb + 3)))) MArith (TMinus :: TLp :: tb ++ [TRp])) with
     (match (match (match parse (fuel_for MCmp tb + 3) MFactor (TLp :: tb ++ [TRp]) with Some (a, r1) => Some (ENeg a, r1) | None => None end) with
             | Some (a, r) => parse (S (fuel_for MCmp tb + 3)) (MTermL a) r | None => None end) with
      | Some (a, r) => parse (S (S (fuel_for MCmp tb + 3))) (MArithL a) r | None => None end).
    rewrite F. reflexivity.
  - unfold fuel_for. cbn [length]. rewrite app_length. cbn [length]. lia.
Qed.
Lemma read_cmp_level : forall ts a, parse_all MArith ts = Some a -> parse_all MCmp ts = Some a.
Proof.
  intros ts a H. apply parse_all_in in H. apply parse_all_at with (f := S (fuel_for MArith ts)).
  - cbn [parse]. rewrite H. unfold fuel_for. rewrite (Nat.add_comm (16 * _)). reflexivity.
  - unfold fuel_for. lia.
Qed.
Lemma read_compare : forall ta tb c a b, parse_all MArith ta = Some a -> parse_all MArith tb = Some b -> parse_all MCmp (ta ++ TCmp c :: tb) = Some (ECmp a [(c, b)]).
Proof.
  intros ta tb c a b Ha Hb. apply parse_all_in in Ha. apply parse_all_in in Hb.
  set (f := fuel_for MArith ta + fuel_for MArith tb).
  assert (A : parse (S f) MArith (ta ++ TCmp c :: tb) = Some (a, TCmp c :: tb)).
  { apply (parse_mono (fuel_for MArith ta)); [|unfold f; lia]. apply (parse_ext (TCmp c) tb _ _ _ _ [] Ha). reflexivity. }
  assert (B : parse f MArith tb = Some (b, [])) by (apply (parse_mono (fuel_for MArith tb)); [exact Hb|unfold f; lia]).
  apply parse_all_at with (f := S (S f)).
  - change (parse (S (S f)) MCmp (ta ++ TCmp c :: tb)) with (match parse (S f) MArith (ta ++ TCmp c :: tb) with Some (x, r) => parse (S f) (MCmpL x []) r | None => None end).
    rewrite A. change (parse (S f) (MCmpL a []) (TCmp c :: tb)) with (match parse f MArith tb with Some (y, r1) => parse f (MCmpL a [(c, y)]) r1 | None => None end).
    rewrite B. unfold f, fuel_for. rewrite (Nat.add_comm (16 * length ta)). reflexivity.
  - unfold f, fuel_for. rewrite app_length. cbn [length]. lia.
Qed.

(** ** Splitting *)
Lemma strip_prefix_head : forall p s c, ~ In c s -> strip_prefix (c :: p) s = None.
Proof. intros p [|d s] c H; [reflexivity|]. cbn. destruct (Ascii.eqb c d) eqn:E; [|reflexivity]. apply Ascii.eqb_eq in E. subst. exfalso. apply H. left. reflexivity. Qed.
Lemma find_none : forall p s c, ~ In c s -> find_first (c :: p) s = None.
Proof.
  intros p s c. induction s as [|d s IH]; intros H; [reflexivity|].
  cbn [find_first]. rewrite (strip_prefix_head p (d :: s) c H). rewrite IH; [reflexivity|]. intros Hi. apply H. right. exact Hi.
Qed.
Lemma find_skip : forall p c l s, ~ In c l -> find_first (c :: p) (l ++ s) = match find_first (c :: p) s with Some (a, b) => Some (l ++ a, b) | None => None end.
Proof.
  intros p c. induction l as [|d l IH]; intros s H; cbn [app]; [destruct (find_first (c :: p) s) as [[a b]|]; reflexivity|].
  cbn [find_first]. replace (strip_prefix (c :: p) (d :: l ++ s)) with (@None text).
  - rewrite IH by (intros Hi; apply H; right; exact Hi). destruct (find_first (c :: p) s) as [[a b]|]; reflexivity.
  - cbn. destruct (Ascii.eqb c d) eqn:E; [|reflexivity]. apply Ascii.eqb_eq in E. subst. exfalso. apply H. left. reflexivity.
Qed.
Lemma find_here : forall p s, p <> [] -> find_first p (p ++ s) = Some ([], s).
Proof.
  intros p s Hp. assert (E : forall q t, strip_prefix q (q ++ t) = Some t) by (induction q; intros; cbn; [reflexivity|rewrite Ascii.eqb_refl; auto]).
  destruct p as [|c p]; [contradiction|]. cbn [app find_first]. pose proof (E (c :: p) s) as E1. cbn [app] in E1. rewrite E1. reflexivity.
Qed.
Lemma split_one : forall sep s, find_first sep s = None -> split_fuel (length s) sep s = [s].
Proof. intros sep s H. destruct (length s); cbn; [reflexivity|rewrite H; reflexivity]. Qed.
Lemma split_two : forall c p l r, ~ In c l -> ~ In c r -> split_fuel (length (l ++ (c :: p) ++ r)) (c :: p) (l ++ (c :: p) ++ r) = [l; r].
Proof.
  intros c p l r Hl Hr. rewrite app_length. cbn [app length]. replace (length l + S (length (p ++ r))) with (S (length l + length (p ++ r))) by lia.
  cbn [split_fuel]. rewrite find_skip by exact Hl. change (c :: p ++ r) with ((c :: p) ++ r). rewrite (find_here (c :: p) r) by discriminate. rewrite app_nil_r.
  destruct (length l + length (p ++ r)); cbn [split_fuel]; [reflexivity|]. rewrite find_none by exact Hr. reflexivity.
Qed.
Lemma plain_not : forall s, plain s -> ~ In "<"%char s /\ ~ In ">"%char s /\ ~ In "="%char s.
Proof. intros s H. repeat split; intros Hi; destruct (H _ Hi) as (A & B & C); congruence. Qed.
(** the comparators of constraints, with the equals sign *)
Definition comparator (op : text) : Prop := op = t_ "<" \/ op = t_ ">" \/ op = t_ "<=" \/ op = t_ ">=" \/ op = t_ "=".
Lemma sp_neq : forall c p d s, c <> d -> strip_prefix (c :: p) (d :: s) = None.
Proof. intros c p d s H. cbn. apply Ascii.eqb_neq in H. rewrite H. reflexivity. Qed.
Lemma sp_eq : forall c p s, strip_prefix (c :: p) (c :: s) = strip_prefix p s.
Proof. intros c p s. cbn [strip_prefix]. rewrite Ascii.eqb_refl. reflexivity. Qed.
Lemma find_step : forall sep d s, strip_prefix sep (d :: s) = None -> find_first sep s = None -> find_first sep (d :: s) = None.
Proof. intros sep d s H1 H2. cbn [find_first]. rewrite H1, H2. reflexivity. Qed.
Lemma find_skip_none : forall p c l s, ~ In c l -> find_first (c :: p) s = None -> find_first (c :: p) (l ++ s) = None.
Proof. intros p c l s H E. rewrite find_skip by exact H. rewrite E. reflexivity. Qed.
Ltac nosep := apply split_one; unfold t_; cbn [list_ascii_of_string]; apply find_skip_none; [assumption|]; cbn [app];
  repeat (apply find_step; [first [apply sp_neq; discriminate | rewrite sp_eq; first [apply strip_prefix_head; assumption | apply sp_neq; discriminate]]|]);
  apply find_none; assumption.
Lemma parse_constraint_plain : forall op l r, comparator op -> plain l -> plain r -> parse_constraint (l ++ op ++ r) = Ok (strip l, op, strip r).
Proof.
  intros op l r Ho Hl Hr. destruct (plain_not _ Hl) as (L1 & L2 & L3). destruct (plain_not _ Hr) as (R1 & R2 & R3).
  unfold parse_constraint, comparators. cbn [try_comparators].
  assert (N : forall sep, split_fuel (length (l ++ op ++ r)) sep (l ++ op ++ r) = [l ++ op ++ r] ->
     forall (k : list text) a b, match split_fuel (length (l ++ op ++ r)) sep (l ++ op ++ r) with [x; y] => a x y | _ => b end = (b : res (text * text * text))) by (intros sep E k a b; rewrite E; reflexivity).
  destruct Ho as [->|[->|[->|[->| ->]]]].
  - rewrite (N (t_ "==")) by (exact []||nosep). rewrite (N (t_ ">=")) by (exact []||nosep). rewrite (N (t_ "<=")) by (exact []||nosep). rewrite (N (t_ ">")) by (exact []||nosep).
    rewrite (split_two "<"%char [] l r L1 R1 : split_fuel (length (l ++ t_ "<" ++ r)) (t_ "<") (l ++ t_ "<" ++ r) = [l; r]). reflexivity.
  - rewrite (N (t_ "==")) by (exact []||nosep). rewrite (N (t_ ">=")) by (exact []||nosep). rewrite (N (t_ "<=")) by (exact []||nosep).
    rewrite (split_two ">"%char [] l r L2 R2 : split_fuel (length (l ++ t_ ">" ++ r)) (t_ ">") (l ++ t_ ">" ++ r) = [l; r]). reflexivity.
  - rewrite (N (t_ "==")) by (exact []||nosep). rewrite (N (t_ ">=")) by (exact []||nosep).
    rewrite (split_two "<"%char ["="%char] l r L1 R1 : split_fuel (length (l ++ t_ "<=" ++ r)) (t_ "<=") (l ++ t_ "<=" ++ r) = [l; r]). reflexivity.
  - rewrite (N (t_ "==")) by (exact []||nosep).
    rewrite (split_two ">"%char ["="%char] l r L2 R2 : split_fuel (length (l ++ t_ ">=" ++ r)) (t_ ">=") (l ++ t_ ">=" ++ r) = [l; r]). reflexivity.
  - rewrite (N (t_ "==")) by (exact []||nosep). rewrite (N (t_ ">=")) by (exact []||nosep). rewrite (N (t_ "<=")) by (exact []||nosep). rewrite (N (t_ ">")) by (exact []||nosep). rewrite (N (t_ "<")) by (exact []||nosep).
    rewrite (split_two "="%char [] l r L3 R3 : split_fuel (length (l ++ t_ "=" ++ r)) (t_ "=") (l ++ t_ "=" ++ r) = [l; r]). reflexivity.
Qed.
(** ** A number that is zero *)
Lemma digit_start : forall d, digit d = true \/ Ascii.eqb d dot = true -> letter d = false /\ blank d = false /\ (digit d || Ascii.eqb d dot) = true.
Proof.
  intros d H. assert (E : (digit d || Ascii.eqb d dot) = true) by (destruct H as [-> | ->]; [reflexivity|apply orb_true_r]).
  split; [|split; [|exact E]]; clear H; destruct d as [[] [] [] [] [] [] [] []]; try discriminate E; reflexivity.
Qed.
Lemma number_tokens : forall s q, number s = Some (q, []) -> tokens s = Some [TNum q].
Proof.
  intros [|d s] q H; [discriminate|].
  assert (D : digit d = true \/ Ascii.eqb d dot = true).
  { unfold number in H. cbn [span] in H. destruct (digit d); [left; reflexivity|]. destruct (Ascii.eqb d dot); [right; reflexivity|discriminate]. }
  destruct (digit_start _ D) as (L & B & E).
  assert (X : lex1 (d :: s) = Some (TNum q, [])) by (cbn [lex1]; rewrite L, E, H; reflexivity).
  rewrite (tokens_step _ _ _ _ B X). reflexivity.
Qed.
Lemma is_zero_eval : forall s ts a, is_zero s = true -> tokens s = Some ts -> parse_all MCmp ts = Some a ->
  forall W rho, exists z, eval W rho a = Some z /\ (z == 0)%Q.
Proof.
  intros s ts a H T P W rho. apply tokens_strip in T. unfold is_zero in H. destruct (strip s) as [|c r]; [discriminate|].
  destruct (Ascii.eqb c "+"%char) eqn:E1.
  - apply Ascii.eqb_eq in E1. subst c. cbn [orb] in H. destruct (number r) as [[q [|]]|] eqn:N; try discriminate.
    rewrite (tokens_step "+"%char r TPlus r) in T; [|reflexivity|reflexivity]. rewrite (number_tokens _ _ N) in T. injection T as <-.
    cbv in P. injection P as <-. exists q. split; [reflexivity|apply Qeq_bool_eq; exact H].
  - destruct (Ascii.eqb c "-"%char) eqn:E2.
    + apply Ascii.eqb_eq in E2. subst c. cbn [orb] in H. destruct (number r) as [[q [|]]|] eqn:N; try discriminate.
      rewrite (tokens_step "-"%char r TMinus r) in T; [|reflexivity|reflexivity]. rewrite (number_tokens _ _ N) in T. injection T as <-.
      cbv in P. injection P as <-. exists (- q)%Q. split; [reflexivity|]. apply Qeq_bool_eq in H. rewrite H. reflexivity.
    + cbn [orb] in H. destruct (number (c :: r)) as [[q [|]]|] eqn:N; try discriminate.
      rewrite (number_tokens _ _ N) in T. injection T as <-. cbv in P. injection P as <-. exists q. split; [reflexivity|apply Qeq_bool_eq; exact H].
Qed.

(** ** The combined expression *)
Definition oeq (x y : option Q) : Prop := match x, y with Some a, Some b => (a == b)%Q | None, None => True | _, _ => False end.
Definition minus2 (x y : option Q) : option Q := lift2 (fun u v => Some (u - v)%Q) x y.
Definition combine (first second : text) : text :=
  if is_zero first then t_ "-(" ++ second ++ t_ ")" else if is_zero second then first else first ++ t_ "-(" ++ second ++ t_ ")".
Lemma tokens_close : forall s ts, tokens s = Some ts -> tokens (s ++ t_ ")") = Some (ts ++ [TRp]).
Proof. intros s ts H. unfold t_. cbn [list_ascii_of_string]. rewrite (tokens_cat _ _ ")"%char [] H); [reflexivity|]. split; [reflexivity|split; discriminate]. Qed.
Lemma tokens_neg : forall s ts, tokens s = Some ts -> tokens (t_ "-(" ++ s ++ t_ ")") = Some (TMinus :: TLp :: ts ++ [TRp]).
Proof.
  intros s ts H. apply tokens_close in H. unfold t_ at 1. cbn [list_ascii_of_string app].
  rewrite (tokens_step "-"%char _ TMinus ("("%char :: s ++ t_ ")")); [|reflexivity|reflexivity].
  rewrite (tokens_step "("%char _ TLp (s ++ t_ ")")); [|reflexivity|reflexivity]. rewrite H. reflexivity.
Qed.
Lemma tokens_sub : forall f s ta ts, tokens f = Some ta -> tokens s = Some ts -> tokens (f ++ t_ "-(" ++ s ++ t_ ")") = Some (ta ++ TMinus :: TLp :: ts ++ [TRp]).
Proof.
  intros f s ta ts Hf Hs. pose proof (tokens_neg _ _ Hs) as N. 
  change (t_ "-(" ++ s ++ t_ ")") with ("-"%char :: "("%char :: s ++ t_ ")") in N |- *.
  rewrite (tokens_cat _ _ "-"%char _ Hf); [|split; [reflexivity|split; discriminate]]. rewrite N. reflexivity.
Qed.
Lemma combine_reads : forall f s ta tb a b, tokens f = Some ta -> parse_all MArith ta = Some a -> tokens s = Some tb -> parse_all MCmp tb = Some b ->
  exists te e, tokens (combine f s) = Some te /\ parse_all MArith te = Some e /\ forall W rho, oeq (eval W rho e) (minus2 (eval W rho a) (eval W rho b)).
Proof.
  intros f s ta tb a b Hf Ha Hs Hb. unfold combine. destruct (is_zero f) eqn:Zf.
  - exists (TMinus :: TLp :: tb ++ [TRp]), (ENeg b). split; [apply tokens_neg; exact Hs|]. split; [apply read_neg; exact Hb|].
    intros W rho. destruct (is_zero_eval _ _ _ Zf Hf (read_cmp_level _ _ Ha) W rho) as (z & Ez & Hz). rewrite Ez. cbn. destruct (eval W rho b); cbn; [|exact I]. rewrite Hz. ring.
  - destruct (is_zero s) eqn:Zs.
    + exists ta, a. split; [exact Hf|]. split; [exact Ha|]. intros W rho. destruct (is_zero_eval _ _ _ Zs Hs Hb W rho) as (z & Ez & Hz). rewrite Ez.
      destruct (eval W rho a); cbn; [|exact I]. rewrite Hz. ring.
    + exists (ta ++ TMinus :: TLp :: tb ++ [TRp]), (ESub a b). split; [apply tokens_sub; assumption|]. split; [apply read_sub; assumption|].
      intros W rho. cbn [eval]. fold (minus2 (eval W rho a) (eval W rho b)). destruct (minus2 _ _); cbn; [reflexivity|exact I].
Qed.

(** ** The statement *)
Lemma tokens_name : forall n, is_name n -> tokens n = Some [TName n].
Proof.
  intros n (c & r & -> & Hc & Hr).
  assert (S : span namec r = (r, [])).
  { clear Hc. induction r as [|d r IH]; [reflexivity|]. cbn in Hr |- *. apply andb_true_iff in Hr. destruct Hr as [-> Hr]. rewrite (IH Hr). reflexivity. }
  rewrite (tokens_step c r (TName (c :: r)) []); [reflexivity| |cbn [lex1]; rewrite Hc, S; reflexivity].
  destruct c as [[] [] [] [] [] [] [] []]; try discriminate Hc; reflexivity.
Qed.
Lemma tokens_stmt : forall n s ts, is_name n -> tokens s = Some ts -> tokens (n ++ t_ " = " ++ s) = Some (TName n :: TAssign :: ts).
Proof.
  intros n s ts Hn Hs. unfold t_. cbn [list_ascii_of_string app]. rewrite (tokens_cat _ _ " "%char _ (tokens_name _ Hn)); [|split; [reflexivity|split; discriminate]].
  rewrite tokens_blank by reflexivity. rewrite (tokens_step "="%char _ TAssign (" "%char :: s)); [|reflexivity|reflexivity].
  rewrite tokens_blank by reflexivity. rewrite Hs. reflexivity.
Qed.
Lemma statement_expr : forall m ts e, m = MCmp \/ m = MArith -> parse_all m ts = Some e -> statement ts = Some ([], ts).
Proof.
  intros m ts e Hm H. destruct ts as [|[] [|[] r]]; try reflexivity. exfalso. apply parse_all_in in H. unfold fuel_for in H.
  destruct Hm as [-> | ->]; rewrite Nat.add_comm in H; discriminate H.
Qed.
Lemma exec_stmt : forall W n s ts e rho, is_name n -> tokens s = Some ts -> parse_all MCmp ts = Some e ->
  exec W (n ++ t_ " = " ++ s) rho = match eval W rho e with Some v => Some (assign rho n v) | None => None end.
Proof.
  intros W n s ts e rho Hn Hs He. unfold exec. rewrite (tokens_stmt _ _ _ Hn Hs). cbn [statement]. rewrite (statement_expr MCmp _ _ (or_introl eq_refl) He).
  rewrite He. reflexivity.
Qed.
Lemma assign_same : forall rho n v, assign rho n v n = Some v.
Proof. intros rho n v. unfold assign, teqb. destruct (text_dec n n); [reflexivity|contradiction]. Qed.
Lemma assign_other : forall rho n v m, m <> n -> assign rho n v m = rho m.
Proof. intros rho n v m H. unfold assign, teqb. destruct (text_dec m n); [contradiction|reflexivity]. Qed.

(** ** Texts with other comparators *)
Lemma split_three : forall c p l m r, ~ In c l -> ~ In c m -> ~ In c r ->
  split_fuel (length (l ++ (c :: p) ++ m ++ (c :: p) ++ r)) (c :: p) (l ++ (c :: p) ++ m ++ (c :: p) ++ r) = [l; m; r].
Proof.
  intros c p l m r Hl Hm Hr. set (t := m ++ (c :: p) ++ r).
  assert (F : forall n, 2 <= n -> split_fuel n (c :: p) t = [m; r]).
  { intros n Hn. destruct n as [|[|n]]; try lia. cbn [split_fuel]. unfold t. rewrite find_skip by exact Hm. rewrite (find_here (c :: p) r) by discriminate. rewrite app_nil_r. rewrite find_none by exact Hr. reflexivity. }
  remember (length (l ++ (c :: p) ++ t)) as n. destruct n as [|n]; [rewrite !app_length in Heqn; cbn in Heqn; lia|].
  cbn [split_fuel]. rewrite find_skip by exact Hl. rewrite (find_here (c :: p) t) by discriminate. rewrite app_nil_r.
  destruct n as [|n].
  - rewrite app_length in Heqn. cbn [app length] in Heqn. unfold t in Heqn. rewrite !app_length in Heqn. cbn [length] in Heqn. lia.
  - destruct n as [|n].
    + cbn [split_fuel]. unfold t. rewrite find_skip by exact Hm. rewrite (find_here (c :: p) r) by discriminate. rewrite app_nil_r. reflexivity.
    + rewrite F by lia. reflexivity.
Qed.
Lemma not_in_snoc : forall (c d : ascii) l, ~ In c l -> c <> d -> ~ In c (l ++ [d]).
Proof. intros c d l H1 H2 H. apply in_app_or in H. destruct H as [H|[H|[]]]; [contradiction|congruence]. Qed.
Lemma not_in_cons : forall (c d : ascii) l, ~ In c l -> c <> d -> ~ In c (d :: l).
Proof. intros c d l H1 H2 [H|H]; [congruence|contradiction]. Qed.
Lemma sp_app : forall c p m s, ~ In c m -> strip_prefix (c :: p) s = None -> strip_prefix (c :: p) (m ++ s) = None.
Proof. intros c p [|d m] s H E; [exact E|]. cbn [app]. apply sp_neq. intros ->. apply H. left. reflexivity. Qed.
Ltac nofind := repeat match goal with
  | |- find_first _ (_ ++ _) = None => apply find_skip_none; [assumption|]
  | |- find_first _ (_ :: _) = None => apply find_step; [first [apply sp_neq; discriminate | rewrite sp_eq; first [apply strip_prefix_head; assumption | apply sp_neq; discriminate | apply sp_app; [assumption|apply sp_neq; discriminate]]]|]
  end; try (apply find_none; assumption).
Ltac nosep' := apply split_one; unfold t_; cbn [list_ascii_of_string app]; nofind.
Definition three (sep s : text) : Prop := exists x y z, split_fuel (length s) sep s = [x; y; z].
Definition whole (sep s : text) : Prop := split_fuel (length s) sep s = [s].
Lemma try_fails : forall cs s, (forall c, In c cs -> whole c s \/ three c s) -> try_comparators cs s = Err ValueError.
Proof.
  induction cs as [|c cs IH]; intros s H; [reflexivity|]. cbn [try_comparators].
  destruct (H c (or_introl eq_refl)) as [E|(x & y & z & E)]; rewrite E; apply IH; intros d Hd; apply H; right; exact Hd.
Qed.
Lemma three_at : forall c p l m r s, ~ In c l -> ~ In c m -> ~ In c r -> s = l ++ (c :: p) ++ m ++ (c :: p) ++ r -> three (c :: p) s.
Proof. intros c p l m r s H1 H2 H3 ->. exists l, m, r. apply split_three; assumption. Qed.
Lemma parse_constraint_none : forall s, plain s -> parse_constraint s = Err ValueError.
Proof.
  intros s H. destruct (plain_not _ H) as (L1 & L2 & L3). apply try_fails. intros c Hc. left. unfold whole.
  repeat (destruct Hc as [<-|Hc]); try contradiction; nosep'.
Qed.
Lemma parse_constraint_eqeq : forall l r, plain l -> plain r -> parse_constraint (l ++ t_ "==" ++ r) = Err ValueError.
Proof.
  intros l r Hl Hr. destruct (plain_not _ Hl) as (L1 & L2 & L3). destruct (plain_not _ Hr) as (R1 & R2 & R3).
  unfold parse_constraint, comparators. cbn [try_comparators].
  rewrite (split_two "="%char ["="%char] l r L3 R3 : split_fuel (length (l ++ t_ "==" ++ r)) (t_ "==") (l ++ t_ "==" ++ r) = [l; r]). reflexivity.
Qed.
Lemma parse_constraint_twice : forall op l m r, comparator op -> plain l -> plain m -> plain r -> parse_constraint (l ++ op ++ m ++ op ++ r) = Err ValueError.
Proof.
  intros op l m r Ho Hl Hm Hr. destruct (plain_not _ Hl) as (L1 & L2 & L3). destruct (plain_not _ Hm) as (M1 & M2 & M3). destruct (plain_not _ Hr) as (R1 & R2 & R3).
  assert (Z : m = [] \/ exists d m', m = d :: m' /\ "="%char <> d).
  { destruct m as [|d m]; [left; reflexivity|right; exists d, m; split; [reflexivity|intros <-; apply M3; left; reflexivity]]. }
  destruct Ho as [->|[->|[->|[->| ->]]]]; [| | | |destruct Z as [->|(d & m' & Em & Hd)]; [exact (parse_constraint_eqeq l r Hl Hr)|]];
  apply try_fails; intros c Hc; repeat (destruct Hc as [<-|Hc]); try contradiction; try (left; unfold whole; nosep'; fail).
  - right. apply (three_at "<"%char [] l m r); auto.
  - right. apply (three_at ">"%char [] l m r); auto.
  - right. apply (three_at "<"%char ["="%char] l m r); auto.
  - right. apply (three_at "<"%char [] l ("="%char :: m) ("="%char :: r)); auto using not_in_cons; apply not_in_cons; auto; discriminate.
  - right. apply (three_at "="%char [] (l ++ ["<"%char]) (m ++ ["<"%char]) r); auto; [apply not_in_snoc; auto; discriminate|apply not_in_snoc; auto; discriminate|].
    rewrite <- !app_assoc. reflexivity.
  - right. apply (three_at ">"%char ["="%char] l m r); auto.
  - right. apply (three_at ">"%char [] l ("="%char :: m) ("="%char :: r)); auto; apply not_in_cons; auto; discriminate.
  - right. apply (three_at "="%char [] (l ++ [">"%char]) (m ++ [">"%char]) r); auto; [apply not_in_snoc; auto; discriminate|apply not_in_snoc; auto; discriminate|].
    rewrite <- !app_assoc. reflexivity.
  - left. unfold whole. apply split_one. unfold t_. cbn [list_ascii_of_string]. apply find_skip_none; [assumption|]. cbn [app].
    apply find_step; [rewrite sp_eq, Em; apply sp_neq; exact Hd|].
    apply find_skip_none; [assumption|]. nofind.
  - right. apply (three_at "="%char [] l m r); auto.
Qed.
(** l <= m < r is cut at <= *)
Lemma parse_constraint_double : forall l m r, plain l -> plain m -> plain r ->
  parse_constraint (l ++ t_ "<=" ++ m ++ t_ "<" ++ r) = Ok (strip l, t_ "<=", strip (m ++ t_ "<" ++ r)).
Proof.
  intros l m r Hl Hm Hr. destruct (plain_not _ Hl) as (L1 & L2 & L3). destruct (plain_not _ Hm) as (M1 & M2 & M3). destruct (plain_not _ Hr) as (R1 & R2 & R3).
  unfold parse_constraint, comparators. cbn [try_comparators]. set (s := l ++ t_ "<=" ++ m ++ t_ "<" ++ r).
  assert (W1 : whole (t_ "==") s) by (unfold whole, s; nosep'). rewrite W1.
  assert (W2 : whole (t_ ">=") s) by (unfold whole, s; nosep'). rewrite W2.
  assert (W3 : split_fuel (length s) (t_ "<=") s = [l; m ++ t_ "<" ++ r]).
  { assert (F : find_first (t_ "<=") (m ++ t_ "<" ++ r) = None) by (unfold t_; cbn [list_ascii_of_string app]; nofind).
    unfold s. rewrite app_length. change (length (t_ "<=" ++ m ++ t_ "<" ++ r)) with (S (S (length (m ++ t_ "<" ++ r)))).
    replace (length l + S (S (length (m ++ t_ "<" ++ r)))) with (S (S (length l + length (m ++ t_ "<" ++ r)))) by lia.
    cbn [split_fuel]. change (t_ "<=") with ("<"%char :: ["="%char]) at 1 2. rewrite find_skip by exact L1. rewrite (find_here ("<"%char :: ["="%char])) by discriminate. rewrite app_nil_r. rewrite F. reflexivity. }
  rewrite W3. reflexivity.
Qed.
(** n =< r is cut at <, with the equals sign on the left *)
Lemma parse_constraint_reversed : forall l r, plain l -> plain r ->
  parse_constraint (l ++ t_ "=<" ++ r) = Ok (strip (l ++ t_ "="), t_ "<", strip r).
Proof.
  intros l r Hl Hr. destruct (plain_not _ Hl) as (L1 & L2 & L3). destruct (plain_not _ Hr) as (R1 & R2 & R3).
  unfold parse_constraint, comparators. cbn [try_comparators]. set (s := l ++ t_ "=<" ++ r).
  assert (W1 : whole (t_ "==") s) by (unfold whole, s; nosep'). rewrite W1.
  assert (W2 : whole (t_ ">=") s) by (unfold whole, s; nosep'). rewrite W2.
  assert (W3 : whole (t_ "<=") s) by (unfold whole, s; nosep'). rewrite W3.
  assert (W4 : whole (t_ ">") s) by (unfold whole, s; nosep'). rewrite W4.
  assert (W5 : split_fuel (length s) (t_ "<") s = [l ++ t_ "="; r]).
  { replace s with ((l ++ ["="%char]) ++ ["<"%char] ++ r) by (unfold s; rewrite <- app_assoc; reflexivity).
    apply (split_two "<"%char [] (l ++ ["="%char]) r); [apply not_in_snoc; [assumption|discriminate]|assumption]. }
  rewrite W5. reflexivity.
Qed.

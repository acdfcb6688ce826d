(** Lexing: what the number, word and string tokens make of the texts that are written. *)
From Coq Require Import DecimalString Decimal DecimalZ ZifyBool.
From Verif Require Import Base FileModel NamelistModel NamelistSpec.
Local Open Scope nat_scope.

(** ** Characters *)
Lemma eqb_nat : forall c x, Ascii.eqb c x = (nat_of_ascii c =? nat_of_ascii x).
Proof.
  intros c x. destruct (Ascii.eqb_spec c x) as [E|E].
  - subst. symmetry. apply Nat.eqb_refl.
  - symmetry. apply Nat.eqb_neq. intro H. apply E. rewrite <- (ascii_nat_embedding c), <- (ascii_nat_embedding x), H. reflexivity.
Qed.
Ltac lits :=
  repeat match goal with
  | |- context [nat_of_ascii (Ascii ?a ?b ?c ?d ?e ?f ?g ?h)] =>
      let t := constr:(nat_of_ascii (Ascii a b c d e f g h)) in let v := eval vm_compute in t in change t with v
  | H : context [nat_of_ascii (Ascii ?a ?b ?c ?d ?e ?f ?g ?h)] |- _ =>
      let t := constr:(nat_of_ascii (Ascii a b c d e f g h)) in let v := eval vm_compute in t in change t with v in H
  end.
Ltac chr :=
  unfold is_alnum, is_digit, is_white, is_sign, is_exp, is_space, in_range, alnum, digit, printable, between in *;
  rewrite ?eqb_nat in *; lits; lia.

Lemma digit_is : forall c, digit c -> is_digit c = true. Proof. intros. chr. Qed.
Lemma alnum_is : forall c, alnum c -> is_alnum c = true. Proof. intros. chr. Qed.
Lemma digit_printable : forall c, digit c -> printable c. Proof. intros. chr. Qed.
Lemma alnum_printable : forall c, alnum c -> printable c. Proof. intros. chr. Qed.

(** ** span, word, skip *)
Definition stops (p : ascii -> bool) (r : text) : Prop := match r with [] => True | c :: _ => p c = false end.
Lemma span_app : forall p w r, Forall (fun c => p c = true) w -> stops p r -> span p (w ++ r) = (w, r).
Proof.
  intros p w r H Hr. induction H as [|c w Hc H IH]; cbn.
  - destruct r as [|c r]; [reflexivity|]. cbn in Hr |- *. rewrite Hr. reflexivity.
  - rewrite Hc, IH. reflexivity.
Qed.
Lemma word_app : forall p w r, w <> [] -> Forall (fun c => p c = true) w -> stops p r -> word p (w ++ r) = Some (w, r).
Proof. intros p w r Hn H Hr. unfold word. rewrite (span_app p w r H Hr). destruct w; [congruence|reflexivity]. Qed.
Lemma word_none : forall p r, stops p r -> word p r = None.
Proof. intros p r H. unfold word. destruct r as [|c r]; [reflexivity|]. cbn in H |- *. rewrite H. reflexivity. Qed.
Lemma digits_is : forall d, Forall digit d -> Forall (fun c => is_digit c = true) d.
Proof. intros d H. eapply Forall_impl; [|exact H]. intros; apply digit_is; assumption. Qed.
Lemma alnums_is : forall d, Forall alnum d -> Forall (fun c => is_alnum c = true) d.
Proof. intros d H. eapply Forall_impl; [|exact H]. intros; apply alnum_is; assumption. Qed.
Lemma skip_id : forall s, stops is_white s -> skip s = s.
Proof. intros [|c r] H; [reflexivity|]. cbn in H |- *. rewrite H. reflexivity. Qed.
Definition blanks (s : text) : Prop := Forall (eq " "%char) s.
Lemma skip_blanks : forall sp s, blanks sp -> skip (sp ++ s) = skip s.
Proof. intros sp s H. induction H as [|c sp Hc H IH]; cbn; [reflexivity|]. subst. cbn. exact IH. Qed.

(** what follows a number *)
Definition stop (r : text) : Prop := match r with [] => True | c :: _ => c = ","%char \/ c = ")"%char end.
Lemma stop_digit : forall r, stop r -> stops is_digit r.
Proof. intros [|c r] H; [exact I|]. cbn in H |- *. destruct H; subst; reflexivity. Qed.

(** ** Integers *)
Lemma uint_digits : forall d, Forall digit (list_ascii_of_string (NilEmpty.string_of_uint d)).
Proof. induction d; cbn [NilEmpty.string_of_uint list_ascii_of_string]; constructor; try assumption; chr. Qed.
Lemma show_int_form : forall z, exists sg d, show_int z = sg ++ d /\ (sg = [] \/ sg = t_ "-") /\ d <> [] /\ Forall digit d /\ read_int (sg ++ d) = z.
Proof.
  intro z. unfold show_int.
  assert (Hu : forall u, exists d, list_ascii_of_string (NilZero.string_of_uint u) = d /\ d <> [] /\ Forall digit d /\
      (match NilEmpty.uint_of_string (string_of_list_ascii d) with Some d => Z.of_uint d | None => 0%Z end) = Z.of_uint u).
  { intro u. exists (list_ascii_of_string (NilZero.string_of_uint u)). split; [reflexivity|].
    destruct u as [|u|u|u|u|u|u|u|u|u|u].
    { split; [discriminate|]. split; [constructor; [chr|constructor]|reflexivity]. }
    all: split; [discriminate|]; split; [exact (uint_digits _)|];
      cbn [NilZero.string_of_uint]; rewrite string_of_list_ascii_of_string, NilEmpty.usu; reflexivity. }
  pose proof (DecimalZ.of_to z) as Hz. destruct (Z.to_int z) as [u|u] eqn:E.
  - destruct (Hu u) as (d & Ed & Hn & Hd & Hr). exists [], d.
    split; [cbn; exact Ed|].
    split; [left; reflexivity|]. split; [exact Hn|]. split; [exact Hd|].
    destruct d as [|c d]; [congruence|]. cbn [app]. unfold read_int.
    inversion Hd; subst.
    assert (H1' : Ascii.eqb c "-" = false) by (clear -H1; chr).
    assert (H2' : Ascii.eqb c "+" = false) by (clear -H1; chr).
    rewrite H1', H2', Hr. first [exact Hz | reflexivity].
  - destruct (Hu u) as (d & Ed & Hn & Hd & Hr). exists (t_ "-"), d.
    split; [cbn; rewrite Ed; reflexivity|].
    split; [right; reflexivity|]. split; [exact Hn|]. split; [exact Hd|].
    cbn. rewrite Hr. first [exact Hz | reflexivity].
Qed.

(** ** Number tokens *)
Lemma opt_sign_digits : forall d r, d <> [] -> Forall digit d -> opt_sign (d ++ r) = ([], d ++ r).
Proof.
  intros [|c d] r Hn H; [congruence|]. inversion H; subst. cbn [app opt_sign].
  assert (is_sign c = false) as -> by (clear -H2; chr). reflexivity.
Qed.
Lemma opt_sign_app : forall sg d r, sign sg -> d <> [] -> Forall digit d -> opt_sign (sg ++ d ++ r) = (sg, d ++ r).
Proof.
  intros sg d r [->|[->| ->]] Hn H; [exact (opt_sign_digits d r Hn H)|reflexivity|reflexivity].
Qed.
Lemma lex_int_app : forall sg d r, sign sg -> d <> [] -> Forall digit d -> stops is_digit r -> lex_int (sg ++ d ++ r) = Some (sg ++ d, r).
Proof.
  intros sg d r Hs Hn Hd Hr. unfold lex_int. rewrite (opt_sign_app sg d r Hs Hn Hd), (word_app is_digit d r Hn (digits_is d Hd) Hr). reflexivity.
Qed.
Lemma exponent_app : forall e e' r, expo e e' -> stops is_digit r -> exponent (e ++ r) = Some (e', r).
Proof.
  intros e e' r H Hr. destruct H as [e sg d He Hs Hn Hd]. cbn [app exponent]. rewrite <- app_assoc.
  assert (is_exp e = true) as -> by (cbn in He; destruct He as [<-|[<-|[<-|[<-|[]]]]]; reflexivity).
  rewrite (opt_sign_app sg d r Hs Hn Hd), (word_app is_digit d r Hn (digits_is d Hd) Hr). reflexivity.
Qed.
Lemma stop_exponent : forall r, stop r -> exponent r = None.
Proof. intros [|c r] H; [reflexivity|]. cbn in H. destruct H; subst; reflexivity. Qed.
Lemma expo_head : forall e e' r, expo e e' -> stops is_digit (e ++ r).
Proof. intros e e' r H. destruct H as [e sg d He _ _ _]. cbn in *. destruct He as [<-|[<-|[<-|[<-|[]]]]]; reflexivity. Qed.
Lemma mantissa_app : forall d f r, d <> [] -> Forall digit d -> Forall digit f -> stops is_digit r ->
  mantissa (d ++ t_ "." ++ f ++ r) = Some (d ++ t_ "." ++ f, r).
Proof.
  intros d f r Hn Hd Hf Hr. unfold mantissa.
  rewrite (word_app is_digit d (t_ "." ++ f ++ r) Hn (digits_is d Hd) eq_refl). cbn [t_ list_ascii_of_string app].
  cbn [Ascii.eqb Bool.eqb]. rewrite (span_app is_digit f r (digits_is f Hf) Hr). reflexivity.
Qed.
Lemma mantissa_int : forall d r, d <> [] -> Forall digit d -> stops is_digit r -> match r with c :: _ => Ascii.eqb c "." = false | [] => True end ->
  mantissa (d ++ r) = None.
Proof.
  intros d r Hn Hd Hr Hp. unfold mantissa. rewrite (word_app is_digit d r Hn (digits_is d Hd) Hr).
  destruct r as [|c r]; [reflexivity|]. rewrite Hp. reflexivity.
Qed.
Lemma lex_float_text : forall w t r, float_text w t -> stop r ->
  lex_float (w ++ r) = Some (t, r) \/ (lex_float (w ++ r) = None /\ lex_mixed (w ++ r) = Some (t, r)).
Proof.
  intros w t r H Hr. pose proof (stop_digit r Hr) as Hd'. destruct H as [sg d f Hs Hn Hd Hf|sg d f e e' Hs Hn Hd Hf He|d e e' Hn Hd He].
  - left. unfold lex_float. rewrite <- !app_assoc. rewrite (opt_sign_app sg d _ Hs Hn Hd).
    rewrite (mantissa_app d f r Hn Hd Hf Hd'). unfold opt_exponent. rewrite (stop_exponent r Hr). rewrite app_nil_r. reflexivity.
  - left. unfold lex_float. rewrite <- !app_assoc. rewrite (opt_sign_app sg d _ Hs Hn Hd).
    rewrite (mantissa_app d f (e ++ r) Hn Hd Hf (expo_head e e' r He)). unfold opt_exponent.
    rewrite (exponent_app e e' r He Hd'). rewrite <- !app_assoc. reflexivity.
  - right. rewrite <- app_assoc. split.
    + unfold lex_float. rewrite (opt_sign_digits d (e ++ r) Hn Hd).
      rewrite (mantissa_int d (e ++ r) Hn Hd (expo_head e e' r He)); [reflexivity|].
      destruct He as [e sg d' He _ _ _]. cbn in *. destruct He as [<-|[<-|[<-|[<-|[]]]]]; reflexivity.
    + unfold lex_mixed. rewrite (word_app is_digit d (e ++ r) Hn (digits_is d Hd) (expo_head e e' r He)), (exponent_app e e' r He Hd'). reflexivity.
Qed.
Lemma lex_int_not_float : forall sg d r, sign sg -> d <> [] -> Forall digit d -> stop r ->
  lex_float (sg ++ d ++ r) = None /\ lex_mixed (sg ++ d ++ r) = None.
Proof.
  intros sg d r Hs Hn Hd Hr. pose proof (stop_digit r Hr) as Hd'. split.
  - unfold lex_float. rewrite (opt_sign_app sg d r Hs Hn Hd), (mantissa_int d r Hn Hd Hd'); [reflexivity|].
    destruct r as [|c r]; [exact I|]. cbn in Hr. destruct Hr; subst; reflexivity.
  - unfold lex_mixed. destruct Hs as [->|[->| ->]]; [|reflexivity|reflexivity].
    cbn [app]. rewrite (word_app is_digit d r Hn (digits_is d Hd) Hd'), (stop_exponent r Hr). reflexivity.
Qed.
(** the start of a number *)
Definition nonblank_start (w : text) : Prop := match w with c :: _ => is_white c = false | [] => False end.
Lemma signed_start : forall sg d r, sign sg -> d <> [] -> Forall digit d -> nonblank_start (sg ++ d ++ r).
Proof.
  intros sg d r [->|[->| ->]] Hn Hd; cbn; try reflexivity. destruct d as [|c d]; [congruence|]. inversion Hd; subst. cbn. clear -H1. chr.
Qed.
Lemma start_skip : forall w r, nonblank_start w -> skip (w ++ r) = w ++ r.
Proof. intros [|c w] r H; [contradiction|]. cbn in H |- *. rewrite H. reflexivity. Qed.
Lemma float_start : forall w t, float_text w t -> nonblank_start w.
Proof.
  intros w t H. destruct H as [sg d f Hs Hn Hd Hf|sg d f e e' Hs Hn Hd Hf He|d e e' Hn Hd He];
    [exact (signed_start sg d _ Hs Hn Hd)|exact (signed_start sg d _ Hs Hn Hd)|exact (signed_start [] d _ (or_introl eq_refl) Hn Hd)].
Qed.
Lemma sign_minus : forall sg, sg = [] \/ sg = t_ "-" -> sign sg.
Proof. intros sg [->| ->]; [left; reflexivity|right; right; reflexivity]. Qed.
Lemma num_int_show : forall sp z r, blanks sp -> stops is_digit r -> num_int (sp ++ show_int z ++ r) = Some (z, r).
Proof.
  intros sp z r Hsp Hr. destruct (show_int_form z) as (sg & d & -> & Hs & Hn & Hd & Hz). apply sign_minus in Hs.
  unfold num_int. rewrite (skip_blanks sp _ Hsp), <- app_assoc.
  pose proof (start_skip _ [] (signed_start sg d r Hs Hn Hd)) as Hk. rewrite app_nil_r in Hk. rewrite Hk.
  rewrite (lex_int_app sg d r Hs Hn Hd Hr), Hz. reflexivity.
Qed.
(** an integer and then no asterisk: no repetition count *)
Lemma stop_star : forall r, stop r -> lit (t_ "*") r = None.
Proof. intros [|c r] H; [reflexivity|]. cbn in H. destruct H; subst; reflexivity. Qed.
Lemma float_num_int : forall sp w t r, blanks sp -> float_text w t -> stop r ->
  exists k r', num_int (sp ++ w ++ r) = Some (k, r') /\ lit (t_ "*") r' = None.
Proof.
  intros sp w t r Hsp H Hr. unfold num_int. rewrite (skip_blanks sp _ Hsp), (start_skip w r (float_start w t H)).
  destruct H as [sg d f Hs Hn Hd Hf|sg d f e e' Hs Hn Hd Hf He|d e e' Hn Hd He].
  - rewrite <- !app_assoc. rewrite lex_int_app; [|assumption|assumption|assumption|reflexivity]. eexists. eexists. split; reflexivity.
  - rewrite <- !app_assoc. rewrite lex_int_app; [|assumption|assumption|assumption|reflexivity]. eexists. eexists. split; reflexivity.
  - rewrite <- !app_assoc. pose proof (lex_int_app [] d (e ++ r) (or_introl eq_refl) Hn Hd (expo_head e e' r He)) as G; cbn [app] in G; rewrite G; clear G.
    eexists. eexists. split; [reflexivity|].
    destruct He as [e sg d' He _ _ _]. cbn in *. destruct He as [<-|[<-|[<-|[<-|[]]]]]; reflexivity.
Qed.

Section Num.
Variable F : Type.
Variable fshow : F -> res text.
Variable fread : text -> F.

Definition num_ok (s : scalar F) : Prop := (exists z, s = SInt F z) \/ (exists x, s = SFloat F x /\ float_ok F fshow fread x).
Lemma num_fmt : forall s, num_ok s -> exists w, fmt F fshow s = Ok w.
Proof. intros s [[z ->]|[x [-> (w & t & H & _)]]]; cbn; [eexists; reflexivity|exists w; exact H]. Qed.
Lemma numval_fmt : forall sp s w r, blanks sp -> num_ok s -> fmt F fshow s = Ok w -> stop r -> numval F fread (sp ++ w ++ r) = Some (s, r).
Proof.
  intros sp s w r Hsp Hs Hw Hr. unfold numval. cbv zeta. rewrite (skip_blanks sp _ Hsp).
  destruct Hs as [[z ->]|[x [-> (w' & t & H & Ht & Hx)]]]; cbn in Hw.
  - apply (f_equal (fun x => match x with Ok y => y | Err _ => [] end)) in Hw. subst w.
    destruct (show_int_form z) as (sg & d & -> & Hs & Hn & Hd & Hz). apply sign_minus in Hs. rewrite <- app_assoc.
    pose proof (start_skip _ [] (signed_start sg d r Hs Hn Hd)) as Hk. rewrite app_nil_r in Hk. rewrite Hk.
    destruct (lex_int_not_float sg d r Hs Hn Hd Hr) as [-> ->].
    rewrite (lex_int_app sg d r Hs Hn Hd (stop_digit r Hr)), Hz. reflexivity.
  - rewrite H in Hw. apply (f_equal (fun x => match x with Ok y => y | Err _ => [] end)) in Hw. subst w'.
    rewrite (start_skip w r (float_start w t Ht)).
    destruct (lex_float_text w t r Ht Hr) as [-> | [-> ->]]; rewrite Hx; reflexivity.
Qed.
Lemma fmt_start : forall s w, num_ok s -> fmt F fshow s = Ok w -> nonblank_start w.
Proof.
  intros s w Hs Hw. destruct Hs as [[z ->]|[x [-> (w' & t & H & Ht & Hx)]]]; cbn in Hw.
  - apply (f_equal (fun x => match x with Ok y => y | Err _ => [] end)) in Hw. subst w.
    destruct (show_int_form z) as (sg & d & -> & Hs & Hn & Hd & Hz). apply sign_minus in Hs.
    pose proof (signed_start sg d [] Hs Hn Hd) as G. rewrite app_nil_r in G. exact G.
  - rewrite H in Hw. apply (f_equal (fun x => match x with Ok y => y | Err _ => [] end)) in Hw. subst w'. exact (float_start w t Ht).
Qed.
Lemma num_no_dim : forall sp s w r, blanks sp -> num_ok s -> fmt F fshow s = Ok w -> stop r ->
  exists k r', num_int (sp ++ w ++ r) = Some (k, r') /\ lit (t_ "*") r' = None.
Proof.
  intros sp s w r Hsp Hs Hw Hr. destruct Hs as [[z ->]|[x [-> (w' & t & H & Ht & Hx)]]]; cbn in Hw.
  - apply (f_equal (fun x => match x with Ok y => y | Err _ => [] end)) in Hw. subst w.
    exists z, r. split; [apply num_int_show; [exact Hsp|exact (stop_digit r Hr)]|exact (stop_star r Hr)].
  - rewrite H in Hw. apply (f_equal (fun x => match x with Ok y => y | Err _ => [] end)) in Hw. subst w'. exact (float_num_int sp w t r Hsp Ht Hr).
Qed.

(** ** Lists of numbers *)
Definition commas (sp : text) (ws : list text) : text := concat (map (fun w => ","%char :: sp ++ w) ws).
Definition tail (r : text) : Prop := r = [] \/ r = t_ ",".
Lemma numval_nil : numval F fread [] = None. Proof. reflexivity. Qed.
Lemma more_tail : forall fuel r, tail r -> more fuel (numval F fread) r = ([], r).
Proof. intros [|fuel] r H; [reflexivity|]. destruct H as [->| ->]; reflexivity. Qed.
Lemma commas_stop : forall sp ws r, tail r -> stop (commas sp ws ++ r).
Proof. intros sp [|w ws] r H; cbn; [|left; reflexivity]. destruct H as [->| ->]; cbn; [exact I|left; reflexivity]. Qed.
Lemma fmt_all_inv : forall s l ws, fmt_all F fshow (s :: l) = Ok ws -> exists w ws', ws = w :: ws' /\ fmt F fshow s = Ok w /\ fmt_all F fshow l = Ok ws'.
Proof.
  intros s l ws H. cbn in H. destruct (fmt F fshow s) as [w|e]; [|discriminate]. cbn in H.
  destruct (fmt_all F fshow l) as [ws'|e]; [|discriminate]. cbn in H. exists w, ws'. split; [congruence|split; reflexivity].
Qed.
Lemma more_commas : forall sp l ws r fuel, blanks sp -> Forall num_ok l -> fmt_all F fshow l = Ok ws -> tail r -> length l <= fuel ->
  more fuel (numval F fread) (commas sp ws ++ r) = (l, r).
Proof.
  intros sp l ws r fuel Hsp Hl. revert ws fuel. induction Hl as [|s l Hs Hl IH]; intros ws fuel Hw Hr Hf.
  - cbn in Hw. assert (ws = []) by congruence. subst ws. cbn. apply more_tail; exact Hr.
  - destruct (fmt_all_inv s l ws Hw) as (w & ws' & -> & Ew & Ews). destruct fuel as [|fuel]; [cbn in Hf; lia|].
    unfold commas. cbn [map concat]. fold (commas sp ws'). cbn [app more].
    change (lit (t_ ",") (","%char :: ((sp ++ w) ++ commas sp ws') ++ r)) with (Some (((sp ++ w) ++ commas sp ws') ++ r)). cbv iota.
    rewrite <- !app_assoc. rewrite (numval_fmt sp s w (commas sp ws' ++ r) Hsp Hs Ew (commas_stop sp ws' r Hr)).
    rewrite (IH ws' fuel Ews Hr); [reflexivity|]. cbn in Hf. lia.
Qed.
Lemma commas_length : forall sp ws, length ws <= length (commas sp ws).
Proof. intros sp ws. induction ws as [|w ws IH]; [apply Nat.le_refl|]. unfold commas. cbn [map concat length app]. fold (commas sp ws). rewrite app_length. lia. Qed.
Lemma fmt_all_length : forall l ws, fmt_all F fshow l = Ok ws -> length ws = length l.
Proof.
  induction l as [|s l IH]; intros ws H; [cbn in H; assert (ws = []) by congruence; subst; reflexivity|].
  destruct (fmt_all_inv s l ws H) as (w & ws' & -> & _ & E). cbn. f_equal. apply IH; exact E.
Qed.
Lemma numvals_fmt : forall sp0 sp s l w ws r, blanks sp0 -> blanks sp -> Forall num_ok (s :: l) -> fmt F fshow s = Ok w -> fmt_all F fshow l = Ok ws -> tail r ->
  numvals F fread (sp0 ++ w ++ commas sp ws ++ r) = Some (s :: l, r).
Proof.
  intros sp0 sp s l w ws r Hsp0 Hsp Hl Hw Hws Hr. inversion Hl as [|? ? Hs Hl']; subst. unfold numvals.
  rewrite (numval_fmt sp0 s w (commas sp ws ++ r) Hsp0 Hs Hw (commas_stop sp ws r Hr)).
  rewrite (more_commas sp l ws r _ Hsp Hl' Hws Hr); [reflexivity|].
  rewrite app_length. pose proof (commas_length sp ws). pose proof (fmt_all_length l ws Hws). lia.
Qed.
End Num.

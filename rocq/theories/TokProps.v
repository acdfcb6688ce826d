(** C118: the words of a line are read as the values they show. *)
From Verif Require Import Base BaseFacts OrderModel ExprModel ExprProofs LcnModel LcnProofs DclModel DclProps TokModel TokSpec TokProofs.
Local Open Scope list_scope.

Definition starts_not (p : ascii -> bool) (r : txt) : Prop := match r with c :: _ => p c = false | [] => True end.
Lemma digits_full : forall d r, is_digits d -> starts_not digit r -> digits (d ++ r) = Some (d, r).
Proof.
  intros d r [N H] S. unfold digits, word_. rewrite span_stop; [destruct d; [congruence|reflexivity]|intros c Hc; apply digit_iff, H, Hc|exact S].
Qed.
Lemma digits_none : forall r, starts_not digit r -> digits r = None.
Proof. intros [|c r] S; [reflexivity|]. unfold digits, word_. cbn. cbn in S. rewrite S. reflexivity. Qed.
Definition signc (c : ascii) : bool := Ascii.eqb c "+"%char || Ascii.eqb c "-"%char.
Lemma sign_none : forall r, starts_not signc r -> sign r = None.
Proof. intros [|c r] S; [reflexivity|]. cbn in S. unfold signc in S. apply orb_false_iff in S. destruct S as [S1 S2]. unfold sign, alt_, char_. rewrite S1, S2. reflexivity. Qed.
Lemma sign_full : forall s r, opt_sign s -> starts_not signc r -> opt_ sign (s ++ r) = Some (s, r).
Proof. intros s r [-> |[-> | ->]] S; [|reflexivity|reflexivity]. cbn [app]. unfold opt_. rewrite sign_none by exact S. reflexivity. Qed.
Lemma digit_starts : forall (p : ascii -> bool) d r, is_digits d -> forallb (fun c => negb (p c)) (t_ "0123456789") = true -> starts_not p (d ++ r).
Proof.
  intros p d r [N H] F. destruct d as [|c d]; [congruence|]. cbn. rewrite forallb_forall in F. specialize (F c (H c (or_introl eq_refl))). apply negb_true_iff. exact F.
Qed.
Lemma digits_end : forall d, is_digits d -> digits d = Some (d, []).
Proof. intros d H. rewrite <- (app_nil_r d) at 1. apply digits_full; [exact H|exact I]. Qed.
Lemma signed_end : forall s d, opt_sign s -> is_digits d -> seq_ (opt_ sign) digits (s ++ d) = Some (s ++ d, []).
Proof.
  intros s d Hs Hd. unfold seq_. rewrite sign_full; [rewrite digits_end by exact Hd; reflexivity|exact Hs|]. rewrite <- (app_nil_r d). apply digit_starts; [exact Hd|reflexivity].
Qed.
Definition dE (c : ascii) : ascii := if Ascii.eqb c "D"%char then "E"%char else c.
Lemma dE_same : forall s, (forall c, In c s -> c <> "D"%char) -> map dE s = s.
Proof.
  induction s as [|c s IH]; intros H; [reflexivity|]. cbn [map]. rewrite IH by (intros x Hx; apply H; right; exact Hx). f_equal. unfold dE. destruct (Ascii.eqb_spec c "D"%char); [|reflexivity]. exfalso. apply (H c); [left; reflexivity|assumption].
Qed.
Lemma digit_not : forall c x, digit_char c -> digit x = false -> c <> x.
Proof. intros c x H F E. subst c. apply digit_iff in H. congruence. Qed.
Lemma sign_chars : forall s c, opt_sign s -> In c s -> c = "+"%char \/ c = "-"%char.
Proof. intros s c [-> |[-> | ->]] H; cbn in H; [tauto| |]; destruct H as [<- |[]]; auto. Qed.
Lemma sign_dE : forall s, opt_sign s -> map dE s = s.
Proof. intros s [-> |[-> | ->]]; reflexivity. Qed.
Lemma digits_dE : forall d, is_digits d -> map dE d = d.
Proof. intros d [_ H]. apply dE_same. intros c Hc. apply (digit_not _ _ (H c Hc)). reflexivity. Qed.
Lemma exp_full : forall x v, exponent x v -> x <> [] -> exists u, seq_ ee (seq_ (opt_ sign) digits) x = Some (u, []) /\ map dE u = v.
Proof.
  intros x v [[-> _]|(c & s & d & Hc & Hs & Hd & -> & ->)] N; [congruence|]. unfold seq_ at 1.
  assert (E : exists k, ee (c :: s ++ d) = Some ([k], s ++ d) /\ dE k = "E"%char).
  { cbn in Hc. destruct Hc as [<- |[<- |[<- |[<- |[]]]]]; (eexists; split; [reflexivity|reflexivity]). }
  destruct E as (k & -> & Hk). rewrite (signed_end s d Hs Hd). exists (k :: s ++ d). split; [reflexivity|]. cbn [map]. rewrite Hk, map_app, (sign_dE s Hs), (digits_dE d Hd). reflexivity.
Qed.
Lemma opt_some : forall (p : scan) s x, p s = Some x -> opt_ p s = Some x.
Proof. intros p s x E. unfold opt_. rewrite E. reflexivity. Qed.
Lemma exp_opt : forall x v, exponent x v -> exists u, opt_ (seq_ ee (seq_ (opt_ sign) digits)) x = Some (u, []) /\ map dE u = v.
Proof.
  intros x v H. destruct x as [|c x].
  - exists []. split; [reflexivity|]. destruct H as [[_ ->]|(c & s & d & _ & _ & _ & E & _)]; [reflexivity|discriminate].
  - destruct (exp_full _ _ H ltac:(discriminate)) as (u & E & F). exists u. split; [exact (opt_some _ _ _ E)|exact F].
Qed.
Lemma exp_starts : forall (p : ascii -> bool) x v, exponent x v -> forallb (fun c => negb (p c)) (t_ "eEdD") = true -> starts_not p x.
Proof.
  intros p x v [[-> _]|(c & s & d & Hc & _ & _ & -> & _)] F; [exact I|]. cbn [starts_not]. rewrite forallb_forall in F. specialize (F c Hc). apply negb_true_iff. exact F.
Qed.
(** ** No special word in a number *)
Definition numchar (c : ascii) : bool := digit c || cmem c (t_ "+-.eEdD").
Lemma no_special : forall l s, forallb (fun w => existsb (fun c => negb (numchar c)) w) l = true -> (forall c, In c s -> numchar c = true) -> one_of l s = None.
Proof.
  induction l as [|w l IH]; intros s F H; [reflexivity|]. cbn [forallb] in F. apply andb_true_iff in F. destruct F as [F1 F2]. cbn [one_of]. destruct (startswith s w) eqn:E; [|apply IH; assumption].
  apply startswith_iff in E. destruct E as (r & ->). apply existsb_exists in F1. destruct F1 as (c & Hc & N). rewrite H in N; [discriminate|]. apply in_or_app. left. exact Hc.
Qed.
Lemma num_digits : forall d c, is_digits d -> In c d -> numchar c = true.
Proof. intros d c [_ H] Hc. unfold numchar. apply H in Hc. apply digit_iff in Hc. rewrite Hc. reflexivity. Qed.
Lemma num_sign : forall s c, opt_sign s -> In c s -> numchar c = true.
Proof. intros s c H Hc. destruct (sign_chars s c H Hc) as [-> | ->]; reflexivity. Qed.
Lemma num_exp : forall x v c, exponent x v -> In c x -> numchar c = true.
Proof.
  intros x v c [[-> _]|(k & s & d & Hk & Hs & Hd & -> & _)] Hc; [destruct Hc|]. destruct Hc as [<- |Hc].
  - unfold numchar. apply orb_true_iff. right. apply cmem_iff. cbn in Hk |- *. tauto.
  - apply in_app_or in Hc. destruct Hc as [Hc|Hc]; [apply (num_sign s)|apply (num_digits d)]; assumption.
Qed.
Lemma num_mant : forall m c, mantissa m -> In c m -> numchar c = true.
Proof.
  intros m c [(d & e & Hd & He & ->)|(d & Hd & ->)] Hc.
  - apply in_app_or in Hc. destruct Hc as [Hc|[<- |Hc]]; [apply (num_digits d); assumption|reflexivity|]. destruct He as [-> |He]; [destruct Hc|apply (num_digits e); assumption].
  - destruct Hc as [<- |Hc]; [reflexivity|apply (num_digits d); assumption].
Qed.
Lemma skip_special : forall d s, (forall c, In c s -> numchar c = true) -> token d s = match num_float s with Some (t, r) => Some (to_float t, r) | None => match mixed_exp s with Some (t, r) => Some (to_float t, r) | None => match num_int s with Some (t, r) => Some (TInt t, r) | None => match word_ (textchar d) s with Some (t, r) => Some (TStr t, r) | None => None end end end end.
Proof. intros d s H. unfold token. rewrite (no_special inf_words s eq_refl H), (no_special nan_words s eq_refl H). reflexivity. Qed.
(** ** Numbers *)
Lemma mant_full : forall m x v, mantissa m -> exponent x v -> alt_ (seq_ digits (seq_ dot (opt_ digits))) (seq_ dot digits) (m ++ x) = Some (m, x).
Proof.
  intros m x v [(d & e & Hd & He & ->)|(d & Hd & ->)] X; unfold alt_, seq_ at 1.
  - rewrite <- app_assoc. rewrite digits_full; [|exact Hd|reflexivity]. cbn [app]. unfold seq_, dot. cbn [char_]. rewrite Ascii.eqb_refl. destruct He as [-> |He].
    + cbn [app]. unfold opt_. rewrite digits_none by (apply (exp_starts digit x v X); reflexivity). reflexivity.
    + unfold opt_. rewrite digits_full; [reflexivity|exact He|apply (exp_starts digit x v X); reflexivity].
  - cbn [app]. rewrite digits_none by reflexivity. unfold seq_, dot. cbn [char_]. rewrite Ascii.eqb_refl. rewrite digits_full; [reflexivity|exact Hd|apply (exp_starts digit x v X); reflexivity].
Qed.
Lemma mant_starts : forall m x, mantissa m -> starts_not signc (m ++ x).
Proof. intros m x [(d & e & Hd & _ & ->)|(d & _ & ->)]; [|reflexivity]. rewrite <- app_assoc. apply digit_starts; [exact Hd|reflexivity]. Qed.
Lemma mant_dE : forall m, mantissa m -> map dE m = m.
Proof.
  intros m H. apply dE_same. intros c Hc E. subst c. destruct H as [(d & e & Hd & He & ->)|(d & Hd & ->)].
  - apply in_app_or in Hc. destruct Hc as [Hc|[Hc|Hc]]; [|discriminate|]; [apply Hd in Hc; apply digit_iff in Hc; discriminate|]. destruct He as [-> |He]; [destruct Hc|apply He in Hc; apply digit_iff in Hc; discriminate].
  - destruct Hc as [Hc|Hc]; [discriminate|]. apply Hd in Hc. apply digit_iff in Hc. discriminate.
Qed.
Lemma float_full : forall s m x v, opt_sign s -> mantissa m -> exponent x v -> exists u, num_float (s ++ m ++ x) = Some (s ++ m ++ u, []) /\ map dE u = v.
Proof.
  intros s m x v Hs Hm Hx. destruct (exp_opt x v Hx) as (u & E & F). exists u. split; [|exact F]. unfold num_float. unfold seq_ at 1. rewrite sign_full; [|exact Hs|apply mant_starts; exact Hm]. unfold seq_ at 1. rewrite (mant_full m x v Hm Hx). rewrite E. reflexivity.
Qed.
Lemma no_float : forall s d x, opt_sign s -> is_digits d -> starts_not digit x -> starts_not (Ascii.eqb "."%char) x -> num_float (s ++ d ++ x) = None.
Proof.
  intros s d x Hs Hd Hx Hy. unfold num_float. unfold seq_ at 1. rewrite sign_full; [|exact Hs|apply digit_starts; [exact Hd|reflexivity]]. unfold seq_ at 1. unfold alt_. unfold seq_ at 1. rewrite digits_full; [|exact Hd|exact Hx].
  assert (A : dot x = None) by (destruct x as [|c x]; [reflexivity|]; cbn [starts_not] in Hy; unfold dot, char_; rewrite Ascii.eqb_sym, Hy; reflexivity).
  unfold seq_ at 1. rewrite A. unfold seq_. assert (B : dot (d ++ x) = None); [|rewrite B; reflexivity].
  pose proof (digit_starts (Ascii.eqb "."%char) d x Hd eq_refl) as S. destruct Hd as [N _]. destruct d as [|c d]; [congruence|]. cbn [app starts_not] in S |- *. unfold dot, char_. rewrite Ascii.eqb_sym, S. reflexivity.
Qed.
Lemma ee_none : forall x, starts_not (fun c => cmem c (t_ "eEdD")) x -> ee x = None.
Proof.
  intros [|c x] H; [reflexivity|]. cbn [starts_not] in H. unfold ee, alt_, caseless. cbn in H. destruct (Ascii.eqb c "e"); [discriminate|]. destruct (Ascii.eqb c "E"); [discriminate|]. destruct (Ascii.eqb c "d"); [discriminate|]. destruct (Ascii.eqb c "D"); [discriminate|]. reflexivity.
Qed.
Lemma no_mixed : forall s d x, opt_sign s -> is_digits d -> starts_not digit x -> (s <> [] \/ starts_not (fun c => cmem c (t_ "eEdD")) x) -> mixed_exp (s ++ d ++ x) = None.
Proof.
  intros s d x Hs Hd Hx K. unfold mixed_exp, seq_ at 1. destruct Hs as [-> |[-> | ->]]; [|rewrite digits_none by reflexivity; reflexivity|rewrite digits_none by reflexivity; reflexivity]. cbn [app]. rewrite digits_full; [|exact Hd|exact Hx]. destruct K as [K|K]; [congruence|]. unfold seq_. rewrite (ee_none x K). reflexivity.
Qed.
Lemma int_full : forall s d x, opt_sign s -> is_digits d -> starts_not digit x -> num_int (s ++ d ++ x) = Some (s ++ d, x).
Proof.
  intros s d x Hs Hd Hx. unfold num_int, seq_. rewrite sign_full; [|exact Hs|apply digit_starts; [exact Hd|reflexivity]]. rewrite digits_full; [reflexivity|exact Hd|exact Hx].
Qed.
(** ** Texts *)
Lemma opt_sign_of : forall s x r, opt_ sign s = Some (x, r) -> opt_sign x /\ s = x ++ r.
Proof.
  intros s x r H. unfold opt_, sign, alt_, char_ in H. destruct s as [|c s]; [injection H as <- <-; split; [left; reflexivity|reflexivity]|]. destruct (Ascii.eqb_spec c "+"%char) as [-> |_]; [injection H as <- <-; split; [right; left; reflexivity|reflexivity]|]. destruct (Ascii.eqb_spec c "-"%char) as [-> |_]; injection H as <- <-; (split; [unfold opt_sign; cbn; auto|reflexivity]).
Qed.
Lemma digits_of : forall s x r, digits s = Some (x, r) -> exists c q, digit_char c /\ s = c :: q.
Proof. intros s x r H. apply word_some in H. destruct H as (-> & N & F). destruct x as [|c x]; [congruence|]. exists c, (x ++ r). split; [apply digit_iff, F; left; reflexivity|reflexivity]. Qed.
Lemma plain_int : forall w, plain_start w -> num_int w = None.
Proof.
  intros w (P1 & _ & _). unfold num_int, seq_. destruct (opt_ sign w) as [[s r]|] eqn:E; [|reflexivity]. destruct (opt_sign_of _ _ _ E) as [Hs ->]. destruct (digits r) as [[x q]|] eqn:F; [|reflexivity]. destruct (digits_of _ _ _ F) as (c & q' & Hc & ->). exfalso. exact (P1 s c q' Hs Hc eq_refl).
Qed.
Lemma plain_mixed : forall w, plain_start w -> mixed_exp w = None.
Proof.
  intros w (P1 & _ & _). unfold mixed_exp, seq_ at 1. destruct (digits w) as [[x q]|] eqn:F; [|reflexivity]. destruct (digits_of _ _ _ F) as (c & q' & Hc & ->). exfalso. exact (P1 [] c q' (or_introl eq_refl) Hc eq_refl).
Qed.
Lemma plain_float : forall w, plain_start w -> num_float w = None.
Proof.
  intros w (P1 & P2 & _). unfold num_float. unfold seq_ at 1. destruct (opt_ sign w) as [[s r]|] eqn:E; [|reflexivity]. destruct (opt_sign_of _ _ _ E) as [Hs ->]. unfold seq_ at 1. unfold alt_. unfold seq_ at 1. destruct (digits r) as [[x q]|] eqn:F; [destruct (digits_of _ _ _ F) as (c & q' & Hc & ->); exfalso; exact (P1 s c q' Hs Hc eq_refl)|].
  unfold seq_ at 1. unfold dot, char_. destruct r as [|c r]; [reflexivity|]. destruct (Ascii.eqb_spec c "."%char) as [-> |_]; [|reflexivity]. destruct (digits r) as [[x q]|] eqn:G; [|reflexivity]. destruct (digits_of _ _ _ G) as (c & q' & Hc & ->). exfalso. exact (P2 s c q' Hs Hc eq_refl).
Qed.
Lemma one_of_some : forall l s x r, one_of l s = Some (x, r) -> In x l /\ s = x ++ r.
Proof.
  induction l as [|w l IH]; intros s x r H; [discriminate|]. cbn [one_of] in H. destruct (startswith s w) eqn:E; [|destruct (IH _ _ _ H); split; [right; assumption|assumption]]. apply startswith_iff in E. destruct E as (q & ->). injection H as <- <-. rewrite skipn_app_len. split; [left; reflexivity|reflexivity].
Qed.
Lemma plain_special : forall w, plain_start w -> one_of inf_words w = None /\ one_of nan_words w = None.
Proof.
  intros w (_ & _ & P). split.
  - destruct (one_of inf_words w) as [[x r]|] eqn:E; [|reflexivity]. apply one_of_some in E. destruct E as [Hx ->]. exfalso. apply (P x r); [|reflexivity]. cbn [map]. cbn [inf_words In] in Hx. destruct Hx as [<- |[<- |[]]]; cbn [In]; auto.
  - destruct (one_of nan_words w) as [[x r]|] eqn:E; [|reflexivity]. apply one_of_some in E. destruct E as [Hx ->]. exfalso.
    cbn [nan_words In] in Hx. destruct Hx as [<- |[<- |[<- |[<- |[<- |[<- |[<- |[<- |[<- |[<- |[]]]]]]]]]]];
    [apply (P (t_ "NaN") (t_ "%" ++ r))|apply (P (t_ "NaN") (t_ "Q" ++ r))|apply (P (t_ "NaN") (t_ "S" ++ r))|apply (P (t_ "NaN") r)|apply (P (t_ "nan") r)|apply (P (t_ "qNaN") r)|apply (P (t_ "sNaN") r)|apply (P (t_ "1.#SNAN") r)|apply (P (t_ "1.#QNAN") r)|apply (P (t_ "-1.#IND") r)]; try reflexivity; cbn [map In]; tauto.
Qed.

(** ** A word is one token *)
Lemma word_token : forall d w t, reads d w t -> w <> [] /\ token d w = Some (t, []).
Proof.
  intros d w t H. destruct H as [s n Hs Hn|s m x v Hs Hm Hx|n x v Hn Hx N| |w Hw|w N Hw P].
  - split; [destruct Hn as [N _]; destruct s; [exact N|discriminate]|]. rewrite skip_special by (intros c Hc; apply in_app_or in Hc; destruct Hc as [Hc|Hc]; [apply (num_sign s)|apply (num_digits n)]; assumption).
    pose proof (no_float s n [] Hs Hn I I) as A. pose proof (no_mixed s n [] Hs Hn I (or_intror I)) as B. pose proof (int_full s n [] Hs Hn I) as C. rewrite app_nil_r in A, B, C. rewrite A, B, C. reflexivity.
  - split; [destruct s; [|discriminate]; destruct Hm as [(a & e & Ha & _ & ->)|(a & _ & ->)]; [destruct a; [destruct Ha; congruence|discriminate]|discriminate]|].
    rewrite skip_special by (intros c Hc; apply in_app_or in Hc; destruct Hc as [Hc|Hc]; [apply (num_sign s); assumption|]; apply in_app_or in Hc; destruct Hc as [Hc|Hc]; [apply (num_mant m)|apply (num_exp x v)]; assumption).
    destruct (float_full s m x v Hs Hm Hx) as (u & -> & F). unfold to_float. fold dE. rewrite !map_app. rewrite (sign_dE s Hs), (mant_dE m Hm), F. reflexivity.
  - split; [destruct n; [destruct Hn; congruence|discriminate]|]. rewrite skip_special by (intros c Hc; apply in_app_or in Hc; destruct Hc as [Hc|Hc]; [apply (num_digits n)|apply (num_exp x v)]; assumption).
    pose proof (no_float [] n x (or_introl eq_refl) Hn ltac:(apply (exp_starts digit x v Hx); reflexivity) ltac:(apply (exp_starts _ x v Hx); reflexivity)) as A. cbn [app] in A. rewrite A. unfold mixed_exp. unfold seq_ at 1. rewrite digits_full; [|exact Hn|apply (exp_starts digit x v Hx); reflexivity]. destruct (exp_full x v Hx N) as (u & -> & F). unfold to_float. fold dE. rewrite map_app, (digits_dE n Hn), F. reflexivity.
  - split; [discriminate|reflexivity].
  - cbn [map In] in Hw. repeat (destruct Hw as [<- |Hw]; [split; [discriminate|reflexivity]|]). destruct Hw.
  - split; [exact N|]. unfold token. destruct (plain_special w P) as [-> ->]. rewrite (plain_float w P), (plain_mixed w P), (plain_int w P). unfold word_. rewrite <- (app_nil_r w) at 1. rewrite span_stop; [|intros c Hc; apply textchar_iff, Hw, Hc|exact I]. destruct w; [congruence|reflexivity].
Qed.
Lemma reads_chars : forall ws d w t c, delims ws d -> reads d w t -> In c w -> textchar d c = true.
Proof.
  intros ws d w t c D H Hc. assert (G : forall c, numchar c = true -> textchar d c = true).
  { intros x Hx. apply (tokchar_text ws d x D). pose proof (ascii_all (fun c => implb (numchar c) (tokchar c)) ltac:(vm_compute; reflexivity) x) as K. cbn beta in K. rewrite Hx in K. exact K. }
  destruct H as [s n Hs Hn|s m x v Hs Hm Hx|n x v Hn Hx N| |w Hw|w N Hw P].
  - apply G. apply in_app_or in Hc; destruct Hc as [Hc|Hc]; [apply (num_sign s)|apply (num_digits n)]; assumption.
  - apply G. apply in_app_or in Hc; destruct Hc as [Hc|Hc]; [apply (num_sign s); assumption|]; apply in_app_or in Hc; destruct Hc as [Hc|Hc]; [apply (num_mant m)|apply (num_exp x v)]; assumption.
  - apply G. apply in_app_or in Hc; destruct Hc as [Hc|Hc]; [apply (num_digits n)|apply (num_exp x v)]; assumption.
  - apply (tokchar_text ws d c D). cbn in Hc. repeat (destruct Hc as [<- |Hc]; [reflexivity|]). destruct Hc.
  - apply (tokchar_text ws d c D). cbn [map In] in Hw. repeat (destruct Hw as [<- |Hw]; [cbn in Hc; repeat (destruct Hc as [<- |Hc]; [reflexivity|]); destruct Hc|]). destruct Hw.
  - apply textchar_iff, Hw, Hc.
Qed.
(** ** Lines *)
Lemma skip_gap : forall ws g r, (forall c, In c g -> In c ws) -> skip ws (g ++ r) = skip ws r.
Proof. intros ws g r H. induction g as [|c g IH]; [reflexivity|]. cbn. assert (E : cmem c ws = true) by (apply cmem_iff, H; left; reflexivity). rewrite E. apply IH. intros x Hx. apply H. right. exact Hx. Qed.
Lemma skip_head : forall ws c r, ~ In c ws -> skip ws (c :: r) = c :: r.
Proof. intros ws c r H. cbn. destruct (cmem c ws) eqn:E; [apply cmem_iff in E; tauto|reflexivity]. Qed.
Lemma ctl_stop : forall d c, (nat_of_ascii c <= 32)%nat -> textchar d c = false.
Proof.
  intros d c H. unfold textchar, printable. destruct (isspace d).
  - destruct (33 <=? nat_of_ascii c)%nat eqn:E; [apply Nat.leb_le in E; lia|reflexivity].
  - pose proof (ascii_all (fun c => implb (nat_of_ascii c <=? 32)%nat (negb (alnum c || cmem c symbols))) ltac:(vm_compute; reflexivity) c) as K. cbn beta in K. apply Nat.leb_le in H. rewrite H in K. cbn [implb] in K. apply negb_true_iff, orb_false_iff in K. destruct K as [-> ->]. reflexivity.
Qed.
Lemma token_nil : forall d, token d [] = None.
Proof. reflexivity. Qed.
Lemma token_stopped : forall ws d c r, delims ws d -> textchar d c = false -> token d (c :: r) = None.
Proof. intros ws d c r D H. pose proof (token_stable ws d D [] c r H) as E. rewrite token_nil in E. exact E. Qed.
Lemma tail_none : forall ws d e, delims ws d -> (exists h, (forall c, In c h -> In c ws) /\ (e = h \/ e = h ++ [newline])) -> token d (skip ws e) = None.
Proof.
  intros ws d e D (h & H & [-> | ->]).
  - rewrite <- (app_nil_r h), skip_gap by exact H. reflexivity.
  - rewrite skip_gap by exact H. cbn [skip]. destruct (cmem newline ws); [reflexivity|]. apply (token_stopped ws); [exact D|]. apply ctl_stop. vm_compute. lia.
Qed.
Lemma word_next : forall ws d w t e, delims ws d -> reads d w t -> (e = [] \/ exists c r, e = c :: r /\ textchar d c = false) -> token d (skip ws (w ++ e)) = Some (t, e).
Proof.
  intros ws d w t e D H K. destruct (word_token d w t H) as [N T]. destruct w as [|x w]; [congruence|]. cbn [app]. rewrite skip_head.
  - destruct K as [-> |(c & r & -> & S)]; [rewrite app_nil_r; exact T|]. pose proof (token_stable ws d D (x :: w) c r S) as E. cbn [app] in E. rewrite E, T. reflexivity.
  - intros Hx. destruct D as [D1 D2]. apply (D1 x Hx). apply textchar_iff. apply (reads_chars ws d (x :: w) t x (conj D1 D2) H). left. reflexivity.
Qed.
Lemma laid_tokens : forall ws d words s toks, delims ws d -> laid ws words s -> Forall2 (reads d) words toks -> forall f, (length words < f)%nat -> tokens f ws d s = toks.
Proof.
  intros ws d words s toks D L. revert toks. induction L as [g w e Hg He|g w c l words Hg Hc L IH]; intros toks F f Hf.
  - inversion F as [|? t ? ? R F' E1 E2]. subst. inversion F'. subst. destruct f as [|f]; [cbn in Hf; lia|]. destruct f as [|f]; [cbn in Hf; lia|]. cbn [tokens]. rewrite skip_gap by exact Hg. rewrite (word_next ws d w t e D R).
    + rewrite (tail_none ws d e D He). reflexivity.
    + destruct He as (h & Hh & He). destruct e as [|c e]; [left; reflexivity|]. right. exists c, e. split; [reflexivity|]. destruct h as [|k h]; cbn [app] in He.
      * destruct He as [He|He]; [discriminate|]. injection He as -> _. apply ctl_stop. vm_compute. lia.
      * assert (c = k) by (destruct He as [He|He]; congruence). subst k. destruct D as [D1 _]. apply textchar_false, D1, Hh. left. reflexivity.
  - inversion F as [|? t ? toks' R F' E1 E2]. subst. destruct f as [|f]; [cbn in Hf; lia|]. cbn [tokens]. rewrite skip_gap by exact Hg. rewrite (word_next ws d w t (c :: l) D R).
    + f_equal. destruct f as [|f]; [cbn in Hf; lia|]. specialize (IH toks' F' (S f) ltac:(cbn in Hf; lia)). cbn [tokens] in IH |- *. pose proof (skip_gap ws [c] l) as G. cbn [app] in G. rewrite G; [exact IH|]. intros x [<- |[]]. exact Hc.
    + right. exists c, l. split; [reflexivity|]. destruct D as [D1 _]. apply textchar_false, D1, Hc.
Qed.
Lemma laid_length : forall ws words s, laid ws words s -> Forall (fun w : txt => w <> []) words -> (length words <= length s)%nat.
Proof.
  intros ws words s L. induction L as [g w e Hg He|g w c l words Hg Hc L IH]; intros F; inversion F as [|? ? N F']; subst; rewrite !app_length.
  - destruct w; [congruence|]. cbn. lia.
  - specialize (IH F'). cbn [length]. lia.
Qed.

(** ** Tabs *)
Inductive untab : txt -> txt -> Prop :=
| untab_nil : untab [] []
| untab_tab : forall n r r', untab r r' -> untab (tab :: r) (repeat space (S n) ++ r')
| untab_chr : forall c r r', c <> tab -> untab r r' -> untab (c :: r) (c :: r').
Lemma is_tab : forall c, Nat.eqb (nat_of_ascii c) 9 = true <-> c = tab.
Proof. intros c. rewrite Nat.eqb_eq. split; [intros E; rewrite <- (ascii_nat_embedding c), E; reflexivity|intros ->; reflexivity]. Qed.
Lemma expand_untab : forall s col, untab s (expandtabs col s).
Proof.
  induction s as [|c s IH]; intros col; [constructor|]. cbn [expandtabs]. destruct (Nat.eqb (nat_of_ascii c) 9) eqn:E.
  - apply is_tab in E. subst c. pose proof (Nat.mod_upper_bound col 8 ltac:(lia)) as B. destruct (8 - col mod 8)%nat as [|n] eqn:N; [lia|]. apply untab_tab. apply IH.
  - constructor; [intros F; apply is_tab in F; congruence|apply IH].
Qed.
Lemma expand_prefix : forall a r col, ~ In tab a -> exists col', expandtabs col (a ++ r) = a ++ expandtabs col' r.
Proof.
  induction a as [|c a IH]; intros r col N; [exists col; reflexivity|]. cbn [app expandtabs]. destruct (Nat.eqb (nat_of_ascii c) 9) eqn:E; [apply is_tab in E; subst c; exfalso; apply N; left; reflexivity|].
  destruct (IH r (if Nat.eqb (nat_of_ascii c) 10 || Nat.eqb (nat_of_ascii c) 13 then 0 else col + 1)%nat) as (col' & ->); [intros H; apply N; right; exact H|]. exists col'. reflexivity.
Qed.
Lemma expand_notab : forall a col, ~ In tab a -> expandtabs col a = a.
Proof. intros a col N. destruct (expand_prefix a [] col N) as (c & E). rewrite app_nil_r in E. rewrite E. cbn. apply app_nil_r. Qed.
Lemma untab_app : forall a b s, untab (a ++ b) s -> exists a' b', s = a' ++ b' /\ untab a a' /\ untab b b'.
Proof.
  induction a as [|c a IH]; intros b s H; [exists [], s; repeat split; [constructor|exact H]|]. cbn [app] in H. inversion H as [|n r r' H' E1 E2|c' r r' N H' E1 E2]; subst.
  - destruct (IH _ _ H') as (a' & b' & -> & A & B). exists (repeat space (S n) ++ a'), b'. split; [rewrite app_assoc; reflexivity|]. split; [constructor; exact A|exact B].
  - destruct (IH _ _ H') as (a' & b' & -> & A & B). exists (c :: a'), b'. split; [reflexivity|]. split; [constructor; assumption|exact B].
Qed.
Lemma untab_same : forall a a', untab a a' -> ~ In tab a -> a' = a.
Proof. intros a a' H. induction H as [|n r r' H IH|c r r' N H IH]; intros K; [reflexivity|exfalso; apply K; left; reflexivity|]. rewrite IH; [reflexivity|]. intros I. apply K. right. exact I. Qed.
Lemma untab_gap : forall ws g g', untab g g' -> In space ws -> (forall c, In c g -> In c ws) -> forall c, In c g' -> In c ws.
Proof.
  intros ws g g' H S. induction H as [|n r r' H IH|c r r' N H IH]; intros K x Hx; [destruct Hx| |].
  - apply in_app_or in Hx. destruct Hx as [Hx|Hx]; [apply repeat_spec in Hx; subst x; exact S|]. apply IH; [intros y Hy; apply K; right; exact Hy|exact Hx].
  - destruct Hx as [<- |Hx]; [apply K; left; reflexivity|]. apply IH; [intros y Hy; apply K; right; exact Hy|exact Hx].
Qed.
Lemma laid_gap : forall ws words l g, laid ws words l -> (forall c, In c g -> In c ws) -> laid ws words (g ++ l).
Proof.
  intros ws words l h L H. destruct L as [g w e Hg He|g w c l words Hg Hc L]; rewrite app_assoc; constructor; try assumption; intros x Hx; apply in_app_or in Hx; destruct Hx as [Hx|Hx]; auto.
Qed.
Lemma laid_untab : forall ws words s, laid ws words s -> In space ws -> Forall (fun w => ~ In tab w) words -> forall s', untab s s' -> laid ws words s'.
Proof.
  intros ws words s L S. induction L as [g w e Hg (h & Hh & He)|g w c l words Hg Hc L IH]; intros F s' U; inversion F as [|? ? N F']; subst;
  destruct (untab_app _ _ _ U) as (g' & s1 & -> & U1 & U2); destruct (untab_app _ _ _ U2) as (w' & e' & -> & U3 & U4); rewrite (untab_same _ _ U3 N).
  - constructor; [exact (untab_gap _ _ _ U1 S Hg)|]. destruct He as [-> | ->]; [exists e'; split; [exact (untab_gap _ _ _ U4 S Hh)|left; reflexivity]|].
    destruct (untab_app _ _ _ U4) as (h' & n' & -> & V1 & V2). exists h'. split; [exact (untab_gap _ _ _ V1 S Hh)|]. right. f_equal. apply (untab_same _ _ V2). intros [E|[]]. vm_compute in E. discriminate.
  - inversion U4 as [|n r r' H' E1 E2|c' r r' N' H' E1 E2]; subst.
    + cbn [repeat app]. apply laid_more; [exact (untab_gap _ _ _ U1 S Hg)|exact S|]. apply laid_gap; [apply IH; assumption|]. intros x Hx. apply repeat_spec in Hx. subst x. exact S.
    + apply laid_more; [exact (untab_gap _ _ _ U1 S Hg)|exact Hc|apply IH; assumption].
Qed.
Lemma words_ok : forall ws d words toks, delims ws d -> Forall2 (reads d) words toks -> Forall (fun w : txt => w <> []) words /\ Forall (fun w => ~ In tab w) words.
Proof.
  intros ws d words toks D F. induction F as [|w t words toks R F [IH1 IH2]]; split; constructor; try assumption; [apply (word_token d w t R)|]. intros H. apply (reads_chars ws d w t tab D R) in H. rewrite ctl_stop in H; [discriminate|vm_compute; lia].
Qed.

(** The words of a line, separated by delimiters, are read one by one, each as the number,
    special value or text that it is; a tab counts as a delimiter if the space is one. *)
Theorem C118_words_partial : forall ws d words line toks,
  delims ws d -> laid ws words line -> Forall2 (reads d) words toks -> (In space ws \/ ~ In tab line) ->
  parse_string ws d line = Some toks.
Proof.
  intros ws d words line toks D L F K. destruct (words_ok ws d words toks D F) as [W1 W2]. assert (L' : laid ws words (expandtabs 0 line)).
  { destruct K as [K|K]; [apply (laid_untab ws words line L K W2); apply expand_untab|rewrite expand_notab by exact K; exact L]. }
  unfold parse_string. rewrite (laid_tokens ws d words _ toks D L' F) by (pose proof (laid_length ws words _ L' W1); lia). destruct toks as [|t toks]; [|reflexivity]. inversion F; subst. inversion L'.
Qed.
Print Assumptions C118_words_partial.
(** ... and [transfer_var] gives the one asked for. *)
Theorem C118_field_partial : forall ws d words line toks field fieldend,
  delims ws d -> d <> t_ "columns" -> laid ws words line -> Forall2 (reads d) words toks -> (In space ws \/ ~ In tab line) ->
  transfer_var (mkP d ws) line field fieldend = nth_error toks (field - 1).
Proof.
  intros ws d words line toks field fieldend D N L F K. unfold transfer_var. cbn [p_delim p_ws]. destruct (teqb_spec d (t_ "columns")) as [E|_]; [congruence|]. rewrite (C118_words_partial ws d words line toks D L F K). reflexivity.
Qed.
Print Assumptions C118_field_partial.
(** The characters of a column field are those at the positions [field] to [fieldend]. *)
Theorem C118_slice : forall line field fieldend i,
  (1 <= field)%nat -> nth_error (slice line field fieldend) i = if (fieldend =? 0)%nat || (field + i <=? fieldend)%nat then nth_error line (field - 1 + i) else None.
Proof.
  assert (Sk : forall n (l : txt) i, nth_error (skipn n l) i = nth_error l (n + i)).
  { induction n as [|n IH]; intros l i; [reflexivity|]. destruct l as [|x l]; [destruct i; reflexivity|]. cbn. apply IH. }
  assert (T : forall n (l : txt) i, nth_error (firstn n l) i = if (i <? n)%nat then nth_error l i else None).
  { induction n as [|n IH]; intros l i; [destruct i; reflexivity|]. destruct l as [|x l]; [destruct i; cbn [firstn nth_error]; destruct (_ <? _)%nat; reflexivity|]. destruct i as [|i]; [reflexivity|]. cbn [firstn nth_error]. rewrite IH. reflexivity. }
  intros line field fieldend i H. unfold slice. destruct fieldend as [|fe]; [cbn; apply Sk|]. rewrite T, Sk. change ((S fe =? 0)%nat) with false. cbn [orb].
  destruct (Nat.ltb_spec i (S fe - (field - 1))); destruct (Nat.leb_spec (field + i) (S fe)); try reflexivity; lia.
Qed.
Print Assumptions C118_slice.
(** With columns, a field that is one word is read as such, and a field of several is returned
    as it stands. *)
Theorem C118_columns_partial : forall ws words line toks field fieldend,
  delims ws (t_ "columns") -> laid ws words (slice line field fieldend) -> Forall2 (reads (t_ "columns")) words toks ->
  (In space ws \/ ~ In tab (slice line field fieldend)) ->
  transfer_var (mkP (t_ "columns") ws) line field fieldend = Some (match toks with [t] => t | _ => TStr (slice line field fieldend) end).
Proof.
  intros ws words line toks field fieldend D L F K. unfold transfer_var. cbn [p_delim p_ws]. rewrite teqb_refl. rewrite (C118_words_partial ws _ words _ toks D L F K). destruct toks as [|t [|u toks]]; reflexivity.
Qed.
Print Assumptions C118_columns_partial.

(** ** What is lost *)
Lemma skip_app : forall ws a c b, ~ In c ws -> skip ws (a ++ c :: b) = skip ws a ++ c :: b.
Proof. intros ws a c b N. induction a as [|x a IH]; [apply skip_head; exact N|]. cbn. destruct (cmem x ws); [exact IH|reflexivity]. Qed.
Lemma tokens_stop : forall ws d f a c b, delims ws d -> textchar d c = false -> ~ In c ws -> tokens f ws d (a ++ c :: b) = tokens f ws d a.
Proof.
  intros ws d f a c b D S N. revert a. induction f as [|f IH]; intros a; [reflexivity|]. cbn [tokens]. rewrite (skip_app ws a c b N). rewrite (token_stable ws d D _ c b S). destruct (token d (skip ws a)) as [[t r]|]; cbn [ext_tok]; [|reflexivity]. f_equal. apply IH.
Qed.
Lemma parse_stop : forall ws d a c b line, delims ws d -> textchar d c = false -> ~ In c ws -> ~ In tab a -> expandtabs 0 line = a ++ c :: b -> parse_string ws d line = parse_string ws d a.
Proof.
  intros ws d a c b line D S N T E. unfold parse_string. rewrite E, (expand_notab a 0 T). rewrite tokens_stop by assumption. rewrite (tokens_fuel ws d (Datatypes.S (length (a ++ c :: b))) (Datatypes.S (length a)) a); [reflexivity|rewrite app_length; cbn; lia|lia].
Qed.
(** Everything from the first character that is neither a delimiter nor a character of a word is
    dropped without a message. *)
Theorem C118_rest_lost_refuted : forall ws d a c b,
  delims ws d -> ~ text_char d c -> ~ In c ws -> c <> tab -> ~ In tab a ->
  parse_string ws d (a ++ c :: b) = parse_string ws d a.
Proof.
  intros ws d a c b D S N C T. destruct (expand_prefix a (c :: b) 0 T) as (col & E). cbn [expandtabs] in E. destruct (Nat.eqb (nat_of_ascii c) 9) eqn:F; [apply is_tab in F; congruence|].
  eapply (parse_stop ws d a c); [exact D|apply textchar_false; exact S|exact N|exact T|exact E].
Qed.
Print Assumptions C118_rest_lost_refuted.
(** With the tab as the only delimiter, only the first field is read: tabs are replaced by
    spaces before the line is parsed. *)
Theorem C118_tab_delimiter_refuted : forall a b, ~ In tab a -> parse_string [tab] [tab] (a ++ tab :: b) = parse_string [tab] [tab] a.
Proof.
  intros a b T. destruct (expand_prefix a (tab :: b) 0 T) as (col & E). cbn [expandtabs] in E. change (Nat.eqb (nat_of_ascii tab) 9) with true in E. cbn iota in E. pose proof (Nat.mod_upper_bound col 8 ltac:(lia)) as B. destruct (8 - col mod 8)%nat as [|n] eqn:Q; [lia|]. cbn [repeat app] in E.
  assert (A : all_space [tab]) by (split; [discriminate|intros c [<- |[]]; reflexivity]).
  eapply (parse_stop [tab] [tab] a space); [|apply ctl_stop; vm_compute; lia|intros [F|[]]; vm_compute in F; discriminate|exact T|exact E].
  split; [intros c [<- |[]]; apply textchar_false, ctl_stop; vm_compute; lia|left; exact A].
Qed.
Print Assumptions C118_tab_delimiter_refuted.
(** An integer followed by other characters is cut from its word, and so is a signed number with
    an exponent but no decimal point. *)
Theorem C118_split_refuted : forall ws d s n x,
  delims ws d -> opt_sign s -> is_digits n -> starts_not digit x -> starts_not (Ascii.eqb "."%char) x ->
  (s <> [] \/ starts_not (fun c => cmem c (t_ "eEdD")) x) -> ~ In tab x ->
  exists toks, parse_string ws d (s ++ n ++ x) = Some (TInt (s ++ n) :: toks).
Proof.
  intros ws d s n x D Hs Hn X1 X2 X3 T.
  assert (NT : ~ In tab (s ++ n ++ x)).
  { intros H. apply in_app_or in H. destruct H as [H|H]; [apply (num_sign s tab Hs) in H; vm_compute in H; discriminate|]. apply in_app_or in H. destruct H as [H|H]; [apply (num_digits n tab Hn) in H; vm_compute in H; discriminate|tauto]. }
  assert (SP : forall l, forallb (fun w => match w with c :: r => negb (numchar c) || (signc c && match r with k :: q => negb (digit k) || match q with j :: _ => Ascii.eqb "."%char j | [] => false end | [] => false end) || (digit c && match r with k :: _ => Ascii.eqb "."%char k | [] => false end) | [] => false end) l = true -> one_of l (s ++ n ++ x) = None).
  { intros l Hl. destruct (one_of l (s ++ n ++ x)) as [[w r]|] eqn:E; [|reflexivity]. exfalso. apply one_of_some in E. destruct E as [Hw E]. rewrite forallb_forall in Hl. specialize (Hl w Hw). destruct w as [|c w]; [discriminate|].
    assert (DN : exists k n', n = k :: n' /\ digit k = true /\ forall c, In c n' -> digit c = true) by (destruct Hn as [N1 N2]; destruct n as [|k n']; [congruence|exists k, n'; split; [reflexivity|]; split; [apply digit_iff, N2; left; reflexivity|intros y Hy; apply digit_iff, N2; right; exact Hy]]).
    destruct DN as (k & n' & -> & Hk & Hn').
    assert (P : forall j q, n' ++ x = j :: q -> Ascii.eqb "."%char j = false).
    { intros j q E'. destruct n' as [|y n']; cbn [app] in E'; [subst x; exact X2|]. injection E' as -> _. specialize (Hn' j (or_introl eq_refl)). destruct (Ascii.eqb_spec "."%char j) as [<- |_]; [discriminate|reflexivity]. }
    assert (Q : digit k = true -> numchar k = true /\ signc k = false /\ Ascii.eqb "."%char k = false).
    { intros _. pose proof (ascii_all (fun k => implb (digit k) (numchar k && negb (signc k) && negb (Ascii.eqb "."%char k))) ltac:(vm_compute; reflexivity) k) as K. cbn beta in K. rewrite Hk in K. cbn [implb] in K. rewrite !andb_true_iff, !negb_true_iff in K. tauto. }
    destruct (Q Hk) as (Q1 & Q2 & Q3). destruct Hs as [-> |[-> | ->]]; cbn [app] in E; injection E as E0 E; subst c.
    - rewrite Q1, Q2, Hk in Hl. cbn [negb orb andb] in Hl. destruct w as [|j w]; [discriminate|]. cbn [app] in E. rewrite (P _ _ E) in Hl. discriminate.
    - destruct w as [|j w]; [discriminate|]. cbn [app] in E. injection E as <- E. rewrite Hk in Hl. vm_compute (numchar _) in Hl. vm_compute (signc _) in Hl. vm_compute (digit "+"%char) in Hl. cbn [negb orb andb] in Hl. destruct w as [|y w]; [discriminate|]. cbn [app] in E. rewrite (P _ _ E) in Hl. discriminate.
    - destruct w as [|j w]; [discriminate|]. cbn [app] in E. injection E as <- E. rewrite Hk in Hl. vm_compute (numchar _) in Hl. vm_compute (signc _) in Hl. vm_compute (digit "-"%char) in Hl. cbn [negb orb andb] in Hl. destruct w as [|y w]; [discriminate|]. cbn [app] in E. rewrite (P _ _ E) in Hl. discriminate. }
  unfold parse_string. rewrite (expand_notab _ 0 NT). cbn [tokens].
  assert (H0 : skip ws (s ++ n ++ x) = s ++ n ++ x).
  { assert (G : exists c r, s ++ n ++ x = c :: r /\ numchar c = true).
    { destruct Hs as [-> |[-> | ->]]; [|exists "+"%char, (n ++ x); split; reflexivity|exists "-"%char, (n ++ x); split; reflexivity]. destruct n as [|c n]; [destruct Hn; congruence|]. exists c, (n ++ x). split; [reflexivity|]. apply (num_digits (c :: n)); [exact Hn|left; reflexivity]. }
    destruct G as (c & r & -> & Hc). apply skip_head. intros Hin. destruct D as [D1 D2]. apply (D1 c Hin). apply textchar_iff. apply (tokchar_text ws d c (conj D1 D2)). pose proof (ascii_all (fun c => implb (numchar c) (tokchar c)) ltac:(vm_compute; reflexivity) c) as K. cbn beta in K. rewrite Hc in K. exact K. }
  rewrite H0. unfold token at 1. rewrite (SP inf_words ltac:(vm_compute; reflexivity)), (SP nan_words ltac:(vm_compute; reflexivity)), (no_float s n x Hs Hn X1 X2), (no_mixed s n x Hs Hn X1 X3), (int_full s n x Hs Hn X1). eexists. reflexivity.
Qed.
Print Assumptions C118_split_refuted.
(** The sign of minus infinity is lost. *)
Theorem C118_minus_inf_refuted : forall ws d, delims ws d -> parse_string ws d (t_ "-Inf") = Some [TInf] /\ parse_string ws d (t_ "Inf") = Some [TInf].
Proof.
  assert (G : forall ws d c r, delims ws d -> tokchar c = true -> skip ws (c :: r) = c :: r).
  { intros ws d c r D H. apply skip_head. intros Hin. destruct D as [D1 D2]. apply (D1 c Hin). apply textchar_iff. apply (tokchar_text ws d c (conj D1 D2)). exact H. }
  intros ws d D. unfold parse_string. change (expandtabs 0 (t_ "-Inf")) with (t_ "-Inf"). change (expandtabs 0 (t_ "Inf")) with (t_ "Inf"). split.
  - change (length (t_ "-Inf")) with 4%nat. cbn [tokens]. change (t_ "-Inf") with ("-"%char :: t_ "Inf"). rewrite (G ws d "-"%char (t_ "Inf") D eq_refl). reflexivity.
  - change (length (t_ "Inf")) with 3%nat. cbn [tokens]. change (t_ "Inf") with ("I"%char :: t_ "nf"). rewrite (G ws d "I"%char (t_ "nf") D eq_refl). reflexivity.
Qed.
Print Assumptions C118_minus_inf_refuted.
(** Quotes do not protect delimiters, a letter cannot be a delimiter, and what a parser with
    columns skips depends on the delimiters last given to any other parser. *)
Theorem C118_delimiters_refuted :
  (exists line, line = """"%char :: t_ "a b" ++ [""""%char] /\ parse_string [space; tab] [space; tab] line = Some [TStr (""""%char :: t_ "a"); TStr (t_ "b" ++ [""""%char])])
  /\ (exists line, line = t_ "oxen" /\ parse_string (t_ "x") (t_ "x") line = Some [TStr line])
  /\ (forall g, let before := fst (set_delimiters g [space; tab]) in let after := fst (set_delimiters before (t_ ",")) in
       transfer_var (snd (set_delimiters before (t_ "columns"))) (t_ "12 34") 1 5 = Some (TStr (t_ "12 34"))
       /\ transfer_var (snd (set_delimiters after (t_ "columns"))) (t_ "12 34") 1 5 = Some (TInt (t_ "12"))).
Proof. repeat split; try (eexists; split; [reflexivity|vm_compute; reflexivity]). Qed.
Print Assumptions C118_delimiters_refuted.

Example C118_ex : parse_string [space; tab] [space; tab] (t_ "  Iter 12 -3.5D+2 4e3 NaN .5 x=1,y" ++ [tab] ++ t_ "Inf" ++ [newline])
  = Some [TStr (t_ "Iter"); TInt (t_ "12"); TFloat (t_ "-3.5E+2"); TFloat (t_ "4E3"); TNan; TFloat (t_ ".5"); TStr (t_ "x=1,y"); TInf].
Proof. vm_compute. reflexivity. Qed.
Example C118_ex_split : parse_string [space; tab] [space; tab] (t_ "-3e5 3rd nano") = Some [TInt (t_ "-3"); TStr (t_ "e5"); TInt (t_ "3"); TStr (t_ "rd"); TNan; TStr (t_ "o")].
Proof. vm_compute. reflexivity. Qed.
Example C118_ex_lost : parse_string (t_ ", ") (t_ ", ") (t_ "1, don't, 2, 3") = Some [TInt (t_ "1"); TStr (t_ "don")].
Proof. vm_compute. reflexivity. Qed.
(** the hypotheses hold for a line with a text, an integer and a float *)
Example C118_ex_hyp : delims [space; tab] [space; tab] /\ laid [space; tab] [t_ "ab"; t_ "-7"; t_ "2.5d3"] (t_ " ab  -7 2.5d3" ++ [newline])
  /\ Forall2 (reads [space; tab]) [t_ "ab"; t_ "-7"; t_ "2.5d3"] [TStr (t_ "ab"); TInt (t_ "-7"); TFloat (t_ "2.5E3")].
Proof.
  assert (A : all_space [space; tab]) by (split; [discriminate|intros c [<- |[<- |[]]]; reflexivity]).
  assert (DG : forall s, forallb digit s = true -> s <> [] -> is_digits s) by (intros s H N; split; [exact N|intros c Hc; rewrite forallb_forall in H; apply digit_iff, H, Hc]).
  split; [split; [intros c [<- |[<- |[]]]; apply textchar_false, ctl_stop; vm_compute; lia|left; exact A]|]. split.
  - apply (laid_more _ (t_ " ") (t_ "ab") space (t_ " -7 2.5d3" ++ [newline])); [intros c [<- |[]]; left; reflexivity|left; reflexivity|].
    apply (laid_more _ (t_ " ") (t_ "-7") space (t_ "2.5d3" ++ [newline])); [intros c [<- |[]]; left; reflexivity|left; reflexivity|].
    apply (laid_last _ [] (t_ "2.5d3") [newline]); [intros c []|]. exists []. split; [intros c []|right; reflexivity].
  - constructor; [|constructor; [|constructor; [|constructor]]].
    + apply reads_text; [discriminate|intros c Hc; left; split; [exact A|]; cbn in Hc; destruct Hc as [<- |[<- |[]]]; vm_compute; lia|]. repeat split.
      * intros s k r [-> |[-> | ->]] Hk E; cbn in E; [|discriminate|discriminate]. injection E as <- _. apply digit_iff in Hk. discriminate.
      * intros s k r [-> |[-> | ->]] Hk E; cbn in E; discriminate.
      * intros x r Hx E. cbn [map In] in Hx. repeat (destruct Hx as [<- |Hx]; [discriminate|]). destruct Hx.
    + apply (reads_int _ (t_ "-") (t_ "7")); [right; right; reflexivity|apply DG; [reflexivity|discriminate]].
    + apply (reads_float _ [] (t_ "2.5") (t_ "d3") (t_ "E3")); [left; reflexivity| |].
      * left. exists (t_ "2"), (t_ "5"). split; [apply DG; [reflexivity|discriminate]|]. split; [right; apply DG; [reflexivity|discriminate]|reflexivity].
      * right. exists "d"%char, [], (t_ "3"). split; [cbn; tauto|]. split; [left; reflexivity|]. split; [apply DG; [reflexivity|discriminate]|]. split; reflexivity.
Qed.

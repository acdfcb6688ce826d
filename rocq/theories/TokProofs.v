(** Facts about the elements of TokModel. *)
From Verif Require Import Base BaseFacts OrderModel ExprModel ExprProofs LcnModel LcnProofs DclModel DclProps TokModel TokSpec.
Local Open Scope list_scope.

(** ** Characters *)
Lemma ascii_all : forall P : ascii -> bool, forallb (fun n => P (ascii_of_nat n)) (seq 0 256) = true -> forall c, P c = true.
Proof.
  intros P H c. rewrite forallb_forall in H. specialize (H (nat_of_ascii c)). rewrite ascii_nat_embedding in H. apply H. apply in_seq. pose proof (nat_ascii_bounded c). lia.
Qed.
Lemma cmem_iff : forall c l, cmem c l = true <-> In c l.
Proof.
  intros c l. unfold cmem. rewrite existsb_exists. split; [intros (x & Hx & E); apply Ascii.eqb_eq in E; subst x; exact Hx|intros H; exists c; split; [exact H|apply Ascii.eqb_refl]].
Qed.
Lemma eqb_bool_iff : forall a b, Bool.eqb a b = true -> (a = true <-> b = true).
Proof. intros [|] [|] H; cbn in H; try discriminate; tauto. Qed.
Lemma digit_iff : forall c, digit c = true <-> digit_char c.
Proof.
  intros c. unfold digit_char. rewrite <- cmem_iff. apply eqb_bool_iff. revert c. apply (ascii_all (fun c => Bool.eqb (digit c) (cmem c (t_ "0123456789")))). vm_compute. reflexivity.
Qed.
Lemma alnum_iff : forall c, alnum c = true <-> alnum_char c.
Proof.
  intros c. unfold alnum_char. rewrite <- cmem_iff. apply eqb_bool_iff. revert c. apply (ascii_all (fun c => Bool.eqb (alnum c) (cmem c (t_ "0123456789ABCDEFGHIJKLMNOPQRSTUVWXYZabcdefghijklmnopqrstuvwxyz")))). vm_compute. reflexivity.
Qed.
Lemma isspace_iff : forall d, isspace d = true <-> all_space d.
Proof.
  intros [|c d]; unfold all_space; cbn [isspace]; [split; [discriminate|intros [H _]; congruence]|]. rewrite forallb_forall. split; [intros H; split; [discriminate|exact H]|intros [_ H]; exact H].
Qed.
Lemma textchar_iff : forall d c, textchar d c = true <-> text_char d c.
Proof.
  intros d c. unfold textchar, text_char. destruct (isspace d) eqn:E.
  - apply isspace_iff in E. unfold printable. rewrite andb_true_iff, !Nat.leb_le. tauto.
  - assert (N : ~ all_space d) by (rewrite <- isspace_iff; congruence). rewrite orb_true_iff, andb_true_iff, negb_true_iff, alnum_iff. unfold symbols. rewrite cmem_iff. assert (M : cmem c d = false <-> ~ In c d) by (rewrite <- cmem_iff; destruct (cmem c d); split; congruence). rewrite M. tauto.
Qed.
Lemma textchar_false : forall d c, textchar d c = false <-> ~ text_char d c.
Proof. intros d c. rewrite <- textchar_iff. destruct (textchar d c); split; congruence. Qed.

(** the characters of numbers and special words *)
Definition tokchar (c : ascii) : bool := alnum c || cmem c (t_ "+-.#%").
Lemma tokchar_text : forall ws d c, delims ws d -> tokchar c = true -> textchar d c = true.
Proof.
  intros ws d c [_ [A|G]] H.
  - apply textchar_iff. left. split; [exact A|]. pose proof (ascii_all (fun c => implb (tokchar c) ((33 <=? nat_of_ascii c) && (nat_of_ascii c <=? 126))%nat)) as K. specialize (K ltac:(vm_compute; reflexivity) c). cbn beta in K. rewrite H in K. cbn [implb] in K. rewrite andb_true_iff, !Nat.leb_le in K. exact K.
  - unfold textchar. destruct (isspace d) eqn:E.
    + pose proof (ascii_all (fun c => implb (tokchar c) (printable c))) as K. specialize (K ltac:(vm_compute; reflexivity) c). cbn beta in K. rewrite H in K. exact K.
    + unfold tokchar in H. apply orb_true_iff in H. destruct H as [H|H]; [rewrite H; reflexivity|]. apply orb_true_iff. right. apply andb_true_iff. split.
      * pose proof (ascii_all (fun c => implb (cmem c (t_ "+-.#%")) (cmem c symbols))) as K. specialize (K ltac:(vm_compute; reflexivity) c). cbn beta in K. rewrite H in K. exact K.
      * apply cmem_iff in H. apply G in H. apply negb_true_iff. destruct (cmem c d) eqn:M; [apply cmem_iff in M; tauto|reflexivity].
Qed.
Lemma stop_not : forall ws d (p : ascii -> bool) c, delims ws d -> (forall c, implb (p c) (tokchar c) = true) -> textchar d c = false -> p c = false.
Proof.
  intros ws d p c D Hp H. destruct (p c) eqn:E; [|reflexivity]. specialize (Hp c). rewrite E in Hp. cbn in Hp. rewrite (tokchar_text ws d c D Hp) in H. discriminate.
Qed.

(** ** A character that is in no token ends every element *)
Definition ext (x : option (txt * txt)) (s : txt) : option (txt * txt) := match x with Some (t, r) => Some (t, r ++ s) | None => None end.
Definition stable (stop : ascii -> Prop) (p : scan) : Prop := forall a c b, stop c -> p (a ++ c :: b) = ext (p a) (c :: b).
Lemma span_app : forall (p : ascii -> bool) a c b, p c = false -> span p (a ++ c :: b) = (fst (span p a), snd (span p a) ++ c :: b).
Proof.
  intros p a c b H. induction a as [|d a IH]; [cbn; rewrite H; reflexivity|]. cbn. destruct (p d); [|reflexivity]. rewrite IH. destruct (span p a). reflexivity.
Qed.
Section Stable.
Variable stop : ascii -> Prop.
Lemma stable_word : forall p, (forall c, stop c -> p c = false) -> stable stop (word_ p).
Proof. intros p H a c b S. unfold word_. rewrite span_app by (apply H; exact S). destruct (span p a) as [[|x w] r]; reflexivity. Qed.
Lemma stable_char : forall x, (forall c, stop c -> Ascii.eqb c x = false) -> stable stop (char_ x).
Proof. intros x H a c b S. destruct a as [|d a]; cbn; [rewrite (H c S); reflexivity|]. destruct (Ascii.eqb d x); reflexivity. Qed.
Lemma stable_caseless : forall x y, (forall c, stop c -> Ascii.eqb c x || Ascii.eqb c y = false) -> stable stop (caseless x y).
Proof. intros x y H a c b S. destruct a as [|d a]; cbn; [rewrite (H c S); reflexivity|]. destruct (Ascii.eqb d x || Ascii.eqb d y); reflexivity. Qed.
Lemma stable_seq : forall p q, stable stop p -> stable stop q -> stable stop (seq_ p q).
Proof. intros p q Hp Hq a c b S. unfold seq_. rewrite (Hp a c b S). destruct (p a) as [[x r]|]; cbn [ext]; [|reflexivity]. rewrite (Hq r c b S). destruct (q r) as [[y r']|]; reflexivity. Qed.
Lemma stable_alt : forall p q, stable stop p -> stable stop q -> stable stop (alt_ p q).
Proof. intros p q Hp Hq a c b S. unfold alt_. rewrite (Hp a c b S). destruct (p a) as [[x r]|]; cbn [ext]; [reflexivity|]. apply (Hq a c b S). Qed.
Lemma stable_opt : forall p, stable stop p -> stable stop (opt_ p).
Proof. intros p Hp a c b S. unfold opt_. rewrite (Hp a c b S). destruct (p a) as [[x r]|]; reflexivity. Qed.
Lemma startswith_stop : forall w a c b, stop c -> (forall x, In x w -> ~ stop x) -> startswith (a ++ c :: b) w = startswith a w.
Proof.
  induction w as [|x w IH]; intros a c b S H; [destruct a; reflexivity|]. destruct a as [|d a]; cbn.
  - destruct (Ascii.eqb x c) eqn:E; [|reflexivity]. apply Ascii.eqb_eq in E. subst x. exfalso. apply (H c); [left; reflexivity|exact S].
  - rewrite IH; [reflexivity|exact S|]. intros y Hy. apply H. right. exact Hy.
Qed.
Lemma stable_one_of : forall ws, (forall w x, In w ws -> In x w -> ~ stop x) -> stable stop (one_of ws).
Proof.
  induction ws as [|w ws IH]; intros H a c b S; [reflexivity|]. cbn [one_of]. rewrite startswith_stop; [|exact S|intros x Hx; apply (H w); [left; reflexivity|exact Hx]].
  destruct (startswith a w) eqn:E; [|apply IH; [intros w' x Hw; apply (H w'); right; exact Hw|exact S]]. apply startswith_iff in E. destruct E as (r & ->). cbn [ext]. rewrite <- app_assoc, !skipn_app_len. reflexivity.
Qed.
End Stable.

Definition ext_tok (x : option (tok * txt)) (s : txt) : option (tok * txt) := match x with Some (t, r) => Some (t, r ++ s) | None => None end.
Section Tok.
Variables ws d : txt.
Hypothesis D : delims ws d.
Definition stop (c : ascii) : Prop := textchar d c = false.
Lemma stop_tok : forall (p : ascii -> bool), forallb (fun n => implb (p (ascii_of_nat n)) (tokchar (ascii_of_nat n))) (seq 0 256) = true -> forall c, stop c -> p c = false.
Proof. intros p H c S. apply (stop_not ws d p c D); [|exact S]. apply (ascii_all (fun c => implb (p c) (tokchar c))). exact H. Qed.
Lemma st_digits : stable stop digits.
Proof. apply stable_word. apply (stop_tok digit). vm_compute. reflexivity. Qed.
Lemma st_dot : stable stop dot.
Proof. apply stable_char. apply (stop_tok (fun c => Ascii.eqb c "."%char)). vm_compute. reflexivity. Qed.
Lemma st_sign : stable stop sign.
Proof. apply stable_alt; apply stable_char; [apply (stop_tok (fun c => Ascii.eqb c "+"%char))|apply (stop_tok (fun c => Ascii.eqb c "-"%char))]; vm_compute; reflexivity. Qed.
Lemma st_ee : stable stop ee.
Proof. apply stable_alt; apply stable_caseless; [apply (stop_tok (fun c => Ascii.eqb c "E"%char || Ascii.eqb c "e"%char))|apply (stop_tok (fun c => Ascii.eqb c "D"%char || Ascii.eqb c "d"%char))]; vm_compute; reflexivity. Qed.
Lemma st_words : forall l, forallb (forallb tokchar) l = true -> stable stop (one_of l).
Proof.
  intros l H. apply stable_one_of. intros w x Hw Hx S. rewrite forallb_forall in H. specialize (H w Hw). rewrite forallb_forall in H. specialize (H x Hx). unfold stop in S. rewrite (tokchar_text ws d x D H) in S. discriminate.
Qed.
Lemma st_exp : stable stop (seq_ ee (seq_ (opt_ sign) digits)).
Proof. repeat (apply stable_seq || apply stable_opt || apply st_ee || apply st_sign || apply st_digits). Qed.
Lemma st_int : stable stop num_int.
Proof. repeat (apply stable_seq || apply stable_opt || apply st_ee || apply st_sign || apply st_digits). Qed.
Lemma st_mixed : stable stop mixed_exp.
Proof. apply stable_seq; [apply st_digits|apply st_exp]. Qed.
Lemma st_float : stable stop num_float.
Proof.
  apply stable_seq; [apply stable_opt, st_sign|]. apply stable_seq; [|apply stable_opt, st_exp]. apply stable_alt; [|apply stable_seq; [apply st_dot|apply st_digits]]. apply stable_seq; [apply st_digits|]. apply stable_seq; [apply st_dot|apply stable_opt, st_digits].
Qed.
Lemma token_stable : forall a c b, stop c -> token d (a ++ c :: b) = ext_tok (token d a) (c :: b).
Proof.
  intros a c b S. unfold token. rewrite (st_words inf_words ltac:(vm_compute; reflexivity) a c b S). destruct (one_of inf_words a) as [[x r]|]; cbn [ext]; [reflexivity|].
  rewrite (st_words nan_words ltac:(vm_compute; reflexivity) a c b S). destruct (one_of nan_words a) as [[x r]|]; cbn [ext]; [reflexivity|].
  rewrite (st_float a c b S). destruct (num_float a) as [[x r]|]; cbn [ext]; [reflexivity|].
  rewrite (st_mixed a c b S). destruct (mixed_exp a) as [[x r]|]; cbn [ext]; [reflexivity|].
  rewrite (st_int a c b S). destruct (num_int a) as [[x r]|]; cbn [ext]; [reflexivity|].
  rewrite (stable_word stop (textchar d) (fun c H => H) a c b S). destruct (word_ (textchar d) a) as [[x r]|]; reflexivity.
Qed.
End Tok.

(** ** What an element takes *)
Definition takes (p : scan) : Prop := forall s x r, p s = Some (x, r) -> length s = (length x + length r)%nat.
Definition eats (p : scan) : Prop := forall s x r, p s = Some (x, r) -> x <> [].
Lemma word_some : forall p s x r, word_ p s = Some (x, r) -> s = x ++ r /\ x <> [] /\ forall c, In c x -> p c = true.
Proof.
  intros p s x r H. unfold word_ in H. destruct (span p s) as [w r'] eqn:E. destruct w as [|c w]; [discriminate|]. injection H as <- <-. apply span_ok in E. destruct E as [E F]. split; [exact E|]. split; [discriminate|exact F].
Qed.
Lemma takes_word : forall p, takes (word_ p).
Proof. intros p s x r H. apply word_some in H. destruct H as (-> & _). apply app_length. Qed.
Lemma takes_char : forall c, takes (char_ c).
Proof. intros c [|d s] x r H; cbn in H; [discriminate|]. destruct (Ascii.eqb d c); [|discriminate]. injection H as <- <-. reflexivity. Qed.
Lemma takes_caseless : forall c e, takes (caseless c e).
Proof. intros c e [|d s] x r H; cbn in H; [discriminate|]. destruct (Ascii.eqb d c || Ascii.eqb d e); [|discriminate]. injection H as <- <-. reflexivity. Qed.
Lemma takes_seq : forall p q, takes p -> takes q -> takes (seq_ p q).
Proof. intros p q Hp Hq s x r H. unfold seq_ in H. destruct (p s) as [[a r1]|] eqn:E1; [|discriminate]. destruct (q r1) as [[b r2]|] eqn:E2; [|discriminate]. injection H as <- <-. rewrite (Hp _ _ _ E1), (Hq _ _ _ E2), app_length. lia. Qed.
Lemma takes_alt : forall p q, takes p -> takes q -> takes (alt_ p q).
Proof. intros p q Hp Hq s x r H. unfold alt_ in H. destruct (p s) as [[a r1]|] eqn:E1; [injection H as <- <-; exact (Hp _ _ _ E1)|exact (Hq _ _ _ H)]. Qed.
Lemma takes_opt : forall p, takes p -> takes (opt_ p).
Proof. intros p Hp s x r H. unfold opt_ in H. destruct (p s) as [[a r1]|] eqn:E1; [injection H as <- <-; exact (Hp _ _ _ E1)|injection H as <- <-; reflexivity]. Qed.
Lemma takes_one_of : forall l, takes (one_of l).
Proof.
  induction l as [|w l IH]; intros s x r H; cbn in H; [discriminate|]. destruct (startswith s w) eqn:E; [|exact (IH _ _ _ H)]. apply startswith_iff in E. destruct E as (q & ->). injection H as <- <-. rewrite skipn_app_len. apply app_length.
Qed.
Lemma eats_one_of : forall l, forallb (fun w => match w with [] => false | _ => true end) l = true -> eats (one_of l).
Proof.
  induction l as [|w l IH]; intros K s x r H; cbn in H; [discriminate|]. cbn in K. apply andb_true_iff in K. destruct K as [K1 K2]. destruct (startswith s w) eqn:E; [|exact (IH K2 _ _ _ H)]. injection H as <- _. destruct w; [discriminate|discriminate].
Qed.
Lemma eats_word : forall p, eats (word_ p).
Proof. intros p s x r H. apply word_some in H. apply H. Qed.
Lemma eats_char : forall c, eats (char_ c).
Proof. intros c [|d s] x r H; cbn in H; [discriminate|]. destruct (Ascii.eqb d c); [|discriminate]. injection H as <- <-. discriminate. Qed.
Lemma eats_seq_r : forall p q, eats q -> eats (seq_ p q).
Proof. intros p q Hq s x r H. unfold seq_ in H. destruct (p s) as [[a r1]|] eqn:E1; [|discriminate]. destruct (q r1) as [[b r2]|] eqn:E2; [|discriminate]. injection H as <- <-. apply Hq in E2. destruct a; [exact E2|discriminate]. Qed.
Lemma eats_seq_l : forall p q, eats p -> eats (seq_ p q).
Proof. intros p q Hp s x r H. unfold seq_ in H. destruct (p s) as [[a r1]|] eqn:E1; [|discriminate]. destruct (q r1) as [[b r2]|] eqn:E2; [|discriminate]. injection H as <- <-. apply Hp in E1. destruct a; [congruence|discriminate]. Qed.
Lemma eats_alt : forall p q, eats p -> eats q -> eats (alt_ p q).
Proof. intros p q Hp Hq s x r H. unfold alt_ in H. destruct (p s) as [[a r1]|] eqn:E1; [injection H as <- <-; exact (Hp _ _ _ E1)|exact (Hq _ _ _ H)]. Qed.
Lemma takes_sign : takes (opt_ sign).
Proof. apply takes_opt, takes_alt; apply takes_char. Qed.
Lemma takes_exp : takes (seq_ ee (seq_ (opt_ sign) digits)).
Proof. apply takes_seq; [apply takes_alt; apply takes_caseless|]. apply takes_seq; [apply takes_sign|apply takes_word]. Qed.
Lemma takes_float : takes num_float.
Proof.
  apply takes_seq; [apply takes_sign|]. apply takes_seq; [|apply takes_opt, takes_exp]. apply takes_alt; [|apply takes_seq; [apply takes_char|apply takes_word]]. apply takes_seq; [apply takes_word|]. apply takes_seq; [apply takes_char|apply takes_opt, takes_word].
Qed.
Lemma takes_mixed : takes mixed_exp.
Proof. apply takes_seq; [apply takes_word|apply takes_exp]. Qed.
Lemma takes_int : takes num_int.
Proof. apply takes_seq; [apply takes_sign|apply takes_word]. Qed.
Lemma eats_float : eats num_float.
Proof. apply eats_seq_r, eats_seq_l, eats_alt; apply eats_seq_l; [apply eats_word|apply eats_char]. Qed.
Lemma shrink : forall p s x r, takes p -> eats p -> p s = Some (x, r) -> (length r < length s)%nat.
Proof. intros p s x r T E H. rewrite (T _ _ _ H). apply E in H. destruct x; [congruence|cbn; lia]. Qed.
Lemma token_shrink : forall d s t r, token d s = Some (t, r) -> (length r < length s)%nat.
Proof.
  intros d s t r. unfold token. destruct (one_of inf_words s) as [[x q]|] eqn:E1; [intros E; injection E as <- <-; apply (shrink _ _ _ _ (takes_one_of _) (eats_one_of inf_words eq_refl) E1)|].
  destruct (one_of nan_words s) as [[x q]|] eqn:E2; [intros E; injection E as <- <-; apply (shrink _ _ _ _ (takes_one_of _) (eats_one_of nan_words eq_refl) E2)|].
  destruct (num_float s) as [[x q]|] eqn:E3; [intros E; injection E as <- <-; apply (shrink _ _ _ _ takes_float eats_float E3)|].
  destruct (mixed_exp s) as [[x q]|] eqn:E4; [intros E; injection E as <- <-; apply (shrink _ _ _ _ takes_mixed (eats_seq_l _ _ (eats_word _)) E4)|].
  destruct (num_int s) as [[x q]|] eqn:E5; [intros E; injection E as <- <-; apply (shrink _ _ _ _ takes_int (eats_seq_r _ _ (eats_word _)) E5)|].
  destruct (word_ (textchar d) s) as [[x q]|] eqn:E6; [intros E; injection E as <- <-; apply (shrink _ _ _ _ (takes_word _) (eats_word _) E6)|discriminate].
Qed.
Lemma skip_le : forall ws s, (length (skip ws s) <= length s)%nat.
Proof. intros ws. induction s as [|c s IH]; [reflexivity|]. cbn. destruct (cmem c ws); [lia|reflexivity]. Qed.
Lemma tokens_fuel : forall ws d f g s, (length s < f)%nat -> (length s < g)%nat -> tokens f ws d s = tokens g ws d s.
Proof.
  intros ws d. induction f as [|f IH]; intros g s Hf Hg; [lia|]. destruct g as [|g]; [lia|]. cbn. destruct (token d (skip ws s)) as [[t r]|] eqn:E; [|reflexivity]. apply token_shrink in E. pose proof (skip_le ws s). f_equal. apply IH; lia.
Qed.

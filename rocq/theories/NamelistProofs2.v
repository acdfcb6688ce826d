(** Lines of a file: what parse_file makes of each line that generate writes. *)
From Coq Require Import ZifyBool.
From Verif Require Import Base FileModel NamelistModel NamelistSpec NamelistProofs.
Local Open Scope nat_scope.

Lemma okinj : forall A (a b : A), Ok a = Ok b -> a = b. Proof. congruence. Qed.
(** ** Searching *)
Lemma found_none : forall A (p : text -> option A) s, (forall a b, s = a ++ b -> p b = None) -> found p s = false.
Proof.
  intros A p s. induction s as [|c s IH]; intro H; cbn.
  - rewrite (H [] [] eq_refl). reflexivity.
  - rewrite (H [] (c :: s) eq_refl). apply IH. intros a b E. apply (H (c :: a) b). rewrite E. reflexivity.
Qed.
Lemma found_app : forall A (p : text -> option A) a b, (forall a1 a2, a = a1 ++ a2 -> a2 <> [] -> p (a2 ++ b) = None) -> found p b = false -> found p (a ++ b) = false.
Proof.
  intros A p a b. induction a as [|c a IH]; intros H Hb; [exact Hb|]. cbn [app found].
  assert (p (c :: a ++ b) = None) as -> by (apply (H [] (c :: a) eq_refl); discriminate).
  apply IH; [|exact Hb]. intros a1 a2 E Hn. apply (H (c :: a1) a2); [rewrite E; reflexivity|exact Hn].
Qed.
Lemma found_start : forall A (p : text -> option A) s x, p s = Some x -> found p s = true.
Proof. intros A p [|c s] x H; cbn; rewrite H; reflexivity. Qed.
Lemma skip_incl : forall s, incl (skip s) s.
Proof. induction s as [|c s IH]; cbn; [apply incl_refl|]. destruct (is_white c); [apply incl_tl; exact IH|apply incl_refl]. Qed.
Lemma strip_prefix_incl : forall w s r, strip_prefix w s = Some r -> incl r s /\ incl w s.
Proof.
  induction w as [|x w IH]; intros s r H; cbn in H.
  - assert (s = r) by congruence. subst. split; [apply incl_refl|intros ? []].
  - destruct s as [|y s]; [discriminate|]. destruct (Ascii.eqb_spec x y) as [->|]; [|discriminate].
    destruct (IH s r H) as [A B]. split; [apply incl_tl; exact A|]. intros z [<-|Hz]; [left; reflexivity|right; exact (B z Hz)].
Qed.
Lemma lit_incl : forall w s r, lit w s = Some r -> incl r s /\ incl w s.
Proof. intros w s r H. destruct (strip_prefix_incl w (skip s) r H) as [A B]. split; eapply incl_tran; try eassumption; apply skip_incl. Qed.
Lemma lit_none : forall c s, ~ In c s -> lit [c] s = None.
Proof. intros c s H. destruct (lit [c] s) as [r|] eqn:E; [|reflexivity]. destruct (lit_incl [c] s r E) as [_ B]. exfalso. apply H. apply B. left. reflexivity. Qed.
Lemma found_lit : forall c s, is_white c = false -> In c s -> found (lit [c]) s = true.
Proof.
  intros c s Hw H. induction s as [|x s IH]; [destruct H|]. cbn [found]. destruct (lit [c] (x :: s)) as [r|] eqn:E; [reflexivity|].
  destruct H as [->|H]; [|apply IH; exact H].
  unfold lit in E. cbn in E. rewrite Hw in E. cbn in E. rewrite Ascii.eqb_refl in E. discriminate.
Qed.
Lemma found_lit_none : forall c s, ~ In c s -> found (lit [c]) s = false.
Proof. intros c s H. apply found_none. intros a b ->. apply lit_none. intro X. apply H. apply in_or_app. right. exact X. Qed.
Lemma span_incl : forall p s, incl (snd (span p s)) s.
Proof.
  intros p s. induction s as [|c s IH]; cbn; [apply incl_refl|]. destruct (p c); [|apply incl_refl].
  destruct (span p s) as [a b]. apply incl_tl. exact IH.
Qed.
Lemma word_incl : forall p s w r, word p s = Some (w, r) -> incl r s.
Proof. intros p s w r H. unfold word in H. pose proof (span_incl p s) as G. destruct (span p s) as [[|x a] b]; [discriminate|]. cbn in G. assert (b = r) by congruence. subst. exact G. Qed.
Lemma fieldval_incl : forall s w r, fieldval s = Some (w, r) -> incl r s.
Proof. intros s w r H. eapply incl_tran; [exact (word_incl _ _ _ _ H)|apply skip_incl]. Qed.
Lemma num_int_incl : forall s k r, num_int s = Some (k, r) -> incl r s.
Proof.
  intros s k r H. unfold num_int in H. destruct (lex_int (skip s)) as [[t r']|] eqn:E; [|discriminate]. assert (r' = r) by congruence. subst.
  eapply incl_tran; [|apply skip_incl]. unfold lex_int in E. destruct (opt_sign (skip s)) as [sg r1] eqn:Eo.
  destruct (word is_digit r1) as [[d r2]|] eqn:Ew; [|discriminate]. assert (r2 = r) by congruence. subst.
  eapply incl_tran; [exact (word_incl _ _ _ _ Ew)|]. unfold opt_sign in Eo. destruct (skip s) as [|c s']; [injection Eo; intros; subst; apply incl_refl|].
  destruct (is_sign c); injection Eo; intros; subst; [apply incl_tl|]; apply incl_refl.
Qed.
Lemma index_incl : forall s k r, index_token s = Some (k, r) -> incl r s.
Proof.
  intros s k r H. unfold index_token in H. destruct (lit (t_ "(") s) as [r1|] eqn:E1; [|discriminate].
  destruct (num_int r1) as [[k2 r2]|] eqn:E2; [|discriminate]. destruct (lit (t_ ")") r2) as [r3|] eqn:E3; [|discriminate].
  assert (r3 = r) by congruence. subst. eapply incl_tran; [exact (proj1 (lit_incl _ _ _ E3))|].
  eapply incl_tran; [exact (num_int_incl _ _ _ E2)|exact (proj1 (lit_incl _ _ _ E1))].
Qed.

(** ** Names *)
Lemma fieldval_app : forall n r, identifier n -> stops is_alnum r -> fieldval (n ++ r) = Some (n, r).
Proof.
  intros n r [Hn Ha] Hr. unfold fieldval. rewrite (start_skip n r).
  - exact (word_app is_alnum n r Hn (alnums_is n Ha) Hr).
  - destruct n as [|c n]; [congruence|]. inversion Ha; subst. cbn. clear -H1. chr.
Qed.
Lemma digits_identifier : forall d, d <> [] -> Forall digit d -> identifier d.
Proof. intros d Hn Hd. split; [exact Hn|]. eapply Forall_impl; [|exact Hd]. intros c Hc. left. exact Hc. Qed.
Lemma show_nat_identifier : forall k, identifier (show_int (Z.of_nat k)).
Proof.
  intro k. unfold show_int. assert (E : exists d, Z.to_int (Z.of_nat k) = Decimal.Pos d) by (destruct k; cbn; eexists; reflexivity).
  destruct E as [d ->]. cbn. apply digits_identifier.
  - destruct d; discriminate.
  - destruct d; try (apply uint_digits). constructor; [chr|constructor].
Qed.

Section Lines.
Variable F : Type.
Variable fshow : F -> res text.
Variable fread : text -> F.
Variable of_int : Z -> F.
Notation scalar := (scalar F).
Notation card_token := (card_token F fread).
Notation multi_card_token := (multi_card_token F fread).
Notation array2D_token := (array2D_token F fread).
Notation num_ok := (num_ok F fshow fread).
Notation fmt := (fmt F fshow).
Notation fmt_all := (fmt_all F fshow).
Notation scalar_ok := (scalar_ok F fshow fread).

Lemma card_none_field : forall s, fieldval s = None -> card_token s = None.
Proof. intros s H. unfold NamelistModel.card_token. rewrite H. reflexivity. Qed.
Lemma card_none_eq : forall s, ~ In "="%char s -> card_token s = None.
Proof.
  intros s H. unfold NamelistModel.card_token. destruct (fieldval s) as [[n s1]|] eqn:E; [|reflexivity].
  pose proof (fieldval_incl _ _ _ E) as I1.
  assert (Hl : forall o s2, (match index_token s1 with Some (k, r) => (Some k, r) | None => (None, s1) end) = (o, s2) -> lit (t_ "=") s2 = None).
  { intros o s2 E2. apply lit_none. intro X. apply H. apply I1. destruct (index_token s1) as [[k r]|] eqn:Ei; injection E2; intros; subst.
    - exact (index_incl _ _ _ Ei _ X).
    - exact X. }
  destruct (match index_token s1 with Some (k, r) => (Some k, r) | None => (None, s1) end) as [o s2]. rewrite (Hl o s2 eq_refl). reflexivity.
Qed.
Lemma card_none_next : forall n c r, identifier n -> is_alnum c = false -> is_white c = false -> c <> "("%char -> c <> "="%char -> card_token (n ++ c :: r) = None.
Proof.
  intros n c r Hn Ha Hw H1 H2. unfold NamelistModel.card_token. rewrite (fieldval_app n (c :: r) Hn Ha).
  assert (index_token (c :: r) = None) as ->.
  { unfold index_token, lit. cbn [skip]. rewrite Hw. cbn [t_ list_ascii_of_string strip_prefix].
    assert (Ascii.eqb "(" c = false) as -> by (apply Ascii.eqb_neq; congruence). reflexivity. }
  assert (lit (t_ "=") (c :: r) = None) as ->; [|reflexivity].
  unfold lit. cbn [skip]. rewrite Hw. cbn [t_ list_ascii_of_string strip_prefix].
  assert (Ascii.eqb "=" c = false) as -> by (apply Ascii.eqb_neq; congruence). reflexivity.
Qed.
Lemma multi_none : forall s, card_token s = None -> multi_card_token s = None.
Proof. intros s H. unfold NamelistModel.multi_card_token. rewrite H. reflexivity. Qed.

(** ** Cards on one line *)
Lemma card_head : forall n s, identifier n ->
  card_token (n ++ t_ " = " ++ s) =
  let '(dim, s1) := match num_int (t_ " " ++ s) with
                    | Some (k, r) => match lit (t_ "*") r with Some r1 => (Some k, r1) | None => (None, t_ " " ++ s) end
                    | None => (None, t_ " " ++ s)
                    end in
  match data_token F fread s1 with
  | None => None
  | Some (vs, s) =>
      let '(dim2, s) := match lit (t_ "*") s with
                       | Some r => match num_int r with Some (k, r1) => (Some k, r1) | None => (None, s) end
                       | None => (None, s)
                       end in
      let opt o := match o with Some k => [SInt F k] | None => [] end in
      Some (mkP F n None (match dim2 with Some _ => dim2 | None => dim end)
                (opt dim ++ vs ++ opt dim2) (hd (SInt F 0) vs), s)
  end.
Proof.
  intros n s Hn. unfold NamelistModel.card_token.
  rewrite (fieldval_app n (t_ " = " ++ s) Hn eq_refl). cbn [t_ list_ascii_of_string app].
  change (index_token (" "%char :: "="%char :: " "%char :: s)) with (@None (Z * text)). cbv iota.
  change (lit ["="%char] (" "%char :: "="%char :: " "%char :: s)) with (Some (" "%char :: s)). cbv iota.
  destruct (match num_int (" "%char :: s) with
            | Some (k, r) => match lit ["*"%char] r with Some r1 => (Some k, r1) | None => (None, " "%char :: s) end
            | None => (None, " "%char :: s) end) as [dim s1]. reflexivity.
Qed.
Lemma blank1 : blanks (t_ " "). Proof. repeat constructor. Qed.
Lemma blank2 : blanks (t_ "  "). Proof. repeat constructor. Qed.
Lemma card_nums : forall n s l w ws, identifier n -> Forall num_ok (s :: l) -> fmt s = Ok w -> fmt_all l = Ok ws ->
  card_token (n ++ t_ " = " ++ w ++ commas (t_ " ") ws) = Some (mkP F n None None (s :: l) s, []).
Proof.
  intros n s l w ws Hn Hl Hw Hws. rewrite (card_head n _ Hn). inversion Hl as [|? ? Hs Hl']; subst.
  assert (Hst : stop (commas (t_ " ") ws)) by (pose proof (commas_stop (t_ " ") ws [] (or_introl eq_refl)) as G; rewrite app_nil_r in G; exact G).
  destruct (num_no_dim F fshow fread (t_ " ") s w (commas (t_ " ") ws) blank1 Hs Hw Hst) as (k & r' & E1 & E2).
  rewrite E1, E2. unfold data_token, numstr_token.
  pose proof (numvals_fmt F fshow fread (t_ " ") (t_ " ") s l w ws [] blank1 blank1 Hl Hw Hws (or_introl eq_refl)) as G. rewrite app_nil_r in G.
  rewrite G. cbn [lit skip strip_prefix t_ list_ascii_of_string app hd]. rewrite app_nil_r. reflexivity.
Qed.
Lemma card_bool : forall n (b : bool), identifier n -> card_token (n ++ t_ " = " ++ (if b then t_ "T" else t_ "F")) = Some (mkP F n None None [SBool F b] (SBool F b), []).
Proof. intros n b Hn. rewrite (card_head n _ Hn). destruct b; reflexivity. Qed.
Lemma quoted_app : forall w, quotable w -> quoted "'" (t_ " " ++ "'"%char :: w ++ ["'"%char]) = Some (w, []).
Proof.
  intros w H. unfold quoted. cbn [t_ list_ascii_of_string app skip]. cbn [is_white]. change (is_white " ") with true. cbv iota.
  change (is_white "'") with false. cbv iota. rewrite Ascii.eqb_refl.
  rewrite span_app; [rewrite Ascii.eqb_refl; reflexivity| |reflexivity].
  eapply Forall_impl; [|exact H]. cbv beta. intros c [Hp Hc]. cbn in Hc.
  assert (Hq : c <> "'"%char) by (intro X; apply Hc; left; congruence).
  apply Ascii.eqb_neq in Hq. rewrite Hq. clear -Hp. unfold printable, between in Hp. unfold in_range. lia.
Qed.
Lemma card_str : forall n w, identifier n -> quotable w -> card_token (n ++ t_ " = " ++ "'"%char :: w ++ ["'"%char]) = Some (mkP F n None None [SStr F w] (SStr F w), []).
Proof.
  intros n w Hn Hw. rewrite (card_head n _ Hn).
  change (num_int (t_ " " ++ "'"%char :: w ++ ["'"%char])) with (@None (Z * text)). cbv iota.
  unfold data_token, numstr_token, strval. change (numvals F fread (t_ " " ++ "'"%char :: w ++ ["'"%char])) with (@None (list scalar * text)). cbv iota.
  change (quoted """" (t_ " " ++ "'"%char :: w ++ ["'"%char])) with (@None (text * text)). cbv iota.
  rewrite (quoted_app w Hw). reflexivity.
Qed.

(** the elements on the right of the equals sign *)
Definition row_ok (l : list scalar) : Prop := match l with [] => False | [s] => scalar_ok s | _ => numbers F fshow fread l end.
Lemma numbers_num_ok : forall l, numbers F fshow fread l -> Forall num_ok l.
Proof.
  intros l H. apply Forall_forall. intros s Hs. destruct H as [H|H].
  - destruct (H s Hs) as [z ->]. left. exists z. reflexivity.
  - destruct (H s Hs) as [x Hx]. right. exists x. exact Hx.
Qed.
Lemma numbers_array : forall l, numbers F fshow fread l -> mk_array F of_int l = Ok l.
Proof.
  intros l [H|H]; unfold mk_array.
  - assert (forallb (is_int F) l = true) as ->; [|reflexivity]. apply forallb_forall. intros s Hs. destruct (H s Hs) as [z ->]. reflexivity.
  - destruct (forallb (is_int F) l || forallb (is_bool F) l || forallb (is_str F) l); [reflexivity|].
    assert (forallb (is_num F) l = true) as ->. { apply forallb_forall. intros s Hs. destruct (H s Hs) as [x [-> _]]. reflexivity. }
    f_equal. transitivity (map (fun s => s) l); [|apply map_id]. apply map_ext_in. intros s Hs. destruct (H s Hs) as [x [-> _]]. reflexivity.
Qed.
Lemma join_commas : forall w ws, join (t_ ", ") (w :: ws) = w ++ commas (t_ " ") ws.
Proof.
  intros w ws. revert w. induction ws as [|v ws IH]; intro w; [symmetry; apply app_nil_r|].
  cbn [join]. cbn [join] in IH. rewrite (IH v). reflexivity.
Qed.
Lemma row_card : forall n l ws, identifier n -> row_ok l -> fmt_all l = Ok ws ->
  multi_card_token (n ++ t_ " = " ++ join (t_ ", ") ws) = Some ([mkP F n None None l (hd (SInt F 0) l)], []).
Proof.
  intros n l ws Hn Hl Hws.
  assert (E : card_token (n ++ t_ " = " ++ join (t_ ", ") ws) = Some (mkP F n None None l (hd (SInt F 0) l), [])).
  { destruct l as [|s l]; [destruct Hl|]. destruct (fmt_all_inv F fshow s l ws Hws) as (w & ws' & -> & Hw & Hws'). rewrite join_commas. cbn [hd].
    destruct l as [|s' l].
    - cbn in Hws'. assert (ws' = []) by congruence. subst ws'. cbn in Hl. change (commas (t_ " ") []) with (@nil ascii). rewrite app_nil_r.
      destruct s as [z|x|b|v]; cbn in Hw.
      + pose proof (card_nums n (SInt F z) [] w [] Hn) as G. change (commas (t_ " ") []) with (@nil ascii) in G. rewrite app_nil_r in G.
        apply G; [constructor; [left; exists z; reflexivity|constructor]|exact Hw|reflexivity].
      + pose proof (card_nums n (SFloat F x) [] w [] Hn) as G. change (commas (t_ " ") []) with (@nil ascii) in G. rewrite app_nil_r in G.
        apply G; [constructor; [right; exists x; split; [reflexivity|exact Hl]|constructor]|exact Hw|reflexivity].
      + apply okinj in Hw. subst w. apply card_bool; exact Hn.
      + apply okinj in Hw. subst w. apply card_str; assumption.
    - apply (card_nums n s (s' :: l) w ws' Hn); [apply numbers_num_ok; exact Hl|exact Hw|exact Hws']. }
  unfold NamelistModel.multi_card_token. rewrite E. reflexivity.
Qed.
Lemma row_value : forall n l, row_ok l ->
  read_card F of_int (mkP F n None None l (hd (SInt F 0) l)) = Ok (Card F n (match l with [s] => Scalar F s | _ => Array1 F l end)).
Proof.
  intros n l H. unfold read_card, card_value. cbn [c_index c_dim c_tokens c_value c_name].
  destruct l as [|s [|s' l]]; [destruct H|reflexivity|]. cbn in H. rewrite (numbers_array _ H). reflexivity.
Qed.

(** ** Characters of the lines *)
Definition clean (c : ascii) : Prop := printable c /\ c <> "!"%char.
Definition ends_ok (w : text) : Prop := exists a c, w = a ++ [c] /\ c <> " "%char /\ c <> "/"%char.
Lemma digit_clean : forall d, Forall digit d -> Forall clean d.
Proof. intros d H. eapply Forall_impl; [|exact H]. intros c Hc. split; [apply digit_printable; exact Hc|]. intro; subst. clear -Hc. chr. Qed.
Lemma alnum_clean : forall d, Forall alnum d -> Forall clean d.
Proof. intros d H. eapply Forall_impl; [|exact H]. intros c Hc. split; [apply alnum_printable; exact Hc|]. intro; subst. clear -Hc. chr. Qed.
Lemma sign_clean : forall s, sign s -> Forall clean s.
Proof. intros s [->|[->| ->]]; repeat constructor; try (intro; discriminate); chr. Qed.
Lemma t_clean : forall s, forallb (fun c => (32 <=? nat_of_ascii c) && (nat_of_ascii c <=? 126) && negb (Ascii.eqb c "!")) s = true -> Forall clean s.
Proof.
  intros s H. apply Forall_forall. intros c Hc. rewrite forallb_forall in H. specialize (H c Hc).
  apply andb_prop in H. destruct H as [H1 H2]. split; [unfold printable, between; lia|].
  intros ->. discriminate H2.
Qed.
Lemma expo_clean : forall e e', expo e e' -> Forall clean e.
Proof.
  intros e e' H. destruct H as [e sg d He Hs Hn Hd]. constructor.
  - cbn in He. destruct He as [<-|[<-|[<-|[<-|[]]]]]; (split; [chr|discriminate]).
  - apply Forall_app. split; [apply sign_clean; exact Hs|apply digit_clean; exact Hd].
Qed.
Lemma float_clean : forall w t, float_text w t -> Forall clean w.
Proof.
  intros w t H. destruct H as [sg d f Hs Hn Hd Hf|sg d f e e' Hs Hn Hd Hf He|d e e' Hn Hd He]; repeat (apply Forall_app; split);
    try (apply sign_clean; assumption); try (apply digit_clean; assumption); try (eapply expo_clean; eassumption); try (apply t_clean; reflexivity).
Qed.
Lemma ends_app : forall a b, ends_ok b -> ends_ok (a ++ b).
Proof. intros a b (x & c & -> & H). exists (a ++ x), c. split; [apply app_assoc|exact H]. Qed.
Lemma ends_cons : forall a b, ends_ok b -> ends_ok (a :: b).
Proof. intros a b H. exact (ends_app [a] b H). Qed.
Lemma digits_end : forall d, d <> [] -> Forall digit d -> ends_ok d.
Proof.
  intros d Hn Hd. destruct (exists_last Hn) as (a & c & ->). apply Forall_app in Hd. destruct Hd as [_ Hd]. inversion Hd; subst.
  exists a, c. split; [reflexivity|]. split; intro; subst; clear -H1; chr.
Qed.
Lemma expo_end : forall e e', expo e e' -> ends_ok e.
Proof. intros e e' H. destruct H as [e sg d He Hs Hn Hd]. apply ends_cons, ends_app, digits_end; assumption. Qed.
Lemma float_end : forall w t, float_text w t -> ends_ok w.
Proof.
  intros w t H. destruct H as [sg d f Hs Hn Hd Hf|sg d f e e' Hs Hn Hd Hf He|d e e' Hn Hd He].
  - apply ends_app, ends_app. destruct f as [|c f]; [exists [], "."%char; split; [reflexivity|split; discriminate]|].
    apply ends_app. apply digits_end; [discriminate|exact Hf].
  - apply ends_app, ends_app, ends_app, ends_app. eapply expo_end; exact He.
  - apply ends_app. eapply expo_end; exact He.
Qed.
Lemma fmt_clean : forall s w, scalar_ok s -> fmt s = Ok w -> Forall clean w /\ ends_ok w.
Proof.
  intros s w Hs Hw. destruct s as [z|x|b|v]; cbn in Hs, Hw.
  - assert (w = show_int z) by congruence. subst w. destruct (show_int_form z) as (sg & d & -> & Hsg & Hn & Hd & _). split.
    + apply Forall_app. split; [apply sign_clean, sign_minus; exact Hsg|apply digit_clean; exact Hd].
    + apply ends_app, digits_end; assumption.
  - destruct Hs as (w' & t & E & Ht & _). assert (w' = w) by congruence. subst w'. split; [eapply float_clean; exact Ht|eapply float_end; exact Ht].
  - apply okinj in Hw. subst w. destruct b.
    + split; [apply t_clean; reflexivity|exists [], "T"%char; split; [reflexivity|split; discriminate]].
    + split; [apply t_clean; reflexivity|exists [], "F"%char; split; [reflexivity|split; discriminate]].
  - apply okinj in Hw. subst w. split.
    + constructor; [split; [chr|discriminate]|]. apply Forall_app. split; [|repeat constructor; try discriminate; chr].
      eapply Forall_impl; [|exact Hs]. cbv beta. intros c [Hp Hc]. split; [exact Hp|]. intro; subst. apply Hc. right. left. reflexivity.
    + exists ("'"%char :: v), "'"%char. split; [reflexivity|split; discriminate].
Qed.
Lemma row_ok_scalars : forall l, row_ok l -> Forall scalar_ok l.
Proof.
  intros l H. destruct l as [|s [|s' l]]; [constructor|constructor; [exact H|constructor]|].
  apply Forall_forall. intros x Hx. destruct H as [H|H]; destruct (H x Hx) as [z Hz]; [subst; exact I|destruct Hz as [-> Hz]; exact Hz].
Qed.
Lemma commas_clean : forall sp l ws, blanks sp -> Forall scalar_ok l -> fmt_all l = Ok ws -> Forall clean (commas sp ws).
Proof.
  intros sp l ws Hsp Hl. revert ws. induction Hl as [|s l Hs Hl IH]; intros ws H.
  - cbn in H. assert (ws = []) by congruence. subst. constructor.
  - destruct (fmt_all_inv F fshow s l ws H) as (w & ws' & -> & Hw & Hws'). unfold commas. cbn [map concat]. fold (commas sp ws').
    apply Forall_app. split; [|apply IH; exact Hws']. constructor; [split; [chr|discriminate]|]. apply Forall_app. split; [|apply (fmt_clean s w Hs Hw)].
    eapply Forall_impl; [|exact Hsp]. intros c <-. split; [chr|discriminate].
Qed.
Lemma commas_end : forall sp l ws, Forall scalar_ok l -> fmt_all l = Ok ws -> forall w, ends_ok w -> ends_ok (w ++ commas sp ws).
Proof.
  intros sp l ws Hl. revert ws. induction Hl as [|s l Hs Hl IH]; intros ws H v Hv.
  - cbn in H. assert (ws = []) by congruence. subst. change (commas sp []) with (@nil ascii). rewrite app_nil_r. exact Hv.
  - destruct (fmt_all_inv F fshow s l ws H) as (w & ws' & -> & Hw & Hws'). unfold commas. cbn [map concat]. fold (commas sp ws').
    apply ends_app. apply (IH ws' Hws'). apply ends_cons, ends_app. apply (fmt_clean s w Hs Hw).
Qed.
Lemma row_clean : forall l ws, row_ok l -> fmt_all l = Ok ws -> Forall clean (join (t_ ", ") ws) /\ ends_ok (join (t_ ", ") ws).
Proof.
  intros l ws Hl Hws. pose proof (row_ok_scalars l Hl) as Hs. destruct l as [|s l]; [destruct Hl|].
  destruct (fmt_all_inv F fshow s l ws Hws) as (w & ws' & -> & Hw & Hws'). rewrite join_commas. inversion Hs; subst.
  destruct (fmt_clean s w H1 Hw) as [A B]. split.
  - apply Forall_app. split; [exact A|]. eapply commas_clean; [exact blank1|exact H2|exact Hws'].
  - eapply commas_end; [exact H2|exact Hws'|exact B].
Qed.
Lemma fmt_all_ok : forall l, Forall scalar_ok l -> exists ws, fmt_all l = Ok ws.
Proof.
  intros l H. induction H as [|s l Hs H IH]; [exists []; reflexivity|]. destruct IH as [ws E].
  assert (Hw : exists w, fmt s = Ok w). { destruct s as [z|x|b|v]; cbn; try (eexists; reflexivity). destruct Hs as (w & t & E' & _). exists w. exact E'. }
  destruct Hw as [w Ew]. exists (w :: ws). cbn. rewrite Ew. cbn. rewrite E. reflexivity.
Qed.
End Lines.

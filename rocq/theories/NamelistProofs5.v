(** Arrays that go on over several lines. *)
From Coq Require Import ZifyBool.
From Verif Require Import Base FileModel NamelistModel NamelistSpec NamelistProofs NamelistProofs2 NamelistProofs3 NamelistProofs4.
Local Open Scope nat_scope.

Section Continue.
Variable F : Type.
Variable fshow : F -> res text.
Variable fread : text -> F.
Variable of_int : Z -> F.
Notation scalar := (scalar F).
Notation card_token := (card_token F fread).
Notation multi_card_token := (multi_card_token F fread).
Notation num_ok := (num_ok F fshow fread).
Notation fmt := (fmt F fshow).
Notation fmt_all := (fmt_all F fshow).
Notation numbers := (numbers F fshow fread).
Notation body_line := (body_line F fread of_int).
Notation parse_lines := (parse_lines F fread of_int).

Lemma tail_stop : forall r, tail r -> stop r.
Proof. intros r [->| ->]; cbn; [exact I|left; reflexivity]. Qed.
Lemma nums_card : forall n s l w ws r, identifier n -> Forall num_ok (s :: l) -> fmt s = Ok w -> fmt_all l = Ok ws -> tail r ->
  multi_card_token (n ++ t_ " = " ++ w ++ commas (t_ " ") ws ++ r) = Some ([mkP F n None None (s :: l) s], r).
Proof.
  intros n s l w ws r Hn Hl Hw Hws Hr.
  assert (E : card_token (n ++ t_ " = " ++ w ++ commas (t_ " ") ws ++ r) = Some (mkP F n None None (s :: l) s, r)).
  { rewrite (card_head F fread n _ Hn). inversion Hl as [|? ? Hs Hl']; subst.
    destruct (num_no_dim F fshow fread (t_ " ") s w (commas (t_ " ") ws ++ r) blank1 Hs Hw (commas_stop (t_ " ") ws r Hr)) as (k & r' & E1 & E2).
    rewrite E1, E2. unfold data_token, numstr_token.
    rewrite (numvals_fmt F fshow fread (t_ " ") (t_ " ") s l w ws r blank1 blank1 Hl Hw Hws Hr).
    rewrite (stop_star r (tail_stop r Hr)). cbn [app hd]. rewrite app_nil_r. reflexivity. }
  unfold NamelistModel.multi_card_token. rewrite E. destruct Hr as [->| ->]; reflexivity.
Qed.
Lemma tail_clean : forall r, tail r -> Forall clean r.
Proof. intros r [->| ->]; apply t_clean; reflexivity. Qed.
Lemma tail_end : forall a r, tail r -> ends_ok a -> ends_ok (a ++ r).
Proof. intros a r [->| ->] H; [rewrite app_nil_r; exact H|]. exists a, ","%char. split; [reflexivity|split; discriminate]. Qed.
Lemma nums_line : forall s l w ws r, numbers (s :: l) -> fmt s = Ok w -> fmt_all l = Ok ws -> tail r ->
  Forall clean (w ++ commas (t_ " ") ws ++ r) /\ ends_ok (w ++ commas (t_ " ") ws ++ r) /\ nonspace_start (w ++ commas (t_ " ") ws ++ r) /\ ~ In "="%char (w ++ commas (t_ " ") ws ++ r).
Proof.
  intros s l w ws r Hl Hw Hws Hr. pose proof (numbers_num_ok F fshow fread _ Hl) as Hn. pose proof (num_scalar F fshow fread _ Hn) as Hs.
  inversion Hn as [|? ? Hn1 Hn2]; subst. inversion Hs as [|? ? Hs1 Hs2]; subst. destruct (fmt_clean F fshow fread s w Hs1 Hw) as [Hc He]. split; [|split; [|split]].
  - apply Forall_app. split; [exact Hc|]. apply Forall_app. split; [eapply commas_clean; [exact blank1|exact Hs2|exact Hws]|apply tail_clean; exact Hr].
  - rewrite app_assoc. apply tail_end; [exact Hr|]. eapply commas_end; [exact Hs2|exact Hws|exact He].
  - pose proof (fmt_start F fshow fread s w Hn1 Hw) as G. destruct w as [|c w]; [destruct G|]. cbn in G |- *. inversion Hc as [|? ? Hc1 _]; subst. destruct Hc1 as [Hc1 _].
    apply printable_space; [exact Hc1|]. intros ->. discriminate.
  - intro X. apply in_app_or in X. destruct X as [X|X]; [exact (numc_not w _ (num_numc F fshow fread s w Hn1 Hw) eq_refl X)|].
    apply in_app_or in X. destruct X as [X|X]; [exact (commas_no_eq F fshow fread _ l ws blank1 Hn2 Hws X)|].
    destruct Hr as [->| ->]; [destruct X|destruct X as [X|[]]; discriminate].
Qed.
Lemma no_eq_2D : forall s, ~ In "="%char s -> found (array2D_token F fread) s = false.
Proof.
  intros s H. apply found_none. intros a b ->. unfold array2D_token.
  destruct (fieldval b) as [[n s1]|] eqn:E1; [|reflexivity]. pose proof (fieldval_incl _ _ _ E1) as I1.
  destruct (lit (t_ "(") s1) as [s2|] eqn:E2; [|reflexivity]. destruct (lit_incl _ _ _ E2) as [I2 _].
  destruct (num_int s2) as [[k s3]|] eqn:E3; [|reflexivity]. pose proof (num_int_incl _ _ _ E3) as I3.
  destruct (lit (t_ ",") s3) as [s4|] eqn:E4; [|reflexivity]. destruct (lit_incl _ _ _ E4) as [I4 _].
  destruct (num_int s4) as [[k' s5]|] eqn:E5; [|reflexivity]. pose proof (num_int_incl _ _ _ E5) as I5.
  destruct (lit (t_ ")") s5) as [s6|] eqn:E6; [|reflexivity]. destruct (lit_incl _ _ _ E6) as [I6 _].
  assert (lit (t_ "=") s6 = None) as ->; [|reflexivity]. apply lit_none. intro X. apply H. apply in_or_app. right. auto 10.
Qed.
Lemma body_first : forall t g cs gs n s s2 l w ws r, identifier n -> numbers (s :: s2 :: l) -> fmt s = Ok w -> fmt_all (s2 :: l) = Ok ws -> tail r ->
  body_line (mkS F t ((g, cs) :: gs) true) (n ++ t_ " = " ++ w ++ commas (t_ " ") ws ++ r) = Ok (mkS F t ((g, Card F n (Array1 F (s :: s2 :: l)) :: cs) :: gs) true).
Proof.
  intros t g cs gs n s s2 l w ws r Hn Hl Hw Hws Hr. destruct (nums_line s (s2 :: l) w ws r Hl Hw Hws Hr) as (Hc & He & _ & _).
  pose proof (nums_card n s (s2 :: l) w ws r Hn (numbers_num_ok F fshow fread _ Hl) Hw Hws Hr) as E. unfold NamelistModel.body_line.
  rewrite clean_comment; [|apply Forall_app; split; [apply alnum_clean, Hn|apply Forall_app; split; [apply t_clean; reflexivity|exact Hc]]].
  rewrite (found_start _ _ _ _ E). unfold parse_string. rewrite E. cbn [bind read_cards]. unfold read_card, card_value. cbn [c_index c_dim c_tokens c_value c_name].
  rewrite (numbers_array F fshow fread of_int _ Hl). cbn [bind add_cards s_groups s_title s_open rev app]. rewrite (ends_slash (n ++ _)); [reflexivity|].
  apply ends_app, ends_app. exact He.
Qed.
Lemma body_continue : forall t g cs gs n old s l w ws r, numbers (old ++ s :: l) -> fmt s = Ok w -> fmt_all l = Ok ws -> tail r ->
  body_line (mkS F t ((g, Card F n (Array1 F old) :: cs) :: gs) true) (w ++ commas (t_ " ") ws ++ r) = Ok (mkS F t ((g, Card F n (Array1 F (old ++ s :: l)) :: cs) :: gs) true).
Proof.
  intros t g cs gs n old s l w ws r Hall Hw Hws Hr. assert (Hl : numbers (s :: l)) by (eapply numbers_in; [exact Hall|apply incl_appr, incl_refl]).
  destruct (nums_line s l w ws r Hl Hw Hws Hr) as (Hc & He & _ & Hq). unfold NamelistModel.body_line.
  rewrite (clean_comment _ Hc).
  assert (found multi_card_token (w ++ commas (t_ " ") ws ++ r) = false) as ->.
  { apply found_none. intros a b E. apply multi_none, card_none_eq. intro X. apply Hq. rewrite E. apply in_or_app. right. exact X. }
  rewrite (no_eq_2D _ Hq).
  assert (E : numstr_token F fread (w ++ commas (t_ " ") ws ++ r) = Some (s :: l, r)).
  { unfold numstr_token. pose proof (numvals_fmt F fshow fread [] (t_ " ") s l w ws r (Forall_nil _) blank1 (numbers_num_ok F fshow fread _ Hl) Hw Hws Hr) as G. cbn [app] in G. rewrite G. reflexivity. }
  rewrite (found_start _ _ _ _ E). unfold parse_string. rewrite E. cbn [bind]. rewrite (numbers_array F fshow fread of_int _ Hl). cbn [bind update_card s_groups s_title s_open continue_array].
  rewrite (numbers_array F fshow fread of_int _ Hall). cbn [bind]. rewrite (ends_slash _ He). reflexivity.
Qed.

Notation continued_line := (number_line F fshow).
Lemma continued_parse : forall rows lines, Forall2 continued_line rows lines -> (forall r, In r rows -> r <> []) ->
  forall t g cs gs n old, numbers (old ++ concat rows) ->
  parse_lines (mkS F t ((g, Card F n (Array1 F old) :: cs) :: gs) true) (with_nl lines) = Ok (mkS F t ((g, Card F n (Array1 F (old ++ concat rows)) :: cs) :: gs) true)
  /\ Forall (Forall printable) lines.
Proof.
  intros rows lines H. induction H as [|row line rows lines Hx H IH]; intros Hne t g cs gs n old Hall.
  - cbn. rewrite app_nil_r. split; [reflexivity|constructor].
  - destruct row as [|s l]; [exfalso; apply (Hne []); [left|]; reflexivity|]. destruct Hx as (sp & ws0 & r & Hsp & Ews & Hr & ->).
    destruct (fmt_all_inv F fshow s l ws0 Ews) as (w & ws & -> & Hw & Hws). rewrite join_commas. cbn [concat] in Hall |- *.
    assert (Hone : numbers (old ++ s :: l)) by (eapply numbers_in; [exact Hall|]; rewrite app_assoc; apply incl_appl, incl_refl).
    assert (Hrow : numbers (s :: l)) by (eapply numbers_in; [exact Hone|apply incl_appr, incl_refl]).
    destruct (nums_line s l w ws r Hrow Hw Hws Hr) as (Hc & He & Hst & _). rewrite app_assoc in Hall.
    destruct (IH (fun x Hx => Hne x (or_intror Hx)) t g cs gs n (old ++ s :: l) Hall) as [IH1 IH2]. split.
    + cbn [with_nl map NamelistModel.parse_lines]. fold (with_nl lines). rewrite <- !app_assoc.
      assert (El : sp ++ w ++ commas (t_ " ") ws ++ r ++ nl = (sp ++ (w ++ commas (t_ " ") ws ++ r) ++ []) ++ nl) by (rewrite app_nil_r, <- !app_assoc; reflexivity).
      rewrite El. rewrite one_body; [|exact Hsp|constructor|exact Hst|apply ends_nonspace; [apply clean_printable; exact Hc|exact He]].
      rewrite (body_continue t g cs gs n old s l w ws r Hone Hw Hws Hr). cbn [bind]. rewrite IH1, <- app_assoc. reflexivity.
    + constructor; [|exact IH2]. apply Forall_app. split; [eapply Forall_impl; [|exact Hsp]; intros c <-; chr|]. rewrite <- app_assoc. apply clean_printable; exact Hc.
Qed.
Lemma continued_file : forall g n row line rows lines, identifier g -> identifier n -> 2 <= length row -> (forall r, In r rows -> r <> []) -> numbers (concat (row :: rows)) ->
  Forall2 continued_line (row :: rows) (line :: lines) ->
  parse_file F fread of_int (unlines ((t_ "&" ++ g) :: (t_ "  " ++ n ++ t_ " = " ++ lstrip line) :: lines ++ [t_ "/"]))
  = Ok (mkDeck F [] [(g, [Card F n (Array1 F (concat (row :: rows)))])]).
Proof.
  intros g n row line rows lines Hg Hn Hlen Hne Hall H. inversion H as [|? ? ? ? Hx H']; subst. destruct row as [|s [|s2 l]]; [cbn in Hlen; lia|cbn in Hlen; lia|].
  destruct Hx as (sp & ws0 & r & Hsp & Ews & Hr & ->). destruct (fmt_all_inv F fshow s (s2 :: l) ws0 Ews) as (w & ws & -> & Hw & Hws). rewrite join_commas.
  assert (Hrow : numbers (s :: s2 :: l)) by (eapply numbers_in; [exact Hall|]; cbn [concat]; apply incl_appl, incl_refl).
  destruct (nums_line s (s2 :: l) w ws r Hrow Hw Hws Hr) as (Hc & He & Hst & _).
  assert (El : lstrip (sp ++ (w ++ commas (t_ " ") ws) ++ r) = w ++ commas (t_ " ") ws ++ r).
  { rewrite (lstrip_spaces sp _ (blanks_spaces sp Hsp)), <- app_assoc. destruct (w ++ commas (t_ " ") ws ++ r) as [|c x]; [destruct Hst|]. apply lstrip_id. exact Hst. }
  rewrite El. unfold parse_file. destruct (continued_parse rows lines H' Hne [] g [] [] n (s :: s2 :: l) Hall) as [E Hp].
  assert (Hcl : Forall clean (n ++ t_ " = " ++ w ++ commas (t_ " ") ws ++ r)) by (apply Forall_app; split; [apply alnum_clean, Hn|apply Forall_app; split; [apply t_clean; reflexivity|exact Hc]]).
  rewrite readlines_unlines.
  - cbn [with_nl map NamelistModel.parse_lines]. fold (with_nl (lines ++ [t_ "/"])).
    change (start F) with (mkS F [] [] false). rewrite (header_line F fread of_int [] [] g Hg). cbn [bind].
    pose proof (one_body F fread of_int [] [(g, [])] (t_ "  ") (n ++ t_ " = " ++ w ++ commas (t_ " ") ws ++ r) [] blank2 (Forall_nil _)) as G.
    rewrite app_nil_r in G. match goal with |- context [one_line F fread of_int ?st ?x] => change (one_line F fread of_int st x) with (one_line F fread of_int (mkS F [] [(g, [])] true) x) end. rewrite G; [|apply name_start; exact Hn|apply ends_nonspace; [apply clean_printable; exact Hcl|apply ends_app, ends_app; exact He]].
    rewrite (body_first [] g [] [] n s s2 l w ws r Hn Hrow Hw Hws Hr). cbn [bind]. rewrite with_nl_app, parse_app, E. reflexivity.
  - constructor; [constructor; [chr|]; destruct Hg as [_ Hg]; eapply Forall_impl; [|exact Hg]; apply alnum_printable|].
    constructor; [apply Forall_app; split; [repeat constructor; chr|apply clean_printable; exact Hcl]|]. apply Forall_app. split; [exact Hp|repeat constructor; chr].
Qed.
End Continue.

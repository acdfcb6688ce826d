(** Several cards on one line. *)
From Coq Require Import ZifyBool.
From Verif Require Import Base FileModel NamelistModel NamelistSpec NamelistProofs NamelistProofs2 NamelistProofs3 NamelistProofs4 NamelistProofs5.
Local Open Scope nat_scope.

Section Several.
Variable F : Type.
Variable fshow : F -> res text.
Variable fread : text -> F.
Variable of_int : Z -> F.
Notation scalar := (scalar F).
Notation card_token := (card_token F fread).
Notation multi_card_token := (multi_card_token F fread).
Notation num_ok := (num_ok F fshow fread).
Notation fmt := (fmt F fshow).
Notation fmt_all := (fmt_all F fshow).
Notation numbers := (numbers F fshow fread).
Notation body_line := (body_line F fread of_int).

(** what follows the values of a card *)
Definition rest (r : text) : Prop := r = [] \/ exists x, r = ","%char :: x /\ numval F fread x = None.
Lemma rest_stop : forall r, rest r -> stop r.
Proof. intros r [->|(x & -> & _)]; cbn; [exact I|left; reflexivity]. Qed.
Lemma commas_rest : forall sp ws r, rest r -> stop (commas sp ws ++ r).
Proof. intros sp [|w ws] r H; cbn; [apply rest_stop; exact H|left; reflexivity]. Qed.
Lemma more_rest : forall sp l ws r fuel, blanks sp -> Forall num_ok l -> fmt_all l = Ok ws -> rest r -> length l <= fuel ->
  more fuel (numval F fread) (commas sp ws ++ r) = (l, r).
Proof.
  intros sp l ws r fuel Hsp Hl. revert ws fuel. induction Hl as [|s l Hs Hl IH]; intros ws fuel Hw Hr Hf.
  - cbn in Hw. assert (ws = []) by congruence. subst ws. cbn. destruct fuel; [reflexivity|]. destruct Hr as [->|(x & -> & Hx)]; [reflexivity|].
    cbn [more]. change (lit (t_ ",") (","%char :: x)) with (Some x). cbv iota. rewrite Hx. reflexivity.
  - destruct (fmt_all_inv F fshow s l ws Hw) as (w & ws' & -> & Ew & Ews). destruct fuel as [|fuel]; [cbn in Hf; lia|].
    unfold commas. cbn [map concat]. fold (commas sp ws'). cbn [app more].
    change (lit (t_ ",") (","%char :: ((sp ++ w) ++ commas sp ws') ++ r)) with (Some (((sp ++ w) ++ commas sp ws') ++ r)). cbv iota.
    rewrite <- !app_assoc. rewrite (numval_fmt F fshow fread sp s w (commas sp ws' ++ r) Hsp Hs Ew (commas_rest sp ws' r Hr)).
    rewrite (IH ws' fuel Ews Hr); [reflexivity|]. cbn in Hf. lia.
Qed.
Lemma card_rest : forall n s l w ws r, identifier n -> Forall num_ok (s :: l) -> fmt s = Ok w -> fmt_all l = Ok ws -> rest r ->
  card_token (n ++ t_ " = " ++ w ++ commas (t_ " ") ws ++ r) = Some (mkP F n None None (s :: l) s, r).
Proof.
  intros n s l w ws r Hn Hl Hw Hws Hr. rewrite (card_head F fread n _ Hn). inversion Hl as [|? ? Hs Hl']; subst.
  destruct (num_no_dim F fshow fread (t_ " ") s w (commas (t_ " ") ws ++ r) blank1 Hs Hw (commas_rest (t_ " ") ws r Hr)) as (k & r' & E1 & E2).
  rewrite E1, E2. unfold data_token, numstr_token, numvals.
  rewrite (numval_fmt F fshow fread (t_ " ") s w (commas (t_ " ") ws ++ r) blank1 Hs Hw (commas_rest (t_ " ") ws r Hr)).
  rewrite (more_rest (t_ " ") l ws r _ blank1 Hl' Hws Hr).
  - rewrite (stop_star r (rest_stop r Hr)). cbn [app hd]. rewrite app_nil_r. reflexivity.
  - rewrite app_length. pose proof (commas_length (t_ " ") ws). pose proof (fmt_all_length F fshow l ws Hws). lia.
Qed.
Lemma card_space : forall s, card_token (" "%char :: s) = card_token s.
Proof. reflexivity. Qed.
Lemma prefix_none : forall w n r, Forall alnum w -> identifier n -> (forall x, n <> w ++ x) -> strip_prefix w (n ++ t_ " = " ++ r) = None.
Proof.
  induction w as [|c w IH]; intros n r Hw Hn H; [exfalso; apply (H n); reflexivity|]. inversion Hw; subst. destruct n as [|d n]; [destruct Hn; congruence|].
  cbn [app strip_prefix]. destruct (Ascii.eqb c d) eqn:E; [|reflexivity]. apply Ascii.eqb_eq in E. subst d. destruct n as [|d n].
  - destruct w as [|e w]; [exfalso; apply (H []); reflexivity|]. inversion H3; subst. cbn [app strip_prefix t_ list_ascii_of_string].
    destruct (Ascii.eqb e " ") eqn:E; [|reflexivity]. apply Ascii.eqb_eq in E. subst e. clear -H4. chr.
  - apply IH; [assumption|destruct Hn as [_ Hn]; inversion Hn; subst; split; [discriminate|assumption]|]. intros x E. apply (H x). cbn. congruence.
Qed.
Lemma opens_none : forall n r, identifier n -> opens_card n -> numval F fread (" "%char :: n ++ t_ " = " ++ r) = None.
Proof.
  intros n r Hn (H1 & H2 & H3). unfold numval. change (skip (" "%char :: n ++ t_ " = " ++ r)) with (skip (n ++ t_ " = " ++ r)).
  assert (N : one_of nan_words (n ++ t_ " = " ++ r) = None).
  { unfold nan_words. cbn [one_of]. rewrite (prefix_none (t_ "NaN")); [|repeat constructor; chr|exact Hn|exact H2]. rewrite (prefix_none (t_ "Inf")); [|repeat constructor; chr|exact Hn|exact H3].
    destruct n as [|c n]; [reflexivity|]. destruct Hn as [_ Hn]. inversion Hn; subst. cbn [app t_ list_ascii_of_string strip_prefix]. destruct (Ascii.eqb "-" c) eqn:E; [|reflexivity].
    apply Ascii.eqb_eq in E. subst c. clear -H4. chr. }
  destruct n as [|c n]; [destruct Hn; congruence|]. specialize (H1 c n eq_refl). destruct Hn as [Hn0 Hn]. inversion Hn; subst.
  assert (E1 : is_white c = false) by (clear -H4; chr). assert (E2 : is_sign c = false) by (clear -H4; chr). assert (E3 : is_digit c = false) by (clear -H4 H1; chr).
  assert (E4 : Ascii.eqb c "." = false) by (apply Ascii.eqb_neq; intro; subst; clear -H4; chr).
  assert (Es : skip ((c :: n) ++ t_ " = " ++ r) = (c :: n) ++ t_ " = " ++ r) by (cbn [app skip]; rewrite E1; reflexivity). rewrite Es.
  assert (W : word is_digit ((c :: n) ++ t_ " = " ++ r) = None) by (apply word_none; cbn; exact E3).
  assert (Eo : opt_sign ((c :: n) ++ t_ " = " ++ r) = ([], (c :: n) ++ t_ " = " ++ r)) by (cbn [app opt_sign]; rewrite E2; reflexivity).
  unfold lex_float, lex_mixed, lex_int, mantissa. rewrite Eo, W. cbn [app] in N |- *. rewrite E4, N. reflexivity.
Qed.

Notation card_text := (card_text F fshow).
Notation good c := (identifier (fst c) /\ numbers (snd c) /\ snd c <> []).
Definition tokens (c : text * list scalar) : pcard F := mkP F (fst c) None None (snd c) (hd (SInt F 0) (snd c)).
Lemma card_shape : forall c w, good c -> card_text c w -> exists s l v vs, snd c = s :: l /\ fmt s = Ok v /\ fmt_all l = Ok vs /\ Forall num_ok (s :: l) /\
  w = fst c ++ t_ " = " ++ v ++ commas (t_ " ") vs.
Proof.
  intros [n l] w (Hn & Hl & Hne) (ws & Hws & ->). cbn [fst snd] in *. destruct l as [|s l]; [congruence|].
  destruct (fmt_all_inv F fshow s l ws Hws) as (v & vs & -> & Hv & Hvs). exists s, l, v, vs. rewrite join_commas.
  repeat split; [exact Hv|exact Hvs|apply numbers_num_ok; exact Hl].
Qed.
Lemma card_then : forall c w r, good c -> card_text c w -> rest r -> card_token (w ++ r) = Some (tokens c, r).
Proof.
  intros c w r Hc Hw Hr. destruct (card_shape c w Hc Hw) as (s & l & v & vs & E & Hv & Hvs & Hn & ->). rewrite <- !app_assoc.
  rewrite (card_rest (fst c) s l v vs r (proj1 Hc) Hn Hv Hvs Hr). unfold tokens. rewrite E. reflexivity.
Qed.
Definition others (ws : list text) : text := concat (map (fun w => t_ ", " ++ w) ws).
Lemma join_others : forall w ws, join (t_ ", ") (w :: ws) = w ++ others ws.
Proof.
  intros w ws. revert w. induction ws as [|v ws IH]; intro w; [symmetry; apply app_nil_r|].
  cbn [join]. cbn [join] in IH. rewrite (IH v). unfold others. cbn [map concat]. rewrite <- !app_assoc. reflexivity.
Qed.
Lemma others_rest : forall cs ws, Forall2 card_text cs ws -> Forall (fun c => good c) cs -> Forall (fun c => opens_card (fst c)) cs -> rest (others ws).
Proof.
  intros cs ws H Hg Ho. destruct H as [|c w cs ws Hw H]; [left; reflexivity|]. right. inversion Hg; subst. inversion Ho; subst.
  destruct (card_shape c w H2 Hw) as (s & l & v & vs & _ & _ & _ & _ & ->). exists (" "%char :: fst c ++ t_ " = " ++ (v ++ commas (t_ " ") vs) ++ others ws).
  split; [unfold others; cbn [map concat]; rewrite <- !app_assoc; reflexivity|]. apply opens_none; [exact (proj1 H2)|assumption].
Qed.
Lemma more_cards : forall cs ws fuel, Forall2 card_text cs ws -> Forall (fun c => good c) cs -> Forall (fun c => opens_card (fst c)) cs -> length cs <= fuel ->
  more fuel card_token (others ws) = (map tokens cs, []).
Proof.
  intros cs ws fuel H. revert fuel. induction H as [|c w cs ws Hw H IH]; intros fuel Hg Ho Hf; [destruct fuel; reflexivity|].
  inversion Hg; subst. inversion Ho; subst. destruct fuel as [|fuel]; [cbn in Hf; lia|]. unfold others. cbn [map concat]. fold (others ws).
  change ((t_ ", " ++ w) ++ others ws) with (","%char :: " "%char :: w ++ others ws). cbn [more].
  change (lit (t_ ",") (","%char :: " "%char :: w ++ others ws)) with (Some (" "%char :: w ++ others ws)). cbv iota. rewrite card_space.
  rewrite (card_then c w (others ws) H2 Hw (others_rest cs ws H H3 H5)). rewrite (IH fuel H3 H5); [reflexivity|cbn in Hf; lia].
Qed.
Lemma others_length : forall cs ws, Forall2 card_text cs ws -> length cs <= length (others ws).
Proof. intros cs ws H. induction H as [|c w cs ws _ H IH]; [apply Nat.le_refl|]. unfold others. cbn [map concat]. fold (others ws). rewrite !app_length. cbn [length t_ list_ascii_of_string]. lia. Qed.
Lemma tokens_value : forall c, good c -> read_card F of_int (tokens c) = Ok (Card F (fst c) (one_or_array F (snd c))).
Proof.
  intros [n l] (Hn & Hl & Hne). unfold tokens, read_card, card_value. cbn [c_index c_dim c_tokens c_value c_name fst snd] in *.
  destruct l as [|s [|s' l]]; [congruence|reflexivity|]. rewrite (numbers_array F fshow fread of_int _ Hl). reflexivity.
Qed.
Lemma tokens_values : forall cs, Forall (fun c => good c) cs -> read_cards F of_int (map tokens cs) = Ok (map (fun c => Card F (fst c) (one_or_array F (snd c))) cs).
Proof. intros cs H. induction H as [|c cs Hc H IH]; [reflexivity|]. cbn [map read_cards]. rewrite (tokens_value c Hc). cbn [bind]. rewrite IH. reflexivity. Qed.
Lemma text_clean : forall c w, good c -> card_text c w -> Forall clean w /\ ends_ok w.
Proof.
  intros c w Hc Hw. destruct (card_shape c w Hc Hw) as (s & l & v & vs & E & Hv & Hvs & Hn & ->). destruct Hc as ((Hn0 & Hi) & Hl & _). rewrite E in Hl.
  destruct (nums_line F fshow fread s l v vs [] Hl Hv Hvs (or_introl eq_refl)) as (H1 & H2 & _). rewrite app_nil_r in H1, H2. split.
  - apply Forall_app. split; [apply alnum_clean; exact Hi|]. apply Forall_app. split; [apply t_clean; reflexivity|exact H1].
  - apply ends_app, ends_app. exact H2.
Qed.
Lemma others_clean : forall cs ws, Forall2 card_text cs ws -> Forall (fun c => good c) cs -> Forall clean (others ws) /\ forall w, ends_ok w -> ends_ok (w ++ others ws).
Proof.
  intros cs ws H. induction H as [|c w cs ws Hw H IH]; intros Hg; [split; [constructor|intros v Hv; unfold others; cbn; rewrite app_nil_r; exact Hv]|].
  inversion Hg; subst. destruct (IH H3) as [I1 I2]. destruct (text_clean c w H2 Hw) as [C1 C2]. unfold others. cbn [map concat]. fold (others ws). split.
  - apply Forall_app. split; [apply Forall_app; split; [apply t_clean; reflexivity|exact C1]|exact I1].
  - intros v _. apply ends_app. rewrite <- app_assoc. apply ends_app. apply I2. exact C2.
Qed.
Lemma several_file : forall g c cs w ws, identifier g -> Forall (fun c => identifier (fst c) /\ numbers (snd c) /\ snd c <> []) (c :: cs) ->
  Forall (fun c => opens_card (fst c)) cs -> Forall2 card_text (c :: cs) (w :: ws) ->
  parse_file F fread of_int (unlines [t_ "&" ++ g; t_ "  " ++ join (t_ ", ") (w :: ws); t_ "/"])
  = Ok (mkDeck F [] [(g, map (fun c => Card F (fst c) (one_or_array F (snd c))) (c :: cs))]).
Proof.
  intros g c cs w ws Hg Hc Ho H. inversion Hc as [|? ? Hc1 Hc2]; subst. inversion H as [|? ? ? ? Hw Hws]; subst.
  destruct (text_clean c w Hc1 Hw) as [C1 C2]. destruct (others_clean cs ws Hws Hc2) as [O1 O2]. rewrite join_others.
  assert (Hcl : Forall clean (w ++ others ws)) by (apply Forall_app; split; assumption). pose proof (O2 w C2) as He.
  assert (Hst : nonspace_start (w ++ others ws)).
  { destruct (card_shape c w Hc1 Hw) as (s & l & v & vs & _ & _ & _ & _ & ->). rewrite <- app_assoc. apply name_start. exact (proj1 Hc1). }
  unfold parse_file. rewrite readlines_unlines.
  - cbn [with_nl map NamelistModel.parse_lines]. change (start F) with (mkS F [] [] false). rewrite (header_line F fread of_int [] [] g Hg). cbn [bind].
    pose proof (one_body F fread of_int [] [(g, [])] (t_ "  ") (w ++ others ws) [] blank2 (Forall_nil _)) as G. rewrite app_nil_r in G.
    match goal with |- context [one_line F fread of_int ?st ?x] => change (one_line F fread of_int st x) with (one_line F fread of_int (mkS F [] [(g, [])] true) x) end.
    rewrite G; [|exact Hst|apply ends_nonspace; [apply clean_printable; exact Hcl|exact He]]. clear G. unfold NamelistModel.body_line. rewrite (clean_comment _ Hcl).
    assert (E : multi_card_token (w ++ others ws) = Some (map tokens (c :: cs), [])).
    { unfold NamelistModel.multi_card_token. rewrite (card_then c w (others ws) Hc1 Hw (others_rest cs ws Hws Hc2 Ho)).
      rewrite (more_cards cs ws _ Hws Hc2 Ho (others_length cs ws Hws)). reflexivity. }
    rewrite (found_start _ _ _ _ E). unfold parse_string. rewrite E. cbn [bind]. rewrite (tokens_values (c :: cs) Hc). cbn [bind add_cards s_groups s_title s_open].
    rewrite (ends_slash _ He). cbn [bind]. rewrite (end_line F fread of_int). cbn [bind]. unfold finish. cbn [s_title s_groups map fst snd rev app]. rewrite app_nil_r.
    f_equal. f_equal. f_equal. f_equal. rewrite rev_app_distr, rev_involutive. reflexivity.
  - constructor; [constructor; [chr|]; destruct Hg as [_ Hg]; eapply Forall_impl; [|exact Hg]; apply alnum_printable|].
    constructor; [apply Forall_app; split; [repeat constructor; chr|apply clean_printable; exact Hcl]|]. repeat constructor; chr.
Qed.
End Several.

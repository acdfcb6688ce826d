(** Round trip of cards, groups and decks. *)
From Coq Require Import ZifyBool.
From Verif Require Import Base FileModel NamelistModel NamelistSpec NamelistProofs NamelistProofs2.
Local Open Scope nat_scope.

(** ** Blanks around a line *)
Definition spaces (s : text) : Prop := Forall (fun c => is_space c = true) s.
Lemma lstrip_spaces : forall sp s, spaces sp -> lstrip (sp ++ s) = lstrip s.
Proof. intros sp s H. induction H as [|c sp Hc H IH]; cbn; [reflexivity|]. rewrite Hc. exact IH. Qed.
Lemma lstrip_id : forall c s, is_space c = false -> lstrip (c :: s) = c :: s.
Proof. intros c s H. cbn. rewrite H. reflexivity. Qed.
Lemma rstrip_spaces : forall s c sp, is_space c = false -> spaces sp -> rstrip (s ++ [c] ++ sp) = s ++ [c].
Proof.
  intros s c sp Hc Hsp. unfold rstrip. rewrite app_assoc, rev_app_distr.
  rewrite (lstrip_spaces (rev sp)); [|apply Forall_rev; exact Hsp]. rewrite rev_app_distr. cbn [rev app].
  rewrite (lstrip_id c (rev s) Hc). cbn [rev]. rewrite rev_involutive. reflexivity.
Qed.
Lemma blanks_spaces : forall sp, blanks sp -> spaces sp.
Proof. intros sp H. eapply Forall_impl; [|exact H]. intros c <-. reflexivity. Qed.
Lemma nl_spaces : forall sp, blanks sp -> spaces (sp ++ nl).
Proof. intros sp H. apply Forall_app. split; [apply blanks_spaces; exact H|repeat constructor]. Qed.
Lemma printable_space : forall c, printable c -> c <> " "%char -> is_space c = false.
Proof.
  intros c H Hn. assert (nat_of_ascii c <> 32) by (intro E; apply Hn; rewrite <- (ascii_nat_embedding c), E; reflexivity).
  unfold printable, between in H. unfold is_space. lia.
Qed.
Definition nonspace_start (s : text) : Prop := match s with c :: _ => is_space c = false | [] => False end.
Definition nonspace_end (s : text) : Prop := exists a c, s = a ++ [c] /\ is_space c = false.
Lemma strip_line : forall sp b sp2, spaces sp -> spaces sp2 -> nonspace_start b -> nonspace_end b -> strip (sp ++ b ++ sp2) = b.
Proof.
  intros sp b sp2 H1 H2 Hs (a & c & -> & Hc). unfold strip. rewrite (lstrip_spaces sp _ H1).
  destruct ((a ++ [c]) ++ sp2) as [|x r] eqn:E; [destruct a; discriminate|].
  assert (is_space x = false) by (destruct a; cbn in E, Hs; injection E; intros; subst; exact Hs).
  rewrite (lstrip_id x r H), <- E, <- app_assoc. apply rstrip_spaces; assumption.
Qed.
Lemma ends_nonspace : forall b, Forall printable b -> ends_ok b -> nonspace_end b.
Proof.
  intros b Hb (a & c & -> & H1 & _). exists a, c. split; [reflexivity|]. apply Forall_app in Hb. destruct Hb as [_ Hb]. inversion Hb; subst.
  apply printable_space; assumption.
Qed.
Lemma ends_slash : forall b, ends_ok b -> ends_with_slash b = false.
Proof.
  intros b (a & c & -> & _ & H). unfold ends_with_slash. rewrite rev_app_distr. cbn. apply Ascii.eqb_neq. exact H.
Qed.
Lemma trim : forall s, Forall printable s -> (exists x, In x s /\ x <> " "%char) ->
  exists sp b sp2, s = sp ++ b ++ sp2 /\ blanks sp /\ blanks sp2 /\ nonspace_start b /\ nonspace_end b /\ Forall printable b /\ (forall x, In x s -> x <> " "%char -> In x b).
Proof.
  assert (L : forall s, Forall printable s -> (exists x, In x s /\ x <> " "%char) -> exists sp b, s = sp ++ b /\ blanks sp /\ nonspace_start b /\ (forall x, In x s -> x <> " "%char -> In x b)).
  { intros s H. induction H as [|c s Hc H IH]; intros [x [Hx Hn]]; [destruct Hx|].
    destruct (Ascii.eqb_spec c " ") as [->|Hne].
    - destruct IH as (sp & b & -> & Hsp & Hb & Hi). { exists x. destruct Hx as [Ex|Hx]; [congruence|]. split; assumption. }
      exists (" "%char :: sp), b. repeat split; try assumption; [constructor; [reflexivity|exact Hsp]|].
      intros y [<-|Hy] Hyn; [congruence|exact (Hi y Hy Hyn)].
    - exists [], (c :: s). repeat split; [constructor|cbn; apply printable_space; assumption|intros y Hy _; exact Hy]. }
  intros s Hp Hx. destruct (L s Hp Hx) as (sp & b & E & Hsp & Hb & Hi).
  assert (Hpb : Forall printable b) by (subst s; apply Forall_app in Hp; apply Hp).
  assert (R : exists sp2 b2, rev b = sp2 ++ b2 /\ blanks sp2 /\ nonspace_start b2 /\ (forall x, In x (rev b) -> x <> " "%char -> In x b2)).
  { apply L; [apply Forall_rev; exact Hpb|]. destruct Hx as [x [Hx Hn]]. exists x. split; [apply -> in_rev; exact (Hi x Hx Hn)|exact Hn]. }
  destruct R as (sp2 & b2 & Er & Hsp2 & Hb2 & Hi2).
  assert (Eb : b = rev b2 ++ rev sp2) by (rewrite <- (rev_involutive b), Er, rev_app_distr; reflexivity).
  exists sp, (rev b2), (rev sp2). split; [rewrite E, Eb; reflexivity|]. split; [exact Hsp|]. split; [apply Forall_rev; exact Hsp2|].
  assert (Hpb2 : Forall printable (rev b2)) by (rewrite Eb in Hpb; apply Forall_app in Hpb; apply Hpb).
  split.
  - destruct b2 as [|c b2]; [destruct Hb2|]. destruct (rev (c :: b2)) as [|y r] eqn:Ey; [apply (f_equal (@length _)) in Ey; rewrite rev_length in Ey; discriminate|].
    rewrite Eb in Hb. cbn in Hb. exact Hb.
  - split; [|split; [exact Hpb2|]].
    + destruct b2 as [|c b2]; [destruct Hb2|]. exists (rev b2), c. split; [reflexivity|exact Hb2].
    + intros x Hxs Hxn. apply -> in_rev. apply Hi2; [apply -> in_rev; exact (Hi x Hxs Hxn)|exact Hxn].
Qed.

(** ** Lines of a file *)
Definition unlines (ls : list text) : text := concat (map (fun l => l ++ nl) ls).
Definition with_nl (ls : list text) : list text := map (fun l => l ++ nl) ls.
Lemma readlines_line : forall l cur r, Forall printable l -> readlines_from cur (l ++ nl ++ r) = (rev cur ++ l ++ nl) :: readlines_from [] r.
Proof.
  intros l cur r H. revert cur. induction H as [|c l Hc H IH]; intro cur.
  - cbn. reflexivity.
  - cbn [app readlines_from]. assert (Ascii.eqb c newline_char = false) as -> by (apply Ascii.eqb_neq; intro; subst; clear -Hc; unfold newline_char in Hc; chr).
    rewrite (IH (c :: cur)). cbn [rev]. rewrite <- app_assoc. reflexivity.
Qed.
Lemma readlines_unlines : forall ls, Forall (Forall printable) ls -> readlines (unlines ls) = with_nl ls.
Proof.
  intros ls H. unfold readlines. induction H as [|l ls Hl H IH]; [reflexivity|].
  unfold unlines. cbn [map concat]. fold (unlines ls). rewrite <- app_assoc, (readlines_line l [] _ Hl), IH. reflexivity.
Qed.
Lemma unlines_app : forall a b, unlines (a ++ b) = unlines a ++ unlines b.
Proof. intros a b. unfold unlines. rewrite map_app, concat_app. reflexivity. Qed.
Lemma with_nl_app : forall a b, with_nl (a ++ b) = with_nl a ++ with_nl b.
Proof. intros. apply map_app. Qed.

(** ** Names *)
Definition colon : ascii := ":"%char.
Lemma after_colon_none : forall s cur, ~ In colon s -> after_colon cur s = rev cur ++ s.
Proof.
  induction s as [|c s IH]; intros cur H; cbn; [symmetry; apply app_nil_r|].
  destruct (Ascii.eqb_spec c ":") as [->|_]; [exfalso; apply H; left; reflexivity|].
  rewrite IH; [cbn; rewrite <- app_assoc; reflexivity|]. intro X. apply H. right. exact X.
Qed.
Lemma after_colon_some : forall a b cur, ~ In colon a -> after_colon cur (a ++ ":"%char :: b) = after_colon [] b.
Proof.
  induction a as [|c a IH]; intros b cur H; [reflexivity|]. cbn.
  destruct (Ascii.eqb_spec c ":") as [->|_]; [exfalso; apply H; left; reflexivity|]. apply IH. intro X. apply H. right. exact X.
Qed.
Lemma find_colon : forall s, match find_first (t_ ":") s with Some (a, b) => s = a ++ ":"%char :: b /\ ~ In colon a | None => ~ In colon s end.
Proof.
  induction s as [|c s IH]; [cbn; tauto|]. cbn [find_first t_ list_ascii_of_string strip_prefix]. destruct (Ascii.eqb_spec ":" c) as [<-|Hn].
  - split; [reflexivity|intros []].
  - change [":"%char] with (t_ ":"). destruct (find_first (t_ ":") s) as [[a b]|].
    + destruct IH as [-> H]. split; [reflexivity|]. intros [X|X]; [apply Hn; symmetry; exact X|exact (H X)].
    + intros [X|X]; [apply Hn; symmetry; exact X|exact (IH X)].
Qed.
Lemma split_last : forall f s, length s <= f -> last (split_fuel f (t_ ":") s) [] = after_colon [] s.
Proof.
  induction f as [|f IH]; intros s H.
  - destruct s; [reflexivity|cbn in H; lia].
  - cbn [split_fuel]. pose proof (find_colon s) as G. destruct (find_first (t_ ":") s) as [[a b]|].
    + destruct G as [-> Ha]. rewrite (after_colon_some a b [] Ha). rewrite app_length in H. cbn in H.
      assert (Hb : length b <= f) by lia. specialize (IH b Hb). rewrite <- IH. destruct (split_fuel f (t_ ":") b) eqn:E; [|reflexivity].
      destruct f; cbn in E; [discriminate|]. destruct (find_first [":"%char] b) as [[? ?]|]; discriminate.
    + cbn. symmetry. apply (after_colon_none s [] G).
Qed.
Lemma card_name_local : forall n, card_name n = local_name n.
Proof. intro n. apply split_last. apply Nat.le_refl. Qed.

Section Trip.
Variable F : Type.
Variable fshow : F -> res text.
Variable fread : text -> F.
Variable of_int : Z -> F.
Notation scalar := (scalar F).
Notation card := (card F).
Notation group := (group F).
Notation multi_card_token := (multi_card_token F fread).
Notation array2D_token := (array2D_token F fread).
Notation num_ok := (num_ok F fshow fread).
Notation fmt := (fmt F fshow).
Notation fmt_all := (fmt_all F fshow).
Notation scalar_ok := (scalar_ok F fshow fread).
Notation numbers := (numbers F fshow fread).
Notation row_ok := (row_ok F fshow fread).
Notation body_line := (body_line F fread of_int).
Notation one_line := (one_line F fread of_int).
Notation parse_lines := (parse_lines F fread of_int).

Lemma parse_app : forall a b s, parse_lines s (a ++ b) = (let! s' := parse_lines s a in parse_lines s' b).
Proof. induction a as [|l a IH]; intros b s; cbn; [reflexivity|]. destruct (one_line s l); cbn; [apply IH|reflexivity]. Qed.
Lemma one_body : forall t gs sp b sp2, blanks sp -> blanks sp2 -> nonspace_start b -> nonspace_end b ->
  one_line (mkS F t gs true) ((sp ++ b ++ sp2) ++ nl) = body_line (mkS F t gs true) b.
Proof.
  intros t gs sp b sp2 H1 H2 Hs He. unfold NamelistModel.one_line. rewrite <- !app_assoc.
  rewrite (strip_line sp b (sp2 ++ nl) (blanks_spaces sp H1) (nl_spaces sp2 H2) Hs He). destruct b; [destruct Hs|reflexivity].
Qed.
Lemma clean_printable : forall b, Forall clean b -> Forall printable b.
Proof. intros b H. eapply Forall_impl; [|exact H]. intros c [Hc _]. exact Hc. Qed.
Lemma clean_comment : forall b, Forall clean b -> found comment_token b = false.
Proof.
  intros b H. apply (found_lit_none "!"). intro X. rewrite Forall_forall in H. destruct (H _ X) as [_ Y]. apply Y. reflexivity.
Qed.
Lemma name_start : forall n r, identifier n -> nonspace_start (n ++ r).
Proof. intros [|c n] r [Hn H]; [congruence|]. inversion H; subst. cbn. clear -H2. chr. Qed.

(** *** one-line cards *)
Lemma body_card : forall t g cs gs n l ws, identifier n -> row_ok l -> fmt_all l = Ok ws ->
  body_line (mkS F t ((g, cs) :: gs) true) (n ++ t_ " = " ++ join (t_ ", ") ws)
  = Ok (mkS F t ((g, Card F n (match l with [s] => Scalar F s | _ => Array1 F l end) :: cs) :: gs) true).
Proof.
  intros t g cs gs n l ws Hn Hl Hws. pose proof (row_card F fshow fread n l ws Hn Hl Hws) as E.
  destruct (row_clean F fshow fread l ws Hl Hws) as [Hc He]. unfold NamelistModel.body_line.
  rewrite clean_comment; [|apply Forall_app; split; [apply alnum_clean, Hn|apply Forall_app; split; [apply t_clean; reflexivity|exact Hc]]].
  rewrite (found_start _ _ _ _ E). unfold parse_string. rewrite E. cbn [bind read_cards]. rewrite (row_value F fshow fread of_int n l Hl).
  cbn [bind add_cards s_groups s_title s_open rev app]. rewrite (ends_slash (n ++ t_ " = " ++ join (t_ ", ") ws)); [reflexivity|].
  apply ends_app, ends_app. exact He.
Qed.

(** *** rows of arrays *)
Definition row_body (n : text) (k : nat) (w : text) (ws : list text) : text :=
  n ++ t_ "(1," ++ show_int (Z.of_nat k) ++ t_ ") =" ++ t_ " " ++ w ++ commas (t_ "  ") ws ++ t_ ",".
Lemma row_concat : forall w ws, concat (map (fun w => t_ " " ++ w ++ t_ ", ") (w :: ws)) = (t_ " " ++ w ++ commas (t_ "  ") ws ++ t_ ",") ++ t_ " ".
Proof.
  intros w ws. revert w. induction ws as [|v ws IH]; intro w.
  - cbn [map concat]. unfold commas. cbn [map concat]. rewrite app_nil_r. rewrite <- !app_assoc. reflexivity.
  - cbn [map concat] in IH |- *. rewrite (IH v). unfold commas. cbn [map concat]. fold (commas (t_ "  ") ws). rewrite <- !app_assoc. reflexivity.
Qed.
Definition numc (c : ascii) : Prop := digit c \/ In c (t_ "+-.eEdD").
Lemma digits_numc : forall d, Forall digit d -> Forall numc d.
Proof. intros d H. eapply Forall_impl; [|exact H]. intros c Hc. left. exact Hc. Qed.
Lemma sign_numc : forall s, sign s -> Forall numc s.
Proof. intros s [->|[->| ->]]; [constructor| |]; (constructor; [right; cbn; tauto|constructor]). Qed.
Lemma expo_numc : forall e e', expo e e' -> Forall numc e.
Proof.
  intros e e' H. destruct H as [e sg d He Hs Hn Hd]. constructor; [right; cbn in He |- *; tauto|]. apply Forall_app. split; [apply sign_numc; exact Hs|apply digits_numc; exact Hd].
Qed.
Lemma num_numc : forall s w, num_ok s -> fmt s = Ok w -> Forall numc w.
Proof.
  intros s w [[z ->]|[x [-> (w' & t & E & Ht & _)]]] Hw; cbn in Hw.
  - apply okinj in Hw. subst w. destruct (show_int_form z) as (sg & d & -> & Hs & _ & Hd & _). apply Forall_app. split; [apply sign_numc, sign_minus; exact Hs|apply digits_numc; exact Hd].
  - rewrite E in Hw. apply okinj in Hw. subst w'. destruct Ht as [sg d f Hs Hn Hd Hf|sg d f e e' Hs Hn Hd Hf He|d e e' Hn Hd He];
      repeat (apply Forall_app; split); try (apply sign_numc; assumption); try (apply digits_numc; assumption); try (eapply expo_numc; eassumption);
      (constructor; [right; cbn; tauto|constructor]).
Qed.
Lemma numc_not : forall s c, Forall numc s -> c = "="%char -> ~ In c s.
Proof.
  intros s c H -> X. rewrite Forall_forall in H. destruct (H _ X) as [D|D]; [chr|]. cbn in D. repeat destruct D as [D|D]; try discriminate; exact D.
Qed.
Lemma commas_no_eq : forall sp l ws, blanks sp -> Forall num_ok l -> fmt_all l = Ok ws -> ~ In "="%char (commas sp ws).
Proof.
  intros sp l ws Hsp Hl. revert ws. induction Hl as [|s l Hs Hl IH]; intros ws H.
  - cbn in H. assert (ws = []) by congruence. subst. intros [].
  - destruct (fmt_all_inv F fshow s l ws H) as (w & ws' & -> & Hw & Hws'). unfold commas. cbn [map concat]. fold (commas sp ws').
    intro X. apply in_app_or in X. destruct X as [X|X]; [|exact (IH ws' Hws' X)]. destruct X as [X|X]; [discriminate|].
    apply in_app_or in X. destruct X as [X|X].
    + unfold blanks in Hsp. rewrite Forall_forall in Hsp. specialize (Hsp _ X). discriminate.
    + exact (numc_not w _ (num_numc s w Hs Hw) eq_refl X).
Qed.
Lemma field_none : forall c r, is_white c = false -> is_alnum c = false -> fieldval (c :: r) = None.
Proof. intros c r Hw Ha. unfold fieldval. cbn [skip]. rewrite Hw. apply word_none. exact Ha. Qed.
Lemma suffix_identifier : forall n a b, identifier n -> n = a ++ b -> b <> [] -> identifier b.
Proof. intros n a b [_ H] -> Hb. split; [exact Hb|]. apply Forall_app in H. apply H. Qed.
Lemma found_step : forall A (p : text -> option A) c s, p (c :: s) = None -> found p s = false -> found p (c :: s) = false.
Proof. intros A p c s H1 H2. cbn. rewrite H1. exact H2. Qed.
Lemma row_no_card : forall n k s l w ws, identifier n -> Forall num_ok (s :: l) -> fmt s = Ok w -> fmt_all l = Ok ws ->
  found multi_card_token (row_body n k w ws) = false.
Proof.
  intros n k s l w ws Hn Hl Hw Hws. inversion Hl as [|? ? Hs Hl']; subst. unfold row_body.
  pose proof (show_nat_identifier k) as Hk.
  set (V := t_ " " ++ w ++ commas (t_ "  ") ws ++ t_ ",").
  assert (HV : ~ In "="%char V).
  { unfold V. intro X. apply in_app_or in X. destruct X as [[X|[]]|X]; [discriminate|].
    apply in_app_or in X. destruct X as [X|X]; [exact (numc_not w _ (num_numc s w Hs Hw) eq_refl X)|].
    apply in_app_or in X. destruct X as [X|[X|[]]]; [|discriminate]. exact (commas_no_eq _ l ws blank2 Hl' Hws X). }
  assert (FV : found multi_card_token V = false).
  { apply found_none. intros a b E. apply multi_none, card_none_eq. intro X. apply HV. rewrite E. apply in_or_app. right. exact X. }
  assert (FE : found multi_card_token (t_ ") =" ++ V) = false).
  { cbn [t_ list_ascii_of_string app]. apply found_step; [apply multi_none, card_none_field, field_none; reflexivity|].
    apply found_step; [apply multi_none, card_none_field; reflexivity|].
    apply found_step; [apply multi_none, card_none_field, field_none; reflexivity|]. exact FV. }
  apply found_app.
  { intros a1 a2 E Hne. apply multi_none. unfold NamelistModel.card_token.
    rewrite fieldval_app; [|exact (suffix_identifier n a1 a2 Hn E Hne)|reflexivity]. cbn [t_ list_ascii_of_string app].
    assert (index_token ("("%char :: "1"%char :: ","%char :: show_int (Z.of_nat k) ++ ")"%char :: " "%char :: "="%char :: V) = None) as -> by reflexivity.
    reflexivity. }
  cbn [t_ list_ascii_of_string app].
  apply found_step; [apply multi_none, card_none_field, field_none; reflexivity|].
  apply found_step; [apply multi_none; apply (card_none_next F fread ["1"%char] ","%char); try reflexivity; try discriminate; split; [discriminate|constructor; [left; chr|constructor]]|].
  apply found_step; [apply multi_none, card_none_field, field_none; reflexivity|].
  apply found_app; [|exact FE]. intros a1 a2 E Hne. apply multi_none.
  apply (card_none_next F fread a2 ")"%char); try reflexivity; try discriminate. exact (suffix_identifier _ a1 a2 Hk E Hne).
Qed.
Lemma row_token : forall n k s l w ws, identifier n -> Forall num_ok (s :: l) -> fmt s = Ok w -> fmt_all l = Ok ws ->
  array2D_token (row_body n k w ws) = Some ((n, Z.of_nat k, s :: l), t_ ",").
Proof.
  intros n k s l w ws Hn Hl Hw Hws. unfold NamelistModel.array2D_token, row_body.
  rewrite fieldval_app; [|exact Hn|reflexivity]. cbn [t_ list_ascii_of_string app].
  match goal with |- context [lit ["("%char] ("("%char :: ?r)] => change (lit ["("%char] ("("%char :: r)) with (Some r) end. cbv iota.
  match goal with |- context [num_int ("1"%char :: ","%char :: ?r)] => change (num_int ("1"%char :: ","%char :: r)) with (Some (1%Z, ","%char :: r)) end. cbv iota.
  match goal with |- context [lit [","%char] (","%char :: ?r)] => change (lit [","%char] (","%char :: r)) with (Some r) end. cbv iota.
  pose proof (num_int_show [] (Z.of_nat k) (")"%char :: " "%char :: "="%char :: " "%char :: w ++ commas [" "%char; " "%char] ws ++ [","%char]) (Forall_nil _) eq_refl) as G.
  cbn [app] in G. rewrite G. clear G.
  match goal with |- context [lit [")"%char] (")"%char :: ?r)] => change (lit [")"%char] (")"%char :: r)) with (Some r) end. cbv iota.
  match goal with |- context [lit ["="%char] (" "%char :: "="%char :: ?r)] => change (lit ["="%char] (" "%char :: "="%char :: r)) with (Some r) end. cbv iota.
  pose proof (numvals_fmt F fshow fread (t_ " ") (t_ "  ") s l w ws (t_ ",") blank1 blank2 Hl Hw Hws (or_intror eq_refl)) as G.
  cbn [t_ list_ascii_of_string app] in G. rewrite G. reflexivity.
Qed.
Lemma numbers_in : forall l l', numbers l -> incl l' l -> numbers l'.
Proof. intros l l' [H|H] I; [left|right]; intros s Hs; apply H, I, Hs. Qed.
Lemma num_scalar : forall l, Forall num_ok l -> Forall scalar_ok l.
Proof. intros l H. eapply Forall_impl; [|exact H]. intros s [[z ->]|[x [-> Hx]]]; [exact I|exact Hx]. Qed.
Lemma row_body_clean : forall n k s l w ws, identifier n -> Forall num_ok (s :: l) -> fmt s = Ok w -> fmt_all l = Ok ws ->
  Forall clean (row_body n k w ws) /\ ends_ok (row_body n k w ws).
Proof.
  intros n k s l w ws Hn Hl Hw Hws. pose proof (num_scalar _ Hl) as Hs. inversion Hs; subst. unfold row_body. split.
  - repeat (apply Forall_app; split); try (apply t_clean; reflexivity).
    + apply alnum_clean, Hn.
    + apply alnum_clean, (show_nat_identifier k).
    + apply (fmt_clean F fshow fread s w H1 Hw).
    + eapply commas_clean; [exact blank2|exact H2|exact Hws].
  - do 6 apply ends_app. exists (commas (t_ "  ") ws), ","%char. split; [reflexivity|split; discriminate].
Qed.
(** the value after some rows *)
Definition stacked (rows : list (list scalar)) : value F := match rows with [r] => Array1 F r | _ => Array2 F rows end.
Lemma vstack_row : forall done new m, done <> [] -> numbers (concat (done ++ [new])) -> (forall r, In r (done ++ [new]) -> length r = m) ->
  vstack F of_int (stacked done) new = Ok (stacked (done ++ [new])).
Proof.
  intros done new m Hd Hn Hm. unfold vstack.
  assert (Er : as_rows F (stacked done) = Ok done) by (destruct done as [|r [|r' d]]; [congruence|reflexivity|reflexivity]).
  rewrite Er. cbn [bind].
  assert (forallb (fun r => length r =? length new) done = true) as ->.
  { apply forallb_forall. intros r Hr. apply Nat.eqb_eq. rewrite (Hm r), (Hm new); [reflexivity|apply in_or_app; right; left; reflexivity|apply in_or_app; left; exact Hr]. }
  assert (Es : stacked (done ++ [new]) = Array2 F (done ++ [new])) by (destruct done as [|r [|r' d]]; [congruence|reflexivity|reflexivity]).
  rewrite Es. cbv zeta. destruct (forallb (is_int F) (concat (done ++ [new]))) eqn:Ei; [reflexivity|].
  destruct Hn as [Hn|Hn].
  - exfalso. assert (forallb (is_int F) (concat (done ++ [new])) = true); [|congruence]. apply forallb_forall. intros s Hs. destruct (Hn s Hs) as [z ->]. reflexivity.
  - assert (forallb (is_num F) (concat (done ++ [new])) = true) as -> by (apply forallb_forall; intros s Hs; destruct (Hn s Hs) as [x [-> _]]; reflexivity).
    f_equal. f_equal. transitivity (map (fun r => r) (done ++ [new])); [|apply map_id]. apply map_ext_in. intros r Hr.
    transitivity (map (fun s => s) r); [|apply map_id]. apply map_ext_in. intros s Hs.
    destruct (Hn s) as [x [-> _]]; [apply in_concat; exists r; split; assumption|reflexivity].
Qed.
Lemma body_row : forall t g cs gs n k s l w ws, identifier n -> numbers (s :: l) -> fmt s = Ok w -> fmt_all l = Ok ws -> k <= 1 ->
  body_line (mkS F t ((g, cs) :: gs) true) (row_body n k w ws) = Ok (mkS F t ((g, Card F n (Array1 F (s :: l)) :: cs) :: gs) true).
Proof.
  intros t g cs gs n k s l w ws Hn Hl Hw Hws Hk. pose proof (numbers_num_ok F fshow fread _ Hl) as Hl'.
  destruct (row_body_clean n k s l w ws Hn Hl' Hw Hws) as [Hc He]. unfold NamelistModel.body_line.
  rewrite (clean_comment _ Hc), (row_no_card n k s l w ws Hn Hl' Hw Hws).
  pose proof (row_token n k s l w ws Hn Hl' Hw Hws) as E. rewrite (found_start _ _ _ _ E). unfold parse_string. rewrite E. cbn [bind].
  rewrite (numbers_array F fshow fread of_int _ Hl). cbn [bind]. assert ((1 <? Z.of_nat k)%Z = false) as -> by lia.
  cbn [bind add_cards s_groups s_title s_open rev app]. rewrite (ends_slash _ He). reflexivity.
Qed.
Lemma body_next_row : forall t g cs gs n n' done m k s l w ws, identifier n -> done <> [] -> numbers (concat (done ++ [s :: l])) ->
  (forall r, In r (done ++ [s :: l]) -> length r = m) -> fmt s = Ok w -> fmt_all l = Ok ws -> 1 < k ->
  body_line (mkS F t ((g, Card F n' (stacked done) :: cs) :: gs) true) (row_body n k w ws) = Ok (mkS F t ((g, Card F n' (stacked (done ++ [s :: l])) :: cs) :: gs) true).
Proof.
  intros t g cs gs n n' done m k s l w ws Hn Hd Hall Hm Hw Hws Hk.
  assert (Hl : numbers (s :: l)) by (eapply numbers_in; [exact Hall|]; rewrite concat_app; cbn; rewrite app_nil_r; apply incl_appr, incl_refl).
  pose proof (numbers_num_ok F fshow fread _ Hl) as Hl'.
  destruct (row_body_clean n k s l w ws Hn Hl' Hw Hws) as [Hc He]. unfold NamelistModel.body_line.
  rewrite (clean_comment _ Hc), (row_no_card n k s l w ws Hn Hl' Hw Hws).
  pose proof (row_token n k s l w ws Hn Hl' Hw Hws) as E. rewrite (found_start _ _ _ _ E). unfold parse_string. rewrite E. cbn [bind].
  rewrite (numbers_array F fshow fread of_int _ Hl). cbn [bind]. assert ((1 <? Z.of_nat k)%Z = true) as -> by lia.
  cbn [update_card s_groups s_title s_open]. rewrite (vstack_row done (s :: l) m Hd Hall Hm). cbn [bind]. rewrite (ends_slash _ He). reflexivity.
Qed.
Lemma rows_parse : forall rows done m n, identifier n -> done <> [] -> numbers (concat (done ++ rows)) -> 0 < m -> (forall r, In r (done ++ rows) -> length r = m) ->
  exists ls, fmt_rows F fshow n (length done) rows = Ok (unlines ls) /\ Forall (Forall printable) ls /\
    forall t g cs gs, parse_lines (mkS F t ((g, Card F n (stacked done) :: cs) :: gs) true) (with_nl ls)
                      = Ok (mkS F t ((g, Card F n (stacked (done ++ rows)) :: cs) :: gs) true).
Proof.
  induction rows as [|row rows IH]; intros done m n Hn Hd Hall Hm0 Hm.
  - exists []. split; [reflexivity|]. split; [constructor|]. intros. cbn. rewrite app_nil_r. reflexivity.
  - assert (Ea : done ++ row :: rows = (done ++ [row]) ++ rows) by (rewrite <- app_assoc; reflexivity).
    destruct (IH (done ++ [row]) m n) as (ls & E & Hp & Hs); try assumption.
    { destruct done; discriminate. } { rewrite <- Ea. exact Hall. } { rewrite <- Ea. exact Hm. }
    assert (Hlen : length row = m) by (apply Hm; apply in_or_app; right; left; reflexivity).
    destruct row as [|s l]; [cbn in Hlen; lia|].
    assert (Hall' : numbers (concat (done ++ [s :: l]))).
    { eapply numbers_in; [exact Hall|]. rewrite Ea. rewrite (concat_app (done ++ [s :: l])). apply incl_appl, incl_refl. }
    assert (Hrow : numbers (s :: l)) by (eapply numbers_in; [exact Hall'|]; rewrite concat_app; cbn; rewrite app_nil_r; apply incl_appr, incl_refl).
    pose proof (num_scalar _ (numbers_num_ok F fshow fread _ Hrow)) as Hsc.
    destruct (fmt_all_ok F fshow fread (s :: l) Hsc) as [ws0 Ews]. destruct (fmt_all_inv F fshow s l ws0 Ews) as (w & ws & -> & Hw & Hws).
    exists ((row_body n (S (length done)) w ws ++ t_ " ") :: ls).
    destruct (row_body_clean n (S (length done)) s l w ws Hn (numbers_num_ok F fshow fread _ Hrow) Hw Hws) as [Hc He]. split; [|split].
    + cbn [fmt_rows]. rewrite Ews. cbn [bind]. rewrite app_length in E. cbn [length] in E. rewrite Nat.add_1_r in E. rewrite E. cbn [bind]. f_equal.
      rewrite row_concat. unfold unlines at 2. cbn [map concat]. fold (unlines ls). unfold row_body. rewrite <- !app_assoc. reflexivity.
    + constructor; [|exact Hp]. apply Forall_app. split; [apply clean_printable; exact Hc|repeat constructor; chr].
    + intros t g cs gs. cbn [with_nl map NamelistModel.parse_lines]. fold (with_nl ls).
      change (row_body n (S (length done)) w ws ++ t_ " ") with ([] ++ row_body n (S (length done)) w ws ++ t_ " ").
      rewrite one_body; [|constructor|exact blank1|apply name_start; exact Hn|apply ends_nonspace; [apply clean_printable; exact Hc|exact He]].
      rewrite (body_next_row t g cs gs n n done m (S (length done)) s l w ws Hn Hd Hall'); [|intros r Hr; apply Hm; rewrite Ea; apply in_or_app; left; exact Hr|exact Hw|exact Hws|destruct done; [congruence|cbn; lia]].
      cbn [bind]. rewrite Ea. apply Hs.
Qed.
End Trip.

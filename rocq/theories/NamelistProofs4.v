(** Cards, groups and whole decks. *)
From Coq Require Import ZifyBool.
From Verif Require Import Base FileModel NamelistModel NamelistSpec NamelistProofs NamelistProofs2 NamelistProofs3.
Local Open Scope nat_scope.

Section Decks.
Variable F : Type.
Variable fshow : F -> res text.
Variable fread : text -> F.
Variable of_int : Z -> F.
Notation scalar := (scalar F).
Notation card := (card F).
Notation group := (group F).
Notation fmt := (fmt F fshow).
Notation fmt_all := (fmt_all F fshow).
Notation scalar_ok := (scalar_ok F fshow fread).
Notation numbers := (numbers F fshow fread).
Notation row_ok := (row_ok F fshow fread).
Notation body_line := (body_line F fread of_int).
Notation one_line := (one_line F fread of_int).
Notation parse_lines := (parse_lines F fread of_int).

Definition reads (c : card) (ls : list text) : Prop :=
  forall t g cs gs, parse_lines (mkS F t ((g, cs) :: gs) true) (with_nl ls) = Ok (mkS F t ((g, rev (read_back F c) ++ cs) :: gs) true).
Definition text_of (o : option text) : text := match o with Some w => w | None => [] end.
Definition card_goal (c : card) : Prop := exists o ls, card_line F fshow c = Ok o /\ text_of o = unlines ls /\ Forall (Forall printable) ls /\ reads c ls.

Lemma row_goal : forall n l v, identifier (local_name n) -> row_ok l ->
  card_line F fshow (Card F n v) = (let! ws := fmt_all l in Ok (Some ((t_ "  " ++ card_name n ++ t_ " = ") ++ join (t_ ", ") ws ++ nl))) ->
  read_back F (Card F n v) = [Card F (local_name n) (match l with [s] => Scalar F s | _ => Array1 F l end)] ->
  card_goal (Card F n v).
Proof.
  intros n l v Hn Hl E Hr. destruct (fmt_all_ok F fshow fread l (row_ok_scalars F fshow fread l Hl)) as [ws Ews].
  destruct (row_clean F fshow fread l ws Hl Ews) as [Hc He].
  exists (Some ((t_ "  " ++ card_name n ++ t_ " = ") ++ join (t_ ", ") ws ++ nl)), [t_ "  " ++ local_name n ++ t_ " = " ++ join (t_ ", ") ws].
  assert (Hcl : Forall clean (local_name n ++ t_ " = " ++ join (t_ ", ") ws)).
  { apply Forall_app. split; [apply alnum_clean, Hn|]. apply Forall_app. split; [apply t_clean; reflexivity|exact Hc]. }
  split; [rewrite E, Ews; reflexivity|]. split.
  - cbn [text_of]. unfold unlines. cbn [map concat]. rewrite app_nil_r, card_name_local, <- !app_assoc. reflexivity.
  - split.
    + constructor; [|constructor]. apply Forall_app. split; [repeat constructor; chr|]. apply (clean_printable _ Hcl).
    + intros t g cs gs. cbn [with_nl map NamelistModel.parse_lines].
      pose proof (one_body F fread of_int t ((g, cs) :: gs) (t_ "  ") (local_name n ++ t_ " = " ++ join (t_ ", ") ws) [] blank2 (Forall_nil _)) as G.
      rewrite app_nil_r in G. rewrite G; [|apply name_start; exact Hn|apply ends_nonspace; [apply (clean_printable _ Hcl)|apply ends_app, ends_app; exact He]].
      rewrite (body_card F fshow fread of_int t g cs gs _ l ws Hn Hl Ews). cbn [bind]. rewrite Hr. reflexivity.
Qed.
Lemma comment_goal : forall s, comment_ok s -> card_goal (Comment F s).
Proof.
  intros s (Hp & Hin & Hsl). exists (Some (t_ "  " ++ s ++ nl)), [t_ "  " ++ s].
  split; [reflexivity|]. split; [unfold unlines; cbn [map concat text_of]; rewrite app_nil_r, <- app_assoc; reflexivity|].
  split; [constructor; [apply Forall_app; split; [repeat constructor; chr|exact Hp]|constructor]|].
  intros t g cs gs. cbn [with_nl map NamelistModel.parse_lines].
  destruct (trim s Hp) as (sp & b & sp2 & E & Hsp & Hsp2 & Hb1 & Hb2 & Hpb & Hi). { exists "!"%char. split; [exact Hin|discriminate]. }
  assert (Eline : t_ "  " ++ s = (t_ "  " ++ sp) ++ b ++ sp2) by (rewrite E, <- app_assoc; reflexivity). rewrite Eline.
  rewrite one_body; [|apply Forall_app; split; [exact blank2|exact Hsp]|exact Hsp2|exact Hb1|exact Hb2].
  unfold NamelistModel.body_line. assert (found comment_token b = true) as -> by (apply (found_lit "!"); [reflexivity|apply Hi; [exact Hin|discriminate]]).
  cbn [bind]. destruct Hb2 as (a & c & Eb & Hc).
  assert (ends_with_slash b = false) as ->.
  { unfold ends_with_slash. rewrite Eb, rev_app_distr. cbn [rev app]. apply Ascii.eqb_neq. intros ->. apply Hsl. exists (sp ++ a), sp2. split; [|exact Hsp2].
    rewrite E, Eb, <- !app_assoc. reflexivity. }
  reflexivity.
Qed.
Lemma array2_goal : forall n rows, rows <> [] -> identifier (local_name n) -> value_ok F fshow fread (Array2 F rows) -> card_goal (Card F n (Array2 F rows)).
Proof.
  intros n rows Hne Hn [Hnum (m & Hm0 & Hm)]. destruct rows as [|row rows]; [congruence|].
  destruct row as [|s l]; [specialize (Hm [] (or_introl eq_refl)); cbn in Hm; lia|].
  assert (Hrow : numbers (s :: l)) by (eapply numbers_in; [exact Hnum|]; cbn [concat]; apply incl_appl, incl_refl).
  destruct (rows_parse F fshow fread of_int rows [s :: l] m (local_name n) Hn) as (ls & E & Hp & Hs); try assumption; [discriminate|].
  pose proof (numbers_num_ok F fshow fread _ Hrow) as Hnok.
  destruct (fmt_all_ok F fshow fread (s :: l) (num_scalar F fshow fread _ Hnok)) as [ws0 Ews]. destruct (fmt_all_inv F fshow s l ws0 Ews) as (w & ws & -> & Hw & Hws).
  destruct (row_body_clean F fshow fread (local_name n) 1 s l w ws Hn Hnok Hw Hws) as [Hc He].
  exists (Some (t_ "  " ++ (row_body (local_name n) 1 w ws ++ t_ " ") ++ nl ++ unlines ls)), ((t_ "  " ++ row_body (local_name n) 1 w ws ++ t_ " ") :: ls).
  split; [|split; [|split]].
  - cbn [card_line]. rewrite card_name_local. cbn [fmt_rows]. rewrite Ews. cbn [bind]. cbn [length] in E. rewrite E. cbn [bind].
    rewrite row_concat. unfold row_body. rewrite <- !app_assoc. reflexivity.
  - cbn [text_of]. unfold unlines at 2. cbn [map concat]. fold (unlines ls). rewrite <- !app_assoc. reflexivity.
  - constructor; [|exact Hp]. apply Forall_app. split; [repeat constructor; chr|]. apply Forall_app. split; [apply (clean_printable _ Hc)|repeat constructor; chr].
  - intros t g cs gs. cbn [with_nl map NamelistModel.parse_lines]. fold (with_nl ls).
    rewrite one_body; [|exact blank2|exact blank1|apply name_start; exact Hn|apply ends_nonspace; [apply (clean_printable _ Hc)|exact He]].
    rewrite (body_row F fshow fread of_int t g cs gs (local_name n) 1 s l w ws Hn Hrow Hw Hws (Nat.le_refl 1)). cbn [bind].
    change (Array1 F (s :: l)) with (stacked F [s :: l]). rewrite Hs. cbn [read_back rev app].
    destruct rows; reflexivity.
Qed.
Lemma card_ok_goal : forall c, card_ok F fshow fread c -> card_goal c.
Proof.
  intros [n v|s] H; [|apply comment_goal; exact H]. destruct H as [Hn Hv]. destruct v as [s|l|l|rows| |].
  - apply (row_goal n [s]); [exact Hn|exact Hv| |reflexivity]. cbn [card_line NamelistModel.fmt_all]. destruct (fmt s); [|reflexivity]. cbn [bind join]. rewrite <- !app_assoc. reflexivity.
  - apply (row_goal n l); [exact Hn|destruct l as [|x [|y l]]; exact Hv|reflexivity|destruct l as [|x [|y l]]; [destruct Hv|reflexivity|reflexivity]].
  - destruct l as [|x l].
    + exists None, []. split; [reflexivity|]. split; [reflexivity|]. split; [constructor|]. intros t g cs gs. reflexivity.
    + apply (row_goal n (x :: l)); [exact Hn|destruct l as [|y l]; exact Hv|reflexivity|destruct l; reflexivity].
  - destruct rows as [|r rows].
    + exists None, []. split; [reflexivity|]. split; [reflexivity|]. split; [constructor|]. intros t g cs gs. reflexivity.
    + apply array2_goal; [discriminate|exact Hn|exact Hv].
  - destruct Hv.
  - destruct Hv.
Qed.
Lemma cards_goal : forall cs, Forall (card_ok F fshow fread) cs ->
  exists ls, card_lines F fshow cs = Ok (unlines ls) /\ Forall (Forall printable) ls /\
    forall t g old gs, parse_lines (mkS F t ((g, old) :: gs) true) (with_nl ls) = Ok (mkS F t ((g, rev (flat_map (read_back F) cs) ++ old) :: gs) true).
Proof.
  intros cs H. induction H as [|c cs Hc H IH].
  - exists []. split; [reflexivity|]. split; [constructor|]. intros. reflexivity.
  - destruct IH as (ls & E & Hp & Hr). destruct (card_ok_goal c Hc) as (o & l1 & Eo & Et & Hp1 & Hr1). exists (l1 ++ ls). split; [|split].
    + cbn [card_lines]. rewrite Eo. cbn [bind]. rewrite E. cbn [bind]. rewrite unlines_app, <- Et. destruct o; reflexivity.
    + apply Forall_app. split; assumption.
    + intros t g old gs. rewrite with_nl_app, parse_app, Hr1. cbn [bind]. rewrite Hr. cbn [flat_map]. rewrite rev_app_distr, <- app_assoc. reflexivity.
Qed.

(** ** Headers and free lines *)
Lemma header_line : forall t gs n, identifier n -> one_line (mkS F t gs false) ((t_ "&" ++ n) ++ nl) = Ok (mkS F t ((n, []) :: gs) true).
Proof.
  intros t gs n Hn. unfold NamelistModel.one_line.
  pose proof (strip_line [] (t_ "&" ++ n) nl (Forall_nil _)) as G. cbn [app] in G. rewrite <- app_assoc. rewrite <- app_assoc in G. rewrite G; clear G.
  - cbn [t_ list_ascii_of_string app s_open]. unfold free_line.
    assert (E : group_name_token F fread ("&"%char :: n) = Some ((n, [], false), [])).
    { unfold group_name_token. change (one_of [t_ "$"; t_ "&"] (skip ("&"%char :: n))) with (Some (t_ "&", n)). cbv iota.
      pose proof (fieldval_app n [] Hn I) as G. rewrite app_nil_r in G. rewrite G. reflexivity. }
    rewrite (found_start _ _ _ _ E). unfold parse_string. rewrite E. reflexivity.
  - repeat constructor.
  - reflexivity.
  - destruct Hn as [Hn Ha]. destruct (exists_last Hn) as (a & c & ->). apply Forall_app in Ha. destruct Ha as [_ Ha]. inversion Ha; subst.
    exists (t_ "&" ++ a), c. split; [rewrite <- app_assoc; reflexivity|]. clear -H1. chr.
Qed.
Lemma end_line : forall t gs, one_line (mkS F t gs true) (t_ "/" ++ nl) = Ok (mkS F t gs false).
Proof. intros. reflexivity. Qed.
Lemma no_group : forall s, Forall (fun c => printable c /\ ~ In c (t_ "&$")) s -> found (group_name_token F fread) s = false.
Proof.
  intros s H. apply found_none. intros a b ->. apply Forall_app in H. destruct H as [_ H]. unfold group_name_token.
  assert (Hn : forall c, In c (t_ "&$") -> ~ In c (skip b)).
  { intros c Hc X. rewrite Forall_forall in H. apply (H c (skip_incl b c X)). exact Hc. }
  cbn [one_of]. destruct (strip_prefix (t_ "$") (skip b)) as [r|] eqn:E1.
  { exfalso. destruct (strip_prefix_incl _ _ _ E1) as [_ X]. apply (Hn "$"%char); [right; left; reflexivity|apply X; left; reflexivity]. }
  destruct (strip_prefix (t_ "&") (skip b)) as [r|] eqn:E2; [|reflexivity].
  exfalso. destruct (strip_prefix_incl _ _ _ E2) as [_ X]. apply (Hn "&"%char); [left; reflexivity|apply X; left; reflexivity].
Qed.
Lemma free_form : forall s, free_ok s -> exists sp b c, s = sp ++ b ++ [c] /\ blanks sp /\ nonspace_start (b ++ [c]) /\ is_space c = false /\ found (group_name_token F fread) (b ++ [c]) = false.
Proof.
  intros s (Hp & Hne & Hl). assert (Hp' : Forall printable s) by (eapply Forall_impl; [|exact Hp]; intros c [X _]; exact X).
  destruct (exists_last Hne) as (a & c & E). rewrite E in Hl. rewrite last_last in Hl.
  destruct (trim s Hp') as (sp & b & sp2 & E2 & Hsp & Hsp2 & Hb1 & Hb2 & Hpb & _). { exists c. split; [rewrite E; apply in_or_app; right; left; reflexivity|exact Hl]. }
  assert (sp2 = []).
  { destruct sp2 as [|x sp2]; [reflexivity|]. exfalso. assert (Hx : x :: sp2 <> []) by discriminate. destruct (exists_last Hx) as (y & z & Ez).
    rewrite Ez in E2, Hsp2. apply Forall_app in Hsp2. destruct Hsp2 as [_ Hz]. inversion Hz; subst. rewrite !app_assoc in E2. apply app_inj_tail in E2. destruct E2 as [_ ->]. congruence. }
  subst sp2. rewrite app_nil_r in E2. destruct Hb2 as (b0 & c0 & Eb & Hc0). subst b. exists sp, b0, c0.
  split; [exact E2|]. split; [exact Hsp|]. split; [exact Hb1|]. split; [exact Hc0|]. apply no_group. rewrite E2 in Hp. apply Forall_app in Hp. apply Hp.
Qed.
Lemma free_line_ok : forall t gs s, free_ok s -> (t <> [] \/ gs <> []) -> one_line (mkS F t gs false) (s ++ nl) = Ok (mkS F t ((s, []) :: gs) false).
Proof.
  intros t gs s H Ht. destruct (free_form s H) as (sp & b & c & E & Hsp & Hb & Hc & Hf). unfold NamelistModel.one_line. rewrite E at 1.
  assert (Es : strip ((sp ++ b ++ [c]) ++ nl) = b ++ [c]).
  { rewrite <- !app_assoc. rewrite (app_assoc b). apply strip_line; [apply blanks_spaces; exact Hsp|repeat constructor|exact Hb|exists b, c; split; [reflexivity|exact Hc]]. }
  rewrite Es. destruct (b ++ [c]) as [|x r] eqn:Ebc; [destruct Hb|]. rewrite <- Ebc in *. cbn [s_open]. unfold free_line. rewrite Hf. cbn [s_groups s_title s_open].
  assert (rstrip (s ++ nl) = s) as ->.
  { rewrite E. rewrite Ebc, <- Ebc. rewrite (app_assoc sp b [c]). rewrite <- (app_assoc (sp ++ b) [c] nl). apply rstrip_spaces; [exact Hc|repeat constructor]. }
  destruct gs as [|g gs]; [|reflexivity]. destruct t as [|x' t]; [|reflexivity]. destruct Ht; congruence.
Qed.
Lemma title_line : forall s, free_ok s -> hd " "%char s <> " "%char -> one_line (start F) (s ++ nl) = Ok (mkS F s [] false).
Proof.
  intros s H Hh. destruct (free_form s H) as (sp & b & c & E & Hsp & Hb & Hc & Hf).
  assert (sp = []). { destruct sp as [|x sp]; [reflexivity|]. inversion Hsp; subst. cbn in Hh. congruence. } subst sp. cbn [app] in E.
  unfold NamelistModel.one_line.
  assert (Es : strip (s ++ nl) = s). { rewrite E. apply (strip_line [] (b ++ [c]) nl); [constructor|repeat constructor|exact Hb|exists b, c; split; [reflexivity|exact Hc]]. }
  rewrite Es. destruct s as [|x r]; [destruct H as (_ & X & _); congruence|]. cbn [s_open start]. unfold free_line. rewrite E, Hf. reflexivity.
Qed.

Definition back (g : group) : group := (fst g, rev (flat_map (read_back F) (snd g))).
Lemma groups_goal : forall gs, Forall (group_ok F fshow fread) gs ->
  exists ls, groups_text F fshow gs = Ok (unlines ls) /\ Forall (Forall printable) ls /\
    forall t old, (t <> [] \/ old <> [] \/ match gs with (_, []) :: _ => False | _ => True end) ->
      parse_lines (mkS F t old false) (with_nl ls) = Ok (mkS F t (rev (map back gs) ++ old) false).
Proof.
  intros gs H. induction H as [|[n cs] gs Hg H IH].
  - exists []. split; [reflexivity|]. split; [constructor|]. intros. reflexivity.
  - destruct IH as (ls & E & Hp & Hr). unfold group_ok in Hg. cbn [fst snd] in Hg. destruct cs as [|c cs].
    + exists (n :: ls). split; [|split].
      * cbn [groups_text group_text snd fst]. rewrite E. reflexivity.
      * constructor; [|exact Hp]. destruct Hg as [Hg _]. eapply Forall_impl; [|exact Hg]. intros x [X _]. exact X.
      * intros t old Ht. cbn [with_nl map NamelistModel.parse_lines]. fold (with_nl ls).
        rewrite (free_line_ok t old n Hg); [|destruct Ht as [X|[X|[]]]; tauto]. cbn [bind]. rewrite Hr; [|right; left; discriminate].
        cbn [map rev]. rewrite <- app_assoc. reflexivity.
    + destruct Hg as [Hn Hc]. destruct (cards_goal (c :: cs) Hc) as (l1 & E1 & Hp1 & Hr1).
      exists ((t_ "&" ++ n) :: l1 ++ t_ "/" :: ls). split; [|split].
      * cbn [groups_text group_text snd fst]. rewrite E1. cbn [bind]. rewrite E. cbn [bind]. unfold unlines at 3. cbn [map concat].
        fold (unlines (l1 ++ t_ "/" :: ls)). rewrite unlines_app. unfold unlines at 4. cbn [map concat]. fold (unlines ls). rewrite <- !app_assoc. reflexivity.
      * constructor; [constructor; [chr|]|apply Forall_app; split; [exact Hp1|constructor; [repeat constructor; chr|exact Hp]]].
        destruct Hn as [_ Hn]. eapply Forall_impl; [|exact Hn]. apply alnum_printable.
      * intros t old _. cbn [with_nl map NamelistModel.parse_lines]. fold (with_nl (l1 ++ t_ "/" :: ls)).
        rewrite (header_line t old n Hn). cbn [bind]. rewrite with_nl_app, parse_app, Hr1. cbn [bind with_nl map NamelistModel.parse_lines]. fold (with_nl ls).
        rewrite end_line. cbn [bind]. rewrite Hr; [|right; left; discriminate]. cbn [map rev]. rewrite <- app_assoc. unfold back at 3. cbn [fst snd]. rewrite app_nil_r. reflexivity.
Qed.
Lemma deck_round_trip : forall d, deck_ok F fshow fread d ->
  exists file, generate F fshow d = Ok file /\ parse_file F fread of_int file = Ok (read_deck F d).
Proof.
  intros [t gs] [Hg Ht]. cbn [groups title] in Hg, Ht. destruct (groups_goal gs Hg) as (ls & E & Hp & Hr).
  exists (unlines (t :: ls)). split.
  - unfold generate. cbn [groups title]. rewrite E. cbn [bind]. unfold unlines at 2. cbn [map concat]. rewrite <- app_assoc. reflexivity.
  - unfold parse_file. rewrite readlines_unlines.
    + cbn [with_nl map NamelistModel.parse_lines]. fold (with_nl ls).
      assert (E1 : one_line (start F) (t ++ nl) = Ok (mkS F t [] false)).
      { destruct t as [|c t]; [reflexivity|]. destruct Ht as [Ht Hh]. exact (title_line (c :: t) Ht Hh). }
      rewrite E1. cbn [bind]. rewrite Hr.
      * cbn [bind]. unfold finish, read_deck. cbn [s_title s_groups title groups]. f_equal. f_equal.
        rewrite app_nil_r, map_rev, rev_involutive, map_map. apply map_ext. intros [n cs]. unfold back. cbn [fst snd]. rewrite rev_involutive. reflexivity.
      * destruct t as [|c t]; [right; right; exact Ht|left; discriminate].
    + constructor; [|exact Hp]. destruct t as [|c t]; [constructor|]. destruct Ht as [[Ht _] _]. eapply Forall_impl; [|exact Ht]. intros x [X _]. exact X.
Qed.
Lemma settled_back : forall c, settled F c -> read_back F c = [c].
Proof.
  intros [n v|s] H; [|destruct H]. destruct H as [Hn Hv]. pose proof (after_colon_none n [] Hn) as G. cbn in G. unfold read_back, local_name. rewrite G.
  destruct v as [s|l|l|rows| |]; try reflexivity; try contradiction.
  - destruct l as [|x [|y l]]; [cbn in Hv; lia|cbn in Hv; lia|reflexivity].
  - destruct rows as [|x [|y rows]]; [cbn in Hv; lia|cbn in Hv; lia|reflexivity].
Qed.
Lemma settled_deck : forall d, (forall g c, In g (groups F d) -> In c (snd g) -> settled F c) -> read_deck F d = d.
Proof.
  intros [t gs] H. unfold read_deck. cbn [title groups] in *. f_equal. transitivity (map (fun g => g) gs); [|apply map_id].
  apply map_ext_in. intros [n cs] Hg. cbn [fst snd]. f_equal. assert (Hc : forall c, In c cs -> settled F c) by (intros c Hc; exact (H _ c Hg Hc)).
  clear -Hc. induction cs as [|c cs IH]; [reflexivity|]. cbn [flat_map]. rewrite (settled_back c (Hc c (or_introl eq_refl))). cbn [app]. rewrite IH; [reflexivity|].
  intros x Hx. apply Hc. right. exact Hx.
Qed.
End Decks.

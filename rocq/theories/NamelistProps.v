(** Namelists: writing and reading back (C87), loading into a component (C88). *)
From Verif Require Import Base FileModel NamelistModel NamelistSpec NamelistProofs NamelistProofs2 NamelistProofs3 NamelistProofs4 NamelistProofs5 NamelistProofs6 NamelistLoadProofs.
Local Open Scope nat_scope.

(** ** C87 *)
(** a namelist with names of letters and digits, quotable strings, floats whose printed form
    is a number of the grammar, and numeric arrays, is read back as it was written, up to
    [read_deck]: names without their path, comments and empty arrays left out, lists as
    arrays, one-element arrays as scalars, one-row matrices as arrays *)
Theorem namelist_round_trip : forall F fshow fread of_int (d : deck F), deck_ok F fshow fread d ->
  exists file, generate F fshow d = Ok file /\ parse_file F fread of_int file = Ok (read_deck F d).
Proof. exact deck_round_trip. Qed.
Print Assumptions namelist_round_trip.

(** nothing changes at all without comments, paths, lists, and arrays of one element or row *)
Theorem namelist_kept : forall F fshow fread of_int (d : deck F), deck_ok F fshow fread d ->
  (forall g c, In g (groups F d) -> In c (snd g) -> settled F c) ->
  exists file, generate F fshow d = Ok file /\ parse_file F fread of_int file = Ok d.
Proof.
  intros F fshow fread of_int d H Hs. destruct (deck_round_trip F fshow fread of_int d H) as (file & E1 & E2).
  exists file. split; [exact E1|]. rewrite E2, (settled_deck F d Hs). reflexivity.
Qed.
Print Assumptions namelist_kept.

(** find_card after reading gives the value of the first card of that name in the first
    group of that name *)
Theorem namelist_find_card : forall F fshow fread of_int (d : deck F) pre g cs post before n v after, deck_ok F fshow fread d ->
  (forall g c, In g (groups F d) -> In c (snd g) -> settled F c) ->
  groups F d = pre ++ (g, cs) :: post -> ~ In g (map fst pre) -> cs = before ++ Card F n v :: after -> ~ In n (map (entry_name F) before) ->
  exists file d', generate F fshow d = Ok file /\ parse_file F fread of_int file = Ok d' /\ find_card F d' g n = Ok v.
Proof.
  intros F fshow fread of_int d pre g cs post before n v after H Hs Eg Hg Ec Hn.
  destruct (namelist_kept F fshow fread of_int d H Hs) as (file & E1 & E2). exists file, d. split; [exact E1|]. split; [exact E2|].
  unfold find_card. rewrite Eg.
  assert (Ef : find (fun e => text_eqb (fst e) g) (pre ++ (g, cs) :: post) = Some (g, cs)).
  { clear -Hg. induction pre as [|[g' c'] pre IH]; cbn; [rewrite text_eqb_refl; reflexivity|]. rewrite text_eqb_neq; [|intro X; apply Hg; left; exact X].
    apply IH. intro X. apply Hg. right. exact X. }
  rewrite Ef, Ec. assert (Ef2 : find (fun c => text_eqb (entry_name F c) n) (before ++ Card F n v :: after) = Some (Card F n v)).
  { clear -Hn. induction before as [|c before IH]; cbn; [rewrite text_eqb_refl; reflexivity|]. rewrite text_eqb_neq; [|intro X; apply Hn; left; exact X].
    apply IH. intro X. apply Hn. right. exact X. }
  rewrite Ef2. reflexivity.
Qed.
Print Assumptions namelist_find_card.

(** numbers on the following lines continue an array *)
Theorem namelist_continued_array : forall F fshow fread of_int g n row line rows lines, identifier g -> identifier n -> 2 <= length row -> (forall r, In r rows -> r <> []) ->
  numbers F fshow fread (concat (row :: rows)) -> Forall2 (number_line F fshow) (row :: rows) (line :: lines) ->
  parse_file F fread of_int (file_of ((t_ "&" ++ g) :: (t_ "  " ++ n ++ t_ " = " ++ lstrip line) :: lines ++ [t_ "/"]))
  = Ok (mkDeck F [] [(g, [Card F n (Array1 F (concat (row :: rows)))])]).
Proof. exact continued_file. Qed.
Print Assumptions namelist_continued_array.

(** several cards on one line are read in their order, if no name but the first begins
    like a number *)
Theorem namelist_several_cards : forall F fshow fread of_int g c cs w ws, identifier g ->
  Forall (fun c => identifier (fst c) /\ numbers F fshow fread (snd c) /\ snd c <> []) (c :: cs) ->
  Forall (fun c => opens_card (fst c)) cs -> Forall2 (card_text F fshow) (c :: cs) (w :: ws) ->
  parse_file F fread of_int (file_of [t_ "&" ++ g; t_ "  " ++ join (t_ ", ") (w :: ws); t_ "/"])
  = Ok (mkDeck F [] [(g, map (fun c => Card F (fst c) (one_or_array F (snd c))) (c :: cs))]).
Proof. exact several_file. Qed.
Print Assumptions namelist_several_cards.

(** For the examples floats are their texts. *)
Notation txt := (list ascii).
Definition show_txt (x : txt) : res txt := Ok x.
Definition read_txt (x : txt) : txt := x.
Notation gen := (generate txt show_txt).
Notation parse := (parse_file txt read_txt show_int).
Notation int z := (Scalar txt (SInt txt z)).
Notation card_ s v := (Card txt (t_ s) v).
Definition one_group (name : string) (cs : list (card txt)) : deck txt := mkDeck txt (t_ "Title") [(t_ name, cs)].

Definition deck_ex : deck txt :=
  mkDeck txt (t_ "A case")
    [(t_ "OPTION", [card_ "n" (int (-12)); card_ "x" (Scalar txt (SFloat txt (t_ "-2.5E-07"))); card_ "flag" (Scalar txt (SBool txt false));
                    card_ "name" (Scalar txt (SStr txt (t_ "two words")));
                    card_ "v" (Array1 txt [SInt txt 1; SInt txt 20]); card_ "m" (Array2 txt [[SInt txt 1; SInt txt 2]; [SInt txt 3; SInt txt (-4)]])]);
     (t_ "  free form", [])].
Lemma digits_ok : forall s : string, forallb is_digit (t_ s) = true -> Forall digit (t_ s).
Proof.
  intros s H. apply Forall_forall. intros c Hc. rewrite forallb_forall in H. specialize (H c Hc). unfold is_digit, in_range in H.
  apply andb_prop in H. destruct H as [H1 H2]. apply Nat.leb_le in H1. apply Nat.leb_le in H2. split; assumption.
Qed.
Lemma identifier_ok : forall s : string, s <> EmptyString -> forallb is_alnum (t_ s) = true -> identifier (t_ s).
Proof.
  intros s Hn H. split; [destruct s; [congruence|discriminate]|]. apply Forall_forall. intros c Hc. rewrite forallb_forall in H. specialize (H c Hc).
  unfold is_alnum, is_digit, in_range in H. unfold alnum, between. apply orb_prop in H. destruct H as [H|H]; [apply orb_prop in H; destruct H as [H|H]|];
    apply andb_prop in H; destruct H as [H1 H2]; apply Nat.leb_le in H1; apply Nat.leb_le in H2; tauto.
Qed.
Lemma chars_ok : forall (bad : list ascii) (s : string), forallb (fun c => in_range 32 126 c && negb (existsb (Ascii.eqb c) bad)) (t_ s) = true ->
  Forall (fun c => printable c /\ ~ In c bad) (t_ s).
Proof.
  intros bad s H. apply Forall_forall. intros c Hc. rewrite forallb_forall in H. specialize (H c Hc). apply andb_prop in H. destruct H as [H1 H2].
  unfold in_range in H1. apply andb_prop in H1. destruct H1 as [H0 H1]. apply Nat.leb_le in H0. apply Nat.leb_le in H1. split; [split; assumption|].
  intro X. assert (existsb (Ascii.eqb c) bad = true) as E by (apply existsb_exists; exists c; split; [exact X|apply Ascii.eqb_refl]). rewrite E in H2. discriminate.
Qed.
Example namelist_ex : deck_ok txt show_txt read_txt deck_ex /\ (forall g c, In g (groups txt deck_ex) -> In c (snd g) -> settled txt c) /\
  exists file, gen deck_ex = Ok file /\ parse file = Ok deck_ex.
Proof.
  assert (H1 : deck_ok txt show_txt read_txt deck_ex).
  { split.
    - constructor; [|constructor; [|constructor]].
      + split; [apply (identifier_ok "OPTION"); [discriminate|reflexivity]|]. cbn [snd]. repeat apply Forall_cons; try apply Forall_nil;
          (split; [|cbn [value_ok scalar_ok]]); try (match goal with |- identifier (local_name (t_ ?s)) => apply (identifier_ok s); [discriminate|reflexivity] end).
        * exact I.
        * exists (t_ "-2.5E-07"), (t_ "-2.5E-07"). split; [reflexivity|]. split; [|reflexivity].
          apply (with_point_expo (t_ "-") (t_ "2") (t_ "5") (t_ "E-07") (t_ "E-07")); [right; right; reflexivity|discriminate|apply digits_ok; reflexivity|apply digits_ok; reflexivity|].
          apply (expo_some "E"%char (t_ "-") (t_ "07")); [cbn; tauto|right; right; reflexivity|discriminate|apply digits_ok; reflexivity].
        * exact I.
        * apply (chars_ok (t_ "'!\")). reflexivity.
        * left. intros s Hs. cbn in Hs. destruct Hs as [<-|[<-|[]]]; eexists; reflexivity.
        * split; [left; intros s Hs; cbn in Hs; destruct Hs as [<-|[<-|[<-|[<-|[]]]]]; eexists; reflexivity|].
          exists 2. split; [lia|]. intros r Hr. cbn in Hr. destruct Hr as [<-|[<-|[]]]; reflexivity.
      + split; [apply (chars_ok (t_ "&$")); reflexivity|]. split; discriminate.
    - split; [|discriminate]. split; [apply (chars_ok (t_ "&$") "A case"); reflexivity|]. split; discriminate. }
  assert (H2 : forall g c, In g (groups txt deck_ex) -> In c (snd g) -> settled txt c).
  { intros g c Hg Hc. cbn in Hg. destruct Hg as [<-|[<-|[]]]; [|destruct Hc].
    cbn in Hc. destruct Hc as [<-|[<-|[<-|[<-|[<-|[<-|[]]]]]]]; cbn; (split; [intuition discriminate|try exact I; lia]). }
  split; [exact H1|]. split; [exact H2|]. exact (namelist_kept txt show_txt read_txt show_int deck_ex H1 H2).
Qed.
(** what comes back different: a path, a comment, a list, one-element arrays, an empty array *)
Example namelist_ex2 : exists file, gen (one_group "G" [card_ "a:b:x" (PyList txt [SInt txt 1; SInt txt 2]); Comment txt (t_ "! note"); card_ "y" (Array1 txt [SInt txt 3]);
    card_ "z" (Array1 txt []); card_ "w" (Array2 txt [[SInt txt 4; SInt txt 5]])]) = Ok file /\
  parse file = Ok (one_group "G" [card_ "x" (Array1 txt [SInt txt 1; SInt txt 2]); card_ "y" (int 3); card_ "w" (Array1 txt [SInt txt 4; SInt txt 5])]).
Proof. eexists. split; [vm_compute; reflexivity|vm_compute; reflexivity]. Qed.
Example continued_ex : parse (file_of [t_ "&G"; t_ "  x = 1, 2,"; t_ "     3, 4"; t_ "    5"; t_ "/"])
  = Ok (mkDeck txt [] [(t_ "G", [card_ "x" (Array1 txt [SInt txt 1; SInt txt 2; SInt txt 3; SInt txt 4; SInt txt 5])])]).
Proof. vm_compute. reflexivity. Qed.

Example several_ex :
  (Forall (fun c => identifier (fst c) /\ numbers txt show_txt read_txt (snd c) /\ snd c <> []) [(t_ "n", [SInt txt 3]); (t_ "x", [SInt txt 1; SInt txt 2])] /\
   Forall (fun c : txt * list (scalar txt) => opens_card (fst c)) [(t_ "x", [SInt txt 1; SInt txt 2])] /\
   Forall2 (card_text txt show_txt) [(t_ "n", [SInt txt 3]); (t_ "x", [SInt txt 1; SInt txt 2])] [t_ "n = 3"; t_ "x = 1, 2"]) /\
  parse (file_of [t_ "&G"; t_ "  n = 3, x = 1, 2"; t_ "/"]) = Ok (mkDeck txt [] [(t_ "G", [card_ "n" (int 3); card_ "x" (Array1 txt [SInt txt 1; SInt txt 2])])]).
Proof.
  split; [|vm_compute; reflexivity]. split; [|split].
  - repeat apply Forall_cons; try apply Forall_nil; (split; [split; [discriminate|]|split; [left; intros s Hs; cbn in Hs; repeat (destruct Hs as [<-|Hs]; [eexists; reflexivity|]); destruct Hs|discriminate]]);
      repeat apply Forall_cons; try apply Forall_nil; cbn; unfold alnum, between; cbn; lia.
  - repeat apply Forall_cons; try apply Forall_nil. split; [|split; intros r E; discriminate E]. intros c r E. assert (c = "x"%char) by (cbn in E; congruence). subst c. unfold digit, between. cbn. lia.
  - repeat apply Forall2_cons; try apply Forall2_nil; eexists; (split; [vm_compute; reflexivity|vm_compute; reflexivity]).
Qed.

(** *** decks that are not read back *)
(** an underscore is no part of a name: a card with one cannot be read, and the name of a
    group is cut off *)
Theorem namelist_underscore_refuted :
  (exists file, gen (one_group "G" [card_ "max_it" (int 5)]) = Ok file /\ parse file = Err ValueError) /\
  (exists file, gen (one_group "IN_1" [card_ "x" (int 5)]) = Ok file /\ parse file = Ok (one_group "IN" [card_ "x" (int 5)])).
Proof. split; eexists; (split; [vm_compute; reflexivity|vm_compute; reflexivity]). Qed.
Print Assumptions namelist_underscore_refuted.
(** a negative number written without a point, as "%.16g" writes -1e-07, is read as the
    integer -1 *)
Theorem namelist_negative_exponent_refuted :
  exists file, gen (one_group "G" [card_ "x" (Scalar txt (SFloat txt (t_ "-1e-07")))]) = Ok file /\
               parse file = Ok (one_group "G" [card_ "x" (int (-1))]).
Proof. eexists. split; [vm_compute; reflexivity|vm_compute; reflexivity]. Qed.
Print Assumptions namelist_negative_exponent_refuted.
(** of several booleans or strings only the first is read *)
Theorem namelist_bool_array_refuted :
  (exists file, gen (one_group "G" [card_ "x" (Array1 txt [SBool txt true; SBool txt false])]) = Ok file /\
                parse file = Ok (one_group "G" [card_ "x" (Scalar txt (SBool txt true))])) /\
  (exists file, gen (one_group "G" [card_ "x" (PyList txt [SStr txt (t_ "a"); SStr txt (t_ "b")])]) = Ok file /\
                parse file = Ok (one_group "G" [card_ "x" (Scalar txt (SStr txt (t_ "a")))])).
Proof. split; eexists; (split; [vm_compute; reflexivity|vm_compute; reflexivity]). Qed.
Print Assumptions namelist_bool_array_refuted.
(** a string with an exclamation mark makes the card a comment; one with a quote is cut *)
Theorem namelist_string_refuted :
  (exists file, gen (one_group "G" [card_ "x" (Scalar txt (SStr txt (t_ "stop!")))]) = Ok file /\ parse file = Ok (one_group "G" [])) /\
  (exists file, gen (one_group "G" [card_ "x" (Scalar txt (SStr txt (t_ "it's")))]) = Ok file /\ parse file = Ok (one_group "G" [card_ "x" (Scalar txt (SStr txt (t_ "it")))])).
Proof. split; eexists; (split; [vm_compute; reflexivity|vm_compute; reflexivity]). Qed.
Print Assumptions namelist_string_refuted.
(** a comment that ends in a slash closes the group: the cards after it become groups; a
    comment that starts with Inf puts an infinity into the card above it; one with a number
    cannot be read *)
Theorem namelist_comment_refuted :
  (exists file, gen (one_group "G" [Comment txt (t_ "! see doc/"); card_ "x" (int 1)]) = Ok file /\
                parse file = Ok (mkDeck txt (t_ "Title") [(t_ "G", []); (t_ "  x = 1", []); (t_ "/", [])])) /\
  (exists file, gen (one_group "G" [card_ "x" (Scalar txt (SFloat txt (t_ "1.0"))); Comment txt (t_ "Information")]) = Ok file /\
                parse file = Ok (one_group "G" [card_ "x" (Array1 txt [SFloat txt (t_ "1.0"); SFloat txt (t_ "Inf")])])) /\
  (exists file, gen (one_group "G" [card_ "x" (int 1); Comment txt (t_ "See page 3")]) = Ok file /\ parse file = Err ValueError).
Proof. split; [|split]; eexists; (split; [vm_compute; reflexivity|vm_compute; reflexivity]). Qed.
Print Assumptions namelist_comment_refuted.
(** without a title, the first free-form line is taken for the title *)
Theorem namelist_title_refuted :
  exists file, gen (mkDeck txt [] [(t_ "free form", []); (t_ "G", [card_ "x" (int 1)])]) = Ok file /\
               parse file = Ok (mkDeck txt (t_ "free form") [(t_ "G", [card_ "x" (int 1)])]).
Proof. eexists. split; [vm_compute; reflexivity|vm_compute; reflexivity]. Qed.
Print Assumptions namelist_title_refuted.
(** an array whose first line holds a single number cannot go on with several *)
Theorem namelist_continued_refuted :
  parse (file_of [t_ "&G"; t_ "  x = 1,"; t_ "     2, 3"; t_ "/"]) = Err ValueError.
Proof. vm_compute. reflexivity. Qed.
Print Assumptions namelist_continued_refuted.
(** a name that begins with Inf or NaN is taken for a number after a comma: the card is
    lost and the array before it grows *)
Theorem namelist_several_refuted :
  parse (file_of [t_ "&G"; t_ "  x = 1.5, Inflow = 2"; t_ "/"])
  = Ok (mkDeck txt [] [(t_ "G", [card_ "x" (Array1 txt [SFloat txt (t_ "1.5"); SFloat txt (t_ "Inf")])])]).
Proof. vm_compute. reflexivity. Qed.
Print Assumptions namelist_several_refuted.
(** on the line of the header, a string with a slash ends the group and is lost *)
Theorem namelist_header_refuted :
  parse (file_of [t_ "&G file='a/b', n=1"; t_ "  m = 2"; t_ "/"]) = Ok (mkDeck txt (t_ "") [(t_ "G", [card_ "n" (int 1)]); (t_ "  m = 2", []); (t_ "/", [])]).
Proof. vm_compute. reflexivity. Qed.
Print Assumptions namelist_header_refuted.

(** ** C88 *)
(** load_model accounts for every card: a group is empty, unlisted (its name occurred
    before, or the rules do not know it) or loaded; every card of a loaded group is stored
    where it belongs, ignored, or unlinked; the variables hold what was stored in them,
    in order *)
Theorem load_model_accounts : forall F after_setup rules ignore (d : deck F) p0, groups F d <> [] ->
  exists s, load_model F after_setup rules ignore None d p0 = Ok s /\
    l_empty F s = ids F (filter (fun ig => negb (has_cards F (snd ig))) (numbered F (groups F d))) /\
    l_unlisted F s = ids F (filter (fun ig => has_cards F (snd ig) && negb (is_loaded F rules (groups F d) ig)) (numbered F (groups F d))) /\
    l_unlinked F s = flat_map (missing F p0 rules ignore) (looked_at F rules (groups F d)) /\
    forall v, get (l_params F s) v = option_map (fold_left (held F after_setup) (flat_map (stored_in F p0 rules v) (looked_at F rules (groups F d)))) (get p0 v).
Proof.
  intros F after_setup rules ignore d p0 H. destruct (load_model_all F after_setup rules ignore d p0 H) as (s & E & (Hp & Hu) & He & Hul & _).
  exists s. split; [exact E|]. split; [exact He|]. split; [exact Hul|]. split; [exact Hu|exact Hp].
Qed.
Print Assumptions load_model_accounts.
Theorem load_model_needs_groups : forall F after_setup rules ignore single (d : deck F) p0, groups F d = [] ->
  load_model F after_setup rules ignore single d p0 = Err RuntimeError.
Proof. intros. unfold load_model. rewrite H. reflexivity. Qed.
Print Assumptions load_model_needs_groups.

(** a group chosen by its number is loaded even if its name occurred before *)
Theorem load_single_group : forall F after_setup rules ignore i n cs (d : deck F) p0, nth_error (groups F d) i = Some (n, cs) ->
  exists s, load_model F after_setup rules ignore (Some i) d p0 = Ok s /\
    let done := if known F rules (n, cs) then map (pair n) cs else [] in
    l_empty F s = (match cs with [] => [(i, n)] | _ => [] end) /\
    l_unlisted F s = (match cs with [] => [] | _ => if known F rules (n, cs) then [] else [(i, n)] end) /\
    l_unlinked F s = flat_map (missing F p0 rules ignore) done /\
    forall v, get (l_params F s) v = option_map (fold_left (held F after_setup) (flat_map (stored_in F p0 rules v) done)) (get p0 v).
Proof.
  intros F after_setup rules ignore i n cs d p0 H. unfold load_model. destruct (groups F d) as [|g0 gs] eqn:E; [destruct i; discriminate|].
  rewrite H. cbn [bind fold_left]. eexists. split; [reflexivity|]. cbv zeta. unfold load_group.
  assert (Hid : forall v, get p0 v = option_map (fold_left (held F after_setup) []) (get p0 v)) by (intro v; destruct (get p0 v); reflexivity).
  destruct cs as [|c cs].
  - split; [reflexivity|]. split; [reflexivity|]. split; [destruct (known F rules (n, [])); reflexivity|]. intro v. destruct (known F rules (n, [])); apply Hid.
  - set (s1 := mkL F p0 [] [] [] [n]). change (mem n (l_used F (mkL F p0 [] [] [] []))) with false. cbv iota.
    change (mkL F (l_params F (mkL F p0 [] [] [] [])) (l_empty F (mkL F p0 [] [] [] [])) (l_unlisted F (mkL F p0 [] [] [] [])) (l_unlinked F (mkL F p0 [] [] [] [])) (l_used F (mkL F p0 [] [] [] []) ++ [n])) with s1.
    destruct (known F rules (n, c :: cs)) eqn:Ek.
    + destruct (load_cards_known F after_setup rules ignore p0 i n (c :: cs) [] s1) as (B1 & B2 & B3 & B4).
      * unfold known in Ek. cbn [fst] in Ek. destruct rules; [exact I|exact Ek].
      * split; [intro v; apply Hid|reflexivity].
      * rewrite B2, B3. destruct B1 as [Bp Bu]. split; [reflexivity|]. split; [reflexivity|]. split; [exact Bu|exact Bp].
    + assert (Hr : rules <> [] /\ has rules n = false) by (unfold known in Ek; cbn [fst] in Ek; destruct rules; [discriminate|split; [discriminate|exact Ek]]).
      rewrite (load_cards_unknown F after_setup rules ignore i n c cs s1 (proj1 Hr) (proj2 Hr)). split; [reflexivity|]. split; [reflexivity|]. split; [reflexivity|]. intro v. apply Hid.
Qed.
Print Assumptions load_single_group.

(** writing the values of the variables, reading the file and loading it before setup
    restores them *)
Theorem namelist_restores : forall F fshow fread of_int title g cs p0, deck_ok F fshow fread (mkDeck F title [(g, cs)]) -> cs <> [] ->
  (forall c, In c cs -> settled F c /\ has p0 (entry_name F c) = true) -> NoDup (map (entry_name F) cs) ->
  exists file d s, generate F fshow (mkDeck F title [(g, cs)]) = Ok file /\ parse_file F fread of_int file = Ok d /\
    load_model F false [] [] None d p0 = Ok s /\ l_unlinked F s = [] /\ l_empty F s = [] /\ l_unlisted F s = [] /\
    (forall n v, In (Card F n v) cs -> get (l_params F s) n = Some v) /\
    forall n, ~ In n (map (entry_name F) cs) -> get (l_params F s) n = get p0 n.
Proof.
  intros F fshow fread of_int title g cs p0 Hd Hne Hcs Hnd.
  destruct (namelist_kept F fshow fread of_int _ Hd) as (file & E1 & E2). { intros g' c [<-|[]] Hc. apply Hcs. exact Hc. }
  destruct (load_model_accounts F false [] [] (mkDeck F title [(g, cs)]) p0) as (s & E & A1 & A2 & A3 & A4); [discriminate|].
  exists file, (mkDeck F title [(g, cs)]), s. split; [exact E1|]. split; [exact E2|]. split; [exact E|].
  assert (El : looked_at F [] [(g, cs)] = map (pair g) cs).
  { unfold looked_at, numbered. cbn [length seq combine filter]. unfold is_loaded, has_cards. cbn. destruct cs; [congruence|]. cbn. rewrite app_nil_r. reflexivity. }
  cbn [groups] in A1, A2, A3, A4. rewrite El in A3, A4.
  assert (Ht : forall c, In c cs -> target F p0 [] g (entry_name F c) = Some (entry_name F c)).
  { intros c Hc. unfold target, either. cbn. destruct (Hcs c Hc) as [_ ->]. reflexivity. }
  assert (Hcards : has_cards F (g, cs) = true) by (unfold has_cards; cbn; destruct cs; [congruence|reflexivity]).
  split.
  { rewrite A3. clear -Ht. induction cs as [|c cs IH]; [reflexivity|]. cbn [map flat_map]. unfold missing at 1. cbn [fst snd]. rewrite (Ht c (or_introl eq_refl)). cbn [app].
    apply IH. intros x Hx. apply Ht. right. exact Hx. }
  split. { rewrite A1. unfold numbered. cbn [length seq combine filter snd]. rewrite Hcards. reflexivity. }
  split. { rewrite A2. unfold numbered. cbn [length seq combine filter snd]. unfold is_loaded. cbn [snd]. rewrite Hcards. reflexivity. }
  assert (Hsame : forall n l, (forall c, In c l -> In c cs) -> ~ In n (map (entry_name F) l) -> flat_map (stored_in F p0 [] n) (map (pair g) l) = []).
  { intros n l. induction l as [|c l IH]; intros Hl Hn; [reflexivity|]. cbn [map flat_map]. unfold stored_in at 1. cbn [fst snd]. rewrite (Ht c (Hl c (or_introl eq_refl))).
    rewrite text_eqb_neq; [|intro X; apply Hn; left; exact X]. apply IH; [intros x Hx; apply Hl; right; exact Hx|intro X; apply Hn; right; exact X]. }
  split.
  - intros n v Hin. destruct (in_split _ _ Hin) as (a & b & Eab).
    assert (Hkey : has p0 n = true) by (destruct (Hcs _ Hin) as [_ X]; exact X). rewrite A4. unfold has in Hkey. destruct (get p0 n) as [x|]; [|discriminate]. cbn [option_map]. f_equal.
    assert (Hab : ~ In n (map (entry_name F) (a ++ b))). { rewrite Eab, map_app in Hnd. cbn in Hnd. rewrite map_app. apply NoDup_remove_2 in Hnd. exact Hnd. }
    rewrite Eab, map_app, flat_map_app. cbn [map flat_map]. rewrite (Hsame n a), (Hsame n b).
    + unfold stored_in. cbn [fst snd entry_name entry_value]. assert (target F p0 [] g n = Some n) as -> by exact (Ht _ Hin). rewrite text_eqb_refl. cbn.
      destruct x; destruct v as [s'| | | | |]; try reflexivity; destruct s'; reflexivity.
    + intros c Hc. rewrite Eab. apply in_or_app. right. right. exact Hc.
    + intro X. apply Hab. rewrite map_app. apply in_or_app. right. exact X.
    + intros c Hc. rewrite Eab. apply in_or_app. left. exact Hc.
    + intro X. apply Hab. rewrite map_app. apply in_or_app. left. exact X.
  - intros n Hn. rewrite A4, (Hsame n cs); [destruct (get p0 n); reflexivity|intros c Hc; exact Hc|exact Hn].
Qed.
Print Assumptions namelist_restores.
(** an array of one element is restored after setup but is a plain number before *)
Theorem namelist_one_element_refuted :
  exists file d s s', gen (one_group "G" [card_ "x" (Array1 txt [SInt txt 7])]) = Ok file /\ parse file = Ok d /\
    load_model txt false [] [] None d [(t_ "x", Array1 txt [SInt txt 7])] = Ok s /\ get (l_params txt s) (t_ "x") = Some (int 7) /\
    load_model txt true [] [] None d [(t_ "x", Array1 txt [SInt txt 7])] = Ok s' /\ get (l_params txt s') (t_ "x") = Some (Array1 txt [SInt txt 7]).
Proof. do 4 eexists. repeat match goal with |- _ /\ _ => split; [vm_compute; reflexivity|] end. vm_compute; reflexivity. Qed.
Print Assumptions namelist_one_element_refuted.
Example load_ex :
  let d := mkDeck txt [] [(t_ "OPTION", [card_ "INTVAR" (int 777); card_ "extra" (int 5); card_ "skip" (int 6)]); (t_ "NODICT", [card_ "noval" (int 0)]);
                          (t_ "OPTION", [card_ "intvar" (int 1)]); (t_ "FREEFORM", [])] in
  let p0 := [(t_ "a:intvar", int 0); (t_ "b:intvar", int 0)] in
  exists s, load_model txt true [(t_ "OPTION", [t_ "a"; t_ "b"])] [t_ "skip"] None d p0 = Ok s /\
    l_params txt s = [(t_ "a:intvar", int 0); (t_ "b:intvar", int 777)] /\ l_unlinked txt s = [t_ "extra"] /\
    l_empty txt s = [(3, t_ "FREEFORM")] /\ l_unlisted txt s = [(1, t_ "NODICT"); (2, t_ "OPTION")] /\
  exists s', load_model txt true [(t_ "OPTION", [t_ "a"; t_ "b"])] [t_ "skip"] (Some 2) d p0 = Ok s' /\
    l_params txt s' = [(t_ "a:intvar", int 0); (t_ "b:intvar", int 1)].
Proof. eexists. repeat match goal with |- _ /\ _ => split; [vm_compute; reflexivity|] end. eexists. split; [vm_compute; reflexivity|vm_compute; reflexivity]. Qed.
Example restores_ex : exists s, load_model txt false [] [] None deck_ex
    (map (fun c => (entry_name txt c, int 0)) (snd (hd (t_ "", []) (groups txt deck_ex)))) = Ok s /\
  get (l_params txt s) (t_ "n") = Some (int (-12)) /\ l_empty txt s = [(1, t_ "  free form")].
Proof. eexists. repeat match goal with |- _ /\ _ => split; [vm_compute; reflexivity|] end. vm_compute; reflexivity. Qed.

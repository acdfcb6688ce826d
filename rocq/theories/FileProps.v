(** Theorems about file wrapping (C54-C57, C68-C71). *)
From Verif Require Import Base FileModel FileSpec FileProofs FileProofs2.
Local Open Scope string_scope.
Local Open Scope nat_scope.
Local Open Scope list_scope.

Definition txt (s : string) : text := list_ascii_of_string s.
Definition blank : ascii -> bool := in_ranges [(" "%char, " "%char); (newline_char, newline_char)].
Definition row (s : string) : text := txt s ++ [newline_char].

(** ** C54 *)
(** every line is laid out in exactly one way *)
Theorem layout_unique : forall isd line, exists l, laid_out isd l line /\ forall l', laid_out isd l' line -> l' = l.
Proof. intros isd line. destruct (layout_exists isd line) as [l H]. exists l. split; [exact H|]. intros l' H'. exact (layout_unique_l _ _ _ _ H' H). Qed.
Print Assumptions layout_unique.

(** The addressed field is replaced by the text of the value; the fields before and
    after it, all gaps, all other lines, the anchor and the number of lines stay. *)
Theorem transfer_var_only_field : forall V isd (fmt : V -> res text) g value offset i line g0 a w gp b v,
    (Z.of_nat (current_row g) + offset = Z.of_nat i)%Z -> nth_error (data g) i = Some line ->
    laid_out isd (g0, a ++ (w, gp) :: b) line -> fmt value = Ok v ->
    exists g', transfer_var isd fmt g value offset (Z.of_nat (length a) + 1) = Ok g' /\
      nth_error (data g') i = Some (g0 ++ flat_fields a ++ v ++ gp ++ flat_fields b) /\
      line = g0 ++ flat_fields a ++ w ++ gp ++ flat_fields b /\
      only_line i (data g) (data g') /\ current_row g' = current_row g /\ anchored g' = anchored g.
Proof.
  intros V isd fmt g value offset i line g0 a w gp b v HI HL HO HF.
  assert (Hi : i < length (data g)) by (apply nth_error_Some; congruence).
  assert (FL : forall x, flat (g0, a ++ (x, gp) :: b) = g0 ++ flat_fields a ++ x ++ gp ++ flat_fields b).
  { intros x. unfold flat, flat_fields. cbn [fst snd]. rewrite flat_map_app. cbn [flat_map fst snd]. rewrite <- !app_assoc. reflexivity. }
  eexists. split; [apply (transfer_var_at V isd fmt g value offset i line a w gp b g0 v); auto; rewrite HI; apply py_index_nat; exact Hi|].
  cbn [with_data data current_row anchored]. split; [rewrite set_nth_same by exact Hi; rewrite FL; reflexivity|].
  split; [destruct HO as (-> & _); apply FL|]. split; [|auto]. split; [apply set_nth_length|]. intros j Hj. apply set_nth_other. exact Hj.
Qed.
Print Assumptions transfer_var_only_field.

(** A value that is a field leaves a line with the same gaps, and the same fields
    but the addressed one. *)
Theorem transfer_var_fields : forall isd g0 a w gp b line v, laid_out isd (g0, a ++ (w, gp) :: b) line -> is_field isd v ->
    laid_out isd (g0, a ++ (v, gp) :: b) (g0 ++ flat_fields a ++ v ++ gp ++ flat_fields b).
Proof.
  intros isd g0 a w gp b line v H Hv. pose proof (laid_out_replace isd g0 a w gp b line v H Hv) as K. unfold flat, flat_fields in K |- *. cbn [fst snd] in K.
  rewrite flat_map_app in K. cbn [flat_map fst snd] in K. rewrite <- !app_assoc in K. exact K.
Qed.
Print Assumptions transfer_var_fields.

(** a field that is not there: nothing changes, and there is no error *)
Theorem transfer_var_missing_field : forall V isd (fmt : V -> res text) g value offset i line l k,
    (Z.of_nat (current_row g) + offset = Z.of_nat i)%Z -> nth_error (data g) i = Some line ->
    laid_out isd l line -> (k < 1 \/ Z.of_nat (length (snd l)) < k)%Z -> transfer_var isd fmt g value offset k = Ok g.
Proof.
  intros V isd fmt g value offset i line l k HI HL HO HK. assert (Hi : i < length (data g)) by (apply nth_error_Some; congruence).
  rewrite (transfer_var_none V isd fmt g value offset i line l k); auto; [|rewrite HI; apply py_index_nat; exact Hi].
  rewrite (set_nth_id _ _ _ _ HL). destruct g. reflexivity.
Qed.
Print Assumptions transfer_var_missing_field.

Theorem transfer_var_row_out_of_range : forall V isd (fmt : V -> res text) g value offset k,
    (Z.of_nat (current_row g) + offset < - Z.of_nat (length (data g)) \/ Z.of_nat (length (data g)) <= Z.of_nat (current_row g) + offset)%Z ->
    transfer_var isd fmt g value offset k = Err IndexError.
Proof. intros V isd fmt g value offset k H. unfold transfer_var, py_get. rewrite py_index_none by exact H. reflexivity. Qed.
Print Assumptions transfer_var_row_out_of_range.

(** a row before the first line of the file changes a line counted from the end *)
Theorem transfer_var_before_start_refuted : exists g g' i, current_row g = 0 /\
    transfer_var blank (fun t : text => Ok t) g (txt "9") (-1) 1 = Ok g' /\ i = length (data g) - 1 /\ nth_error (data g') i <> nth_error (data g) i.
Proof. exists (mkGen [row "a 1"; row "b 2"] 0 false). eexists. exists 1. split; [reflexivity|]. split; [reflexivity|]. split; [reflexivity|]. discriminate. Qed.
Print Assumptions transfer_var_before_start_refuted.

Example transfer_var_case : transfer_var blank (fun t : text => Ok t) (mkGen [row "x"; row "anchor"; row " 1 2  3 "] 1 true) (txt "999") 1 2
    = Ok (mkGen [row "x"; row "anchor"; row " 1 999  3 "] 1 true) /\
    laid_out blank (txt " ", [(txt "1", txt " ")] ++ (txt "2", txt "  ") :: [(txt "3", row " ")]) (row " 1 2  3 ").
Proof.
  split; [reflexivity|]. split; [reflexivity|]. split; [repeat constructor|]. cbn. split; [|repeat split; discriminate].
  repeat (constructor; [split; [split; [discriminate|repeat constructor]|repeat constructor]|]). constructor.
Qed.

(** ** C55 *)
(** What filling does to one line: the addressed fields hold the values, in order,
    as far as there are any; the other fields and all gaps stay; the values that
    found no field are left over. *)
Theorem fill_in_order : forall fs fe ws n vals,
    let o := fill fs fe n ws vals in
    let c := length (addressed fs fe n ws) in
    addressed fs fe n (fst o) = firstn c vals ++ skipn (length vals) (addressed fs fe n ws) /\
    snd o = skipn c vals /\ map snd (fst o) = map snd ws /\ unaddressed fs fe n (fst o) = unaddressed fs fe n ws.
Proof. exact fill_facts. Qed.
Print Assumptions fill_in_order.

(** The lines before and after the addressed ones stay; the addressed ones are
    filled; values left over are appended to the last one; it gets one more newline
    character in any case. *)
Theorem transfer_array_fills_partial : forall V isd (fmt : V -> res text) str g values vals before lines after ls row_start fs fe sep,
    Forall2 (fun v t => fmt v = Ok t) values vals -> data g = before ++ lines ++ after -> Forall2 (laid_out isd) ls lines -> ls <> [] ->
    (Z.of_nat (current_row g) + row_start = Z.of_nat (length before))%Z ->
    let o := fill_lines fs fe ls vals in
    exists newlast,
      transfer_array isd fmt str g values row_start fs fe (Some (row_start + Z.of_nat (length ls) - 1)%Z) sep =
        Ok (with_data g (before ++ map flat (removelast (fst o)) ++ [newlast] ++ after)) /\
      (snd o = [] -> newlast = flat (List.last (fst o) ([], [])) ++ [newline_char]) /\
      (snd o <> [] -> newlast = fold_left (fun l t => rstrip l ++ sep ++ t) (map str (skipn (length vals - length (snd o)) values)) (flat (List.last (fst o) ([], []))) ++ [newline_char]).
Proof. exact transfer_array_l. Qed.
Print Assumptions transfer_array_fills_partial.

(** An array too small for the addressed fields is no error: the fields that are
    left keep the text of the template. *)
Theorem transfer_array_too_small_refuted : exists g g', 
    transfer_array blank (fun t : text => Ok t) (fun t => t) g [txt "7"] 0 1 3 None (txt ", ") = Ok g' /\ data g = [row "1 2 3"] /\
    data g' = [row "7 2 3" ++ [newline_char]].
Proof. exists (mkGen [row "1 2 3"] 0 false). eexists. split; [reflexivity|]. split; reflexivity. Qed.
Print Assumptions transfer_array_too_small_refuted.
(** An array that fits exactly adds an empty line to the generated file. *)
Theorem transfer_array_adds_line_refuted : exists g g', 
    transfer_array blank (fun t : text => Ok t) (fun t => t) g [txt "7"; txt "8"] 0 1 2 None (txt ", ") = Ok g' /\ data g = [row "1 2"; row "x"] /\
    concat (data g') = concat [row "7 8"; []; row ""; row "x"].
Proof. exists (mkGen [row "1 2"; row "x"] 0 false). eexists. split; [reflexivity|]. split; reflexivity. Qed.
Print Assumptions transfer_array_adds_line_refuted.
(** whatever the array, the error for small arrays is never raised *)
Theorem transfer_array_never_too_small : forall V isd (fmt : V -> res text) str g values vals before lines after ls row_start fs fe sep,
    Forall2 (fun v t => fmt v = Ok t) values vals -> data g = before ++ lines ++ after -> Forall2 (laid_out isd) ls lines -> ls <> [] ->
    (Z.of_nat (current_row g) + row_start = Z.of_nat (length before))%Z ->
    transfer_array isd fmt str g values row_start fs fe (Some (row_start + Z.of_nat (length ls) - 1)%Z) sep <> Err ValueError.
Proof.
  intros V isd fmt str g values vals before lines after ls row_start fs fe sep HV HD HL HN HR E.
  destruct (transfer_array_l V isd fmt str g values vals before lines after ls row_start fs fe sep HV HD HL HN HR) as (nl & E' & _). congruence.
Qed.
Print Assumptions transfer_array_never_too_small.
Theorem transfer_array_no_rows : forall V isd (fmt : V -> res text) str g values row_start fs fe row_end sep, (row_end < row_start)%Z ->
    transfer_array isd fmt str g values row_start fs fe (Some row_end) sep = Err NameError.
Proof.
  intros V isd fmt str g values row_start fs fe row_end sep H. unfold transfer_array, py_range.
  replace (Z.to_nat (row_end + 1 - row_start)) with 0 by lia. reflexivity.
Qed.
Print Assumptions transfer_array_no_rows.

Example transfer_array_case : transfer_array blank (fun t : text => Ok t) (fun t => t) (mkGen [row "k"; row "1 2 3"; row "4 5"; row "z"] 0 false)
    [txt "a"; txt "b"; txt "c"; txt "d"; txt "e"] 1 2 2 (Some 2%Z) (txt ", ") = Ok (mkGen [row "k"; row "1 a b"; row "c d, e"; row "z"] 0 false).
Proof. reflexivity. Qed.

(** ** C56 *)
(** without an anchor: the n-th line holding the text, from the start or the end *)
Theorem mark_anchor_forward : forall g anchor n, anchored g = false -> 1 <= n ->
    (forall k, nth_hit (occurs anchor) n (skipn (current_row g) (data g)) k -> mark_anchor g anchor (Z.of_nat n) = Ok (mkGen (data g) (current_row g + k) true)) /\
    ((forall k, ~ nth_hit (occurs anchor) n (skipn (current_row g) (data g)) k) -> mark_anchor g anchor (Z.of_nat n) = Err RuntimeError).
Proof. exact forward_l. Qed.
Print Assumptions mark_anchor_forward.
Theorem mark_anchor_backward : forall g anchor n, anchored g = false -> 1 <= n ->
    (forall k, nth_hit (occurs anchor) n (rev (data g)) k -> mark_anchor g anchor (- Z.of_nat n) = Ok (mkGen (data g) (length (data g) - 1 - k) true)) /\
    ((forall k, ~ nth_hit (occurs anchor) n (rev (data g)) k) -> mark_anchor g anchor (- Z.of_nat n) = Err RuntimeError).
Proof. exact backward_l. Qed.
Print Assumptions mark_anchor_backward.
(** From an anchor: the anchored line itself never counts, whatever follows the
    anchor in it. *)
Theorem mark_anchor_forward_anchored_partial : forall g anchor n, anchored g = true -> anchor <> [] -> 1 <= n -> current_row g < length (data g) ->
    (forall k, nth_hit (occurs anchor) n (skipn (S (current_row g)) (data g)) k -> mark_anchor g anchor (Z.of_nat n) = Ok (mkGen (data g) (S (current_row g) + k) true)) /\
    ((forall k, ~ nth_hit (occurs anchor) n (skipn (S (current_row g)) (data g)) k) -> mark_anchor g anchor (Z.of_nat n) = Err RuntimeError).
Proof. exact forward_anch_l. Qed.
Print Assumptions mark_anchor_forward_anchored_partial.
(** Backwards with an anchor anywhere: the last line of the file never counts. *)
Theorem mark_anchor_backward_anchored_partial : forall g anchor n d l, anchored g = true -> anchor <> [] -> 1 <= n -> data g = d ++ [l] ->
    (forall k, nth_hit (occurs anchor) n (rev d) k -> mark_anchor g anchor (- Z.of_nat n) = Ok (mkGen (data g) (length d - 1 - k) true)) /\
    ((forall k, ~ nth_hit (occurs anchor) n (rev d) k) -> mark_anchor g anchor (- Z.of_nat n) = Err RuntimeError).
Proof. exact backward_anch_l. Qed.
Print Assumptions mark_anchor_backward_anchored_partial.
(** the n-th line, if any, is unique, and whether there is one can be decided *)
Theorem nth_hit_unique : forall anchor n lines, 1 <= n ->
    (exists k, nth_hit (occurs anchor) n lines k /\ forall k', nth_hit (occurs anchor) n lines k' -> k' = k) \/ (forall k, ~ nth_hit (occurs anchor) n lines k).
Proof.
  intros anchor n lines Hn. destruct (hit_dec anchor lines n Hn) as [[k H]|H]; [left|right; exact H].
  exists k. split; [exact H|]. intros k' H'. exact (hit_unique _ _ _ _ H' _ H).
Qed.
Print Assumptions nth_hit_unique.
Theorem mark_anchor_zero : forall g anchor, mark_anchor g anchor 0 = Err ValueError.
Proof. reflexivity. Qed.
Print Assumptions mark_anchor_zero.

(** Searching another text from an anchor: it stands in the anchored line, after
    the anchor, and yet is not found. *)
Theorem anchored_line_skipped_refuted : exists g1 a b,
    mark_anchor (mkGen [row "key a then b"; row "x"] 0 false) a 1 = Ok g1 /\ occurs (a ++ txt " then " ++ b) (row "key a then b") /\
    mark_anchor g1 b 1 = Err RuntimeError.
Proof.
  exists (mkGen [row "key a then b"; row "x"] 0 true), (txt "a"), (txt "b"). split; [reflexivity|].
  split; [|reflexivity]. exists (txt "key "), [newline_char]. reflexivity.
Qed.
Print Assumptions anchored_line_skipped_refuted.
(** "Reverse searches always start at the end of the file no matter the state of
    any previous anchor" *)
Theorem backward_ignores_anchor_refuted : exists g anchor, 
    mark_anchor g anchor (-1) = Ok (mkGen (data g) 0 true) /\ mark_anchor (reset_anchor g) anchor (-1) = Ok (mkGen (data g) 2 true).
Proof. exists (mkGen [row "a"; row "x"; row "a"] 1 true), (txt "a"). split; reflexivity. Qed.
Print Assumptions backward_ignores_anchor_refuted.

Example mark_anchor_case : mark_anchor (mkGen [row "a"; row "b"; row "ab"; row "a"] 0 false) (txt "a") 2 = Ok (mkGen [row "a"; row "b"; row "ab"; row "a"] 2 true) /\
    mark_anchor (mkGen [row "a"; row "b"; row "ab"; row "a"] 0 false) (txt "b") (-1) = Ok (mkGen [row "a"; row "b"; row "ab"; row "a"] 2 true) /\
    mark_anchor (mkGen [row "a"; row "b"; row "ab"; row "a"] 2 true) (txt "a") 1 = Ok (mkGen [row "a"; row "b"; row "ab"; row "a"] 3 true).
Proof. split; [|split]; reflexivity. Qed.

(** ** C57 *)
Theorem keyvar_forward : forall T (parse : text -> res (list T)) mark g key field n off k, 1 <= n ->
    nth_hit (occurs key) n (skipn (current_row g) (data g)) k ->
    transfer_keyvar parse mark g key field (Z.of_nat n) off =
      let! line := py_get (data g) (Z.of_nat (current_row g + k) + off) in let! fields := parse (mark line) in py_get fields field.
Proof. exact keyvar_forward_l. Qed.
Print Assumptions keyvar_forward.
Theorem keyvar_forward_missing : forall T (parse : text -> res (list T)) mark g key field n off, 1 <= n -> current_row g <= length (data g) -> (0 <= off)%Z ->
    (forall k, ~ nth_hit (occurs key) n (skipn (current_row g) (data g)) k) -> transfer_keyvar parse mark g key field (Z.of_nat n) off = Err IndexError.
Proof. exact keyvar_forward_none_l. Qed.
Print Assumptions keyvar_forward_missing.
(** backwards, when the anchor is in the first line of the file *)
Theorem keyvar_backward_partial : forall T (parse : text -> res (list T)) mark g key field n k, 1 <= n -> current_row g = 0 ->
    nth_hit (occurs key) n (rev (data g)) k ->
    transfer_keyvar parse mark g key field (- Z.of_nat n) 0 =
      let! line := py_get (data g) (Z.of_nat (length (data g) - 1 - k)) in let! fields := parse (mark line) in py_get fields field.
Proof.
  intros T parse mark g key field n k Hn HR H. pose proof (hit_bound _ _ _ _ H) as B. rewrite rev_length in B.
  rewrite (keyvar_backward_l T parse mark g key field n k 0 Hn) by (rewrite HR; exact H). rewrite HR.
  replace (Z.of_nat 0 - 1 - Z.of_nat k + 0)%Z with (-1 - Z.of_nat k)%Z by lia. rewrite py_get_neg by exact B. reflexivity.
Qed.
Print Assumptions keyvar_backward_partial.
(** backwards from an anchor further down, a line before the anchor is read *)
Theorem keyvar_backward_refuted : exists g, 
    nth_hit (occurs (txt "K")) 1 (rev (skipn (current_row g) (data g))) 0 /\ nth_error (data g) 2 = Some (row "K 5") /\
    transfer_keyvar (fun l => Ok [l]) (fun l => l) g (txt "K") 0 (-1) 0 = Ok (row "junk").
Proof.
  exists (mkGen [row "junk"; row "anchor"; row "K 5"] 1 true). split; [|split; reflexivity]. apply hit_here. exists [], (row " 5"). reflexivity.
Qed.
Print Assumptions keyvar_backward_refuted.
(** a key that is nowhere: with a negative row offset some line is read *)
Theorem keyvar_missing_refuted : exists g, (forall k, ~ nth_hit (occurs (txt "K")) 1 (data g) k) /\
    transfer_keyvar (fun l => Ok [l]) (fun l => l) g (txt "K") 0 1 (-1) = Ok (row "b").
Proof.
  exists (mkGen [row "a"; row "b"] 0 false). split; [|reflexivity]. intros k H.
  assert (N : forall l, contains (txt "K") l = false -> ~ occurs (txt "K") l) by (intros l C; apply contains_not; exact C).
  cbn [data] in H. inversion H as [? ? P| |? ? ? ? NP H1]; subst; [exact (N (row "a") eq_refl P)|].
  inversion H1 as [? ? P| |? ? ? ? NP2 H2]; subst; [exact (N (row "b") eq_refl P)|]. inversion H2.
Qed.
Print Assumptions keyvar_missing_refuted.
Theorem keyvar_zero : forall T (parse : text -> res (list T)) mark g key field off, transfer_keyvar parse mark g key field 0 off = Err ValueError.
Proof. reflexivity. Qed.
Print Assumptions keyvar_zero.

Example keyvar_case : transfer_keyvar (fun l => Ok [l]) (fun l => l) (mkGen [row "K 1"; row "at"; row "K 2"; row "K 3"] 1 true) (txt "K") 0 2 0 = Ok (row "K 3").
Proof. reflexivity. Qed.

(** ** C68 *)
Theorem comments_removed_partial : forall sep full lines, sep <> [] -> Forall (fun l => l <> []) lines ->
    exists out, set_file (Some sep) full lines = Ok out /\ kept sep full lines out.
Proof.
  intros sep full lines Hs HF. destruct (keep_lines_spec sep full lines Hs HF) as (out & E & K). exists out. split; [|exact K].
  unfold set_file. destruct sep; [congruence|]. exact E.
Qed.
Print Assumptions comments_removed_partial.
Theorem no_comments_keeps_file : forall lines, set_file None None lines = Ok lines.
Proof. reflexivity. Qed.
Print Assumptions no_comments_keeps_file.
(** with only a full-line comment character, the other lines are cut after their
    first word *)
Theorem full_line_comments_only_refuted : exists out, set_file None (Some (txt "#")) [row "# c"; row "a 1 2"] = Ok out /\ out = [txt "a"].
Proof. eexists. split; reflexivity. Qed.
Print Assumptions full_line_comments_only_refuted.
(** … and a blank line is an error *)
Theorem full_line_comments_blank_refuted : set_file None (Some (txt "#")) [row "a 1"; row ""] = Err IndexError.
Proof. reflexivity. Qed.
Print Assumptions full_line_comments_blank_refuted.
Example comments_case : set_file (Some (txt "!")) (Some (txt "#")) [row "a ! b"; row "# c"; row "d"] = Ok [txt "a "; row "d"].
Proof. reflexivity. Qed.

(** ** C69 *)
Theorem read_array_range_partial : forall T (parse : text -> res (list T)) g before lines after fss rowstart fs fe,
    data g = before ++ lines ++ after -> lines <> [] -> (Z.of_nat (current_row g) + rowstart = Z.of_nat (length before))%Z ->
    Forall2 (fun l f => parse l = Ok f) lines fss -> 1 <= fe -> (length lines = 1 -> fs <= fe) ->
    read_array parse g rowstart (Z.of_nat fs + 1) (Some (rowstart + Z.of_nat (length lines) - 1)%Z) (Some (Z.of_nat fe)) = Ok (field_range fs fe fss).
Proof. exact read_array_l. Qed.
Print Assumptions read_array_range_partial.
(** rows or fields beyond the end are left out silently *)
Theorem read_array_truncates_refuted : exists g, data g = [txt "ab"] /\
    read_array (fun l => Ok l) g 0 1 (Some 3%Z) (Some 5%Z) = Ok (txt "ab").
Proof. exists (mkGen [txt "ab"] 0 false). split; reflexivity. Qed.
Print Assumptions read_array_truncates_refuted.
Theorem read_array_needs_end : forall T (parse : text -> res (list T)) g rowstart fs rowend, read_array parse g rowstart fs rowend None = Err ValueError.
Proof. reflexivity. Qed.
Print Assumptions read_array_needs_end.
Example read_array_case : read_array (fun l => Ok l) (mkGen [txt "xx"; txt "abc"; txt "def"; txt "ghi"] 1 true) 0 2 (Some 2%Z) (Some 1%Z) = Ok (txt "bcdefg").
Proof. reflexivity. Qed.

(** ** C70 *)
Theorem read_2Darray_block_partial : forall T (parse : text -> res (list T)) zero g before lines after fss rowstart fs fe,
    data g = before ++ lines ++ after -> lines <> [] -> (Z.of_nat (current_row g) + rowstart = Z.of_nat (length before))%Z ->
    Forall2 (fun l f => parse l = Ok f) lines fss -> fs < fe -> Forall (fun f => fe <= length f) fss ->
    read_2Darray parse zero g rowstart (Z.of_nat fs + 1) (rowstart + Z.of_nat (length lines) - 1) (Some (Z.of_nat fe)) = Ok (map (fun f => firstn (fe - fs) (skipn fs f)) fss).
Proof. exact read_2D_l. Qed.
Print Assumptions read_2Darray_block_partial.
(** short rows and rows beyond the end are read as zeros, a row of one number is
    repeated *)
Theorem read_2Darray_short_rows_refuted : exists g, data g = [txt "abc"; txt "de"; txt "f"] /\
    read_2Darray (fun l => Ok l) "0"%char g 0 1 3 (Some 3%Z) = Ok [txt "abc"; txt "000"; txt "fff"; txt "000"].
Proof. exists (mkGen [txt "abc"; txt "de"; txt "f"] 0 false). split; reflexivity. Qed.
Print Assumptions read_2Darray_short_rows_refuted.
Example read_2Darray_case : read_2Darray (fun l => Ok l) "0"%char (mkGen [txt "x"; txt "abc"; txt "def"] 1 true) 0 2 1 (Some 3%Z) = Ok [txt "bc"; txt "ef"].
Proof. reflexivity. Qed.

(** ** C71 *)
Theorem plain_delimiters_partial : forall d, plain d -> exists isd, set_delimiters d = Some isd /\ forall c, isd c = true <-> (In c d \/ c = newline_char).
Proof.
  intros d H. unfold set_delimiters. rewrite class_plain.
  - eexists. split; [reflexivity|]. intros c. rewrite in_ranges_plain, in_app_iff. cbn. intuition congruence.
  - apply Forall_app. split; [|constructor; [discriminate|constructor]]. revert H. apply Forall_impl. intros a Ha. exact (proj1 Ha).
Qed.
Print Assumptions plain_delimiters_partial.
(** a minus sign between two characters makes all characters between them
    delimiters; here decimal points *)
Theorem minus_delimiter_refuted : exists isd, set_delimiters (txt "+-/") = Some isd /\ ~ In "."%char (txt "+-/") /\ isd "."%char = true.
Proof. eexists. split; [reflexivity|]. split; [|reflexivity]. cbn. intros H. repeat (destruct H as [H|H]; [discriminate|]). exact H. Qed.
Print Assumptions minus_delimiter_refuted.
(** … and a bad range is an error of the re module: a blank followed by a minus
    makes a range up to the newline character *)
Theorem minus_last_refuted : set_delimiters (txt " -") = None.
Proof. reflexivity. Qed.
Print Assumptions minus_last_refuted.
Example delimiters_case : exists isd, set_delimiters (txt ", ") = Some isd /\ map isd (txt "a, b") = [false; true; true; false].
Proof. eexists. split; reflexivity. Qed.

(** ** C54: clearline empties exactly the addressed line *)
Theorem clearline_only_line : forall g offset i, (Z.of_nat (current_row g) + offset = Z.of_nat i)%Z -> i < length (data g) ->
    exists g', clearline g offset = Ok g' /\ nth_error (data g') i = Some [newline_char] /\
      only_line i (data g) (data g') /\ current_row g' = current_row g /\ anchored g' = anchored g.
Proof.
  intros g offset i HI Hi. unfold clearline. rewrite HI, py_index_nat by exact Hi. eexists. split; [reflexivity|].
  cbn [with_data data current_row anchored]. split; [apply set_nth_same; exact Hi|]. split; [|auto].
  split; [apply set_nth_length|]. intros j Hj. apply set_nth_other. exact Hj.
Qed.
Print Assumptions clearline_only_line.
Example clearline_case : clearline (mkGen [row "a"; row "b"; row "c"] 2 true) (-1) = Ok (mkGen [row "a"; row ""; row "c"] 2 true).
Proof. reflexivity. Qed.

(** ** C75 *)
(** row i of the array fills the addressed fields of line i; everything else stays.
    What fill does to a line is fill_in_order *)
Theorem transfer_2Darray_fills_partial : forall V isd (fmt : V -> res text) g values vals before lines after ls row_start fs fe,
    Forall2 (Forall2 (fun v t => fmt v = Ok t)) values vals -> data g = before ++ lines ++ after -> Forall2 (laid_out isd) ls lines ->
    length ls <= length values -> (Z.of_nat (current_row g) + row_start = Z.of_nat (length before))%Z ->
    transfer_2Darray isd fmt g values row_start (row_start + Z.of_nat (length ls) - 1) fs fe =
      Ok (with_data g (before ++ map flat (fill_rows fs fe ls vals) ++ after)).
Proof.
  intros V isd fmt g values vals before lines after ls row_start fs fe HV HD HL HN HR. unfold transfer_2Darray.
  replace (py_range row_start (row_start + Z.of_nat (length ls) - 1 + 1)) with (map (fun k => (row_start + Z.of_nat k)%Z) (seq 0 (length ls))).
  2:{ unfold py_range. do 2 f_equal. lia. }
  rewrite HD. rewrite (array2_rows_spec V isd fmt fs fe (current_row g) ls lines before after row_start values vals HL HN HV HR). reflexivity.
Qed.
Print Assumptions transfer_2Darray_fills_partial.
(** an array with fewer rows than are addressed is an error *)
Theorem transfer_2Darray_few_rows : forall V isd (fmt : V -> res text) g values vals before lines after ls row_start fs fe,
    Forall2 (Forall2 (fun v t => fmt v = Ok t)) values vals -> data g = before ++ lines ++ after -> Forall2 (laid_out isd) ls lines ->
    length values < length ls -> (Z.of_nat (current_row g) + row_start = Z.of_nat (length before))%Z ->
    transfer_2Darray isd fmt g values row_start (row_start + Z.of_nat (length ls) - 1) fs fe = Err IndexError.
Proof.
  intros V isd fmt g values vals before lines after ls row_start fs fe HV HD HL HN HR. unfold transfer_2Darray.
  replace (py_range row_start (row_start + Z.of_nat (length ls) - 1 + 1)) with (map (fun k => (row_start + Z.of_nat k)%Z) (seq 0 (length ls))).
  2:{ unfold py_range. do 2 f_equal. lia. }
  rewrite HD. rewrite (array2_rows_short V isd fmt fs fe (current_row g) ls lines before after row_start values vals HL HN HV HR). reflexivity.
Qed.
Print Assumptions transfer_2Darray_few_rows.
(** rows, and entries of rows, that do not fit are left out silently *)
Theorem transfer_2Darray_truncates_refuted : exists g g',
    transfer_2Darray blank (fun t : text => Ok t) g [[txt "1"; txt "2"; txt "3"]; [txt "4"; txt "5"; txt "6"]; [txt "7"; txt "8"; txt "9"]] 0 1 1 3 = Ok g' /\
    data g = [row "a b"; row "c d e"] /\ data g' = [row "1 2"; row "4 5 6"].
Proof. exists (mkGen [row "a b"; row "c d e"] 0 false). eexists. split; [vm_compute; reflexivity|]. split; reflexivity. Qed.
Print Assumptions transfer_2Darray_truncates_refuted.
(** and so are values that are missing: the template's own text stays *)
Theorem transfer_2Darray_too_small_refuted : exists g g',
    transfer_2Darray blank (fun t : text => Ok t) g [[txt "1"]] 0 0 1 3 = Ok g' /\ data g = [row "a b c"] /\ data g' = [row "1 b c"].
Proof. exists (mkGen [row "a b c"] 0 false). eexists. split; [vm_compute; reflexivity|]. split; reflexivity. Qed.
Print Assumptions transfer_2Darray_too_small_refuted.
Example transfer_2Darray_case : transfer_2Darray blank (fun t : text => Ok t) (mkGen [row "k"; row "x 1 2"; row "y 3 4"; row "z"] 0 false)
    [[txt "11"; txt "12"]; [txt "13"; txt "14"]] 1 2 2 3 = Ok (mkGen [row "k"; row "x 11 12"; row "y 13 14"; row "z"] 0 false).
Proof. vm_compute. reflexivity. Qed.

(** ** C76 *)
(** field number k (from 1) of the addressed line is returned; a field or a line
    beyond the end is an error *)
Theorem read_var_field : forall T (parse : text -> res (list T)) g offset i line fields k x,
    (Z.of_nat (current_row g) + offset = Z.of_nat i)%Z -> nth_error (data g) i = Some line -> parse line = Ok fields ->
    nth_error fields k = Some x -> read_var parse g offset (Z.of_nat k + 1) = Ok x.
Proof.
  intros T parse g offset i line fields k x HI HL HP HX. unfold read_var. rewrite HI, (py_get_nat _ _ _ _ HL). cbn [bind]. rewrite HP. cbn [bind].
  replace (Z.of_nat k + 1 - 1)%Z with (Z.of_nat k) by lia. apply py_get_nat. exact HX.
Qed.
Print Assumptions read_var_field.
Theorem read_var_missing : forall T (parse : text -> res (list T)) g offset i line fields k,
    (Z.of_nat (current_row g) + offset = Z.of_nat i)%Z -> nth_error (data g) i = Some line -> parse line = Ok fields ->
    length fields <= k -> read_var parse g offset (Z.of_nat k + 1) = Err IndexError.
Proof.
  intros T parse g offset i line fields k HI HL HP HX. unfold read_var. rewrite HI, (py_get_nat _ _ _ _ HL). cbn [bind]. rewrite HP. cbn [bind].
  unfold py_get. rewrite py_index_none by lia. reflexivity.
Qed.
Print Assumptions read_var_missing.
Theorem read_var_no_line : forall T (parse : text -> res (list T)) g offset field,
    (Z.of_nat (length (data g)) <= Z.of_nat (current_row g) + offset)%Z -> read_var parse g offset field = Err IndexError.
Proof. intros T parse g offset field H. unfold read_var, py_get at 1. rewrite py_index_none by lia. reflexivity. Qed.
Print Assumptions read_var_no_line.
(** a line before the start, and field zero, are read from the end *)
Theorem read_var_wraps_refuted : exists g, data g = [txt "ab"; txt "cd"] /\ current_row g = 0 /\
    read_var (fun l => Ok l) g (-1) 1 = Ok "c"%char /\ read_var (fun l => Ok l) g 0 0 = Ok "b"%char.
Proof. exists (mkGen [txt "ab"; txt "cd"] 0 false). repeat split; reflexivity. Qed.
Print Assumptions read_var_wraps_refuted.
Example read_var_case : read_var (fun l => Ok l) (mkGen [txt "xy"; txt "abc"] 0 true) 1 2 = Ok "b"%char.
Proof. reflexivity. Qed.

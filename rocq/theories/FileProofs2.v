(** More lemmas about file wrapping. *)
From Verif Require Import Base FileModel FileSpec FileProofs.
Local Open Scope nat_scope.

Lemma fill_facts : forall fs fe ws n vals,
    let o := fill fs fe n ws vals in
    let c := length (addressed fs fe n ws) in
    addressed fs fe n (fst o) = firstn c vals ++ skipn (length vals) (addressed fs fe n ws) /\
    snd o = skipn c vals /\ map snd (fst o) = map snd ws /\ unaddressed fs fe n (fst o) = unaddressed fs fe n ws.
Proof.
  intros fs fe. induction ws as [|[w g] ws IH]; intros n vals; cbv zeta.
  - cbn. destruct vals; auto.
  - cbn [fill addressed unaddressed]. destruct ((fs <=? Z.of_nat n)%Z && (Z.of_nat n <=? fe)%Z) eqn:E.
    + destruct vals as [|v vals].
      * destruct (IH (S n) []) as (H1 & H2 & H3 & H4). cbn [fst snd addressed unaddressed length map]. rewrite E. cbn [firstn skipn length app] in *.
        rewrite H2, H3, H4. cbn [length] in *. rewrite firstn_nil in H1. cbn [app skipn] in H1. rewrite H1. rewrite !skipn_nil. auto.
      * destruct (IH (S n) vals) as (H1 & H2 & H3 & H4). cbn [fst snd addressed unaddressed length map]. rewrite E. cbn [firstn skipn length app].
        rewrite H1, H2, H3, H4. auto.
    + destruct (IH (S n) vals) as (H1 & H2 & H3 & H4). cbn [fst snd addressed unaddressed length map]. rewrite E. rewrite H1, H2, H3, H4. auto.
Qed.

Lemma fill_lines_length : forall fe ls fs vs, length (fst (fill_lines fs fe ls vs)) = length ls.
Proof. intros fe. induction ls as [|y ys IH]; intros fs vs; cbn; [reflexivity|]. rewrite IH. reflexivity. Qed.

Lemma map_fold_str : forall V (str : V -> text) sep vs l, fold_left (fun l v => rstrip l ++ sep ++ str v) vs l = fold_left (fun l t => rstrip l ++ sep ++ t) (map str vs) l.
Proof. intros V str sep. induction vs as [|v vs IH]; intros l; cbn; auto. Qed.

Lemma transfer_array_l : forall V isd (fmt : V -> res text) str g values vals before lines after ls row_start fs fe sep,
    Forall2 (fun v t => fmt v = Ok t) values vals -> data g = before ++ lines ++ after -> Forall2 (laid_out isd) ls lines -> ls <> [] ->
    (Z.of_nat (current_row g) + row_start = Z.of_nat (length before))%Z ->
    let o := fill_lines fs fe ls vals in
    exists newlast,
      transfer_array isd fmt str g values row_start fs fe (Some (row_start + Z.of_nat (length ls) - 1)%Z) sep =
        Ok (with_data g (before ++ map flat (removelast (fst o)) ++ [newlast] ++ after)) /\
      (snd o = [] -> newlast = flat (List.last (fst o) ([], [])) ++ [newline_char]) /\
      (snd o <> [] -> newlast = fold_left (fun l t => rstrip l ++ sep ++ t) (map str (skipn (length vals - length (snd o)) values)) (flat (List.last (fst o) ([], []))) ++ [newline_char]).
Proof.
  intros V isd fmt str g values vals before lines after ls row_start fs fe sep HV HD HL HN HR o.
  destruct (array_rows_spec V isd fmt values vals fe (current_row g) HV ls lines before after fs row_start 0 None HL ltac:(lia) HR) as (c & C & F & R).
  cbn [skipn] in F, R. fold o in F, R.
  assert (LV : length values = length vals) by (clear -HV; induction HV; cbn; congruence).
  assert (LO : length (fst o) = length ls) by apply fill_lines_length.
  destruct (exists_last (l := fst o)) as (init & l & E); [intros E; rewrite E in LO; destruct ls; [congruence|discriminate]|].
  assert (ER : removelast (fst o) = init) by (rewrite E; apply removelast_last). assert (EL : List.last (fst o) ([], []) = l) by (rewrite E; apply last_last).
  rewrite ER, EL. rewrite E in R. rewrite rev_app_distr in R. cbn [rev app] in R. rewrite map_app in R. cbn [map] in R.
  assert (LI : length before + length ls - 1 = length (before ++ map flat init)) by (rewrite E, app_length in LO; cbn in LO; rewrite app_length, map_length; lia).
  rewrite LI in R. unfold transfer_array. rewrite HD.
  replace (py_range row_start (row_start + Z.of_nat (length ls) - 1 + 1)) with (map (fun k => (row_start + Z.of_nat k)%Z) (seq 0 (length ls))).
  2:{ unfold py_range. do 2 f_equal. lia. }
  rewrite R. cbn [bind].
  assert (EA : before ++ (map flat init ++ [flat l]) ++ after = (before ++ map flat init) ++ flat l :: after) by (rewrite <- !app_assoc; reflexivity).
  rewrite EA. assert (LS : length (snd o) = length vals - c) by (rewrite F, skipn_length; lia).
  destruct (Nat.ltb_spec c (length values)) as [Hlt|Hge].
  - eexists. split; [|split; [|intros _; reflexivity]].
    + rewrite set_nth_app. rewrite map_fold_str. rewrite LS. replace (length vals - (length vals - c)) with c by lia.
      rewrite <- app_assoc. reflexivity.
    + intros K. rewrite K in LS. cbn in LS. lia.
  - destruct (Nat.ltb_spec (length values) c); [lia|]. eexists. split; [|split; [intros _; reflexivity|]].
    + rewrite app_nth2, Nat.sub_diag by lia. cbn [nth]. rewrite set_nth_app. rewrite <- app_assoc. reflexivity.
    + intros K. destruct (snd o); [congruence|cbn in LS; lia].
Qed.

(** ** anchors *)
Lemma rev_skip_last : forall A (l : list A) x, rev (l ++ [x]) = x :: rev l.
Proof. intros. apply rev_app_distr. Qed.

Lemma forward_l : forall g anchor n, anchored g = false -> 1 <= n ->
    (forall k, nth_hit (occurs anchor) n (skipn (current_row g) (data g)) k -> mark_anchor g anchor (Z.of_nat n) = Ok (mkGen (data g) (current_row g + k) true)) /\
    ((forall k, ~ nth_hit (occurs anchor) n (skipn (current_row g) (data g)) k) -> mark_anchor g anchor (Z.of_nat n) = Err RuntimeError).
Proof.
  intros g anchor n HA Hn. unfold mark_anchor. destruct (Z.ltb_spec 0 (Z.of_nat n)); [|lia]. rewrite Nat2Z.id, HA.
  destruct (forward_spec anchor (skipn (current_row g) (data g)) 0 0 n ltac:(lia) (or_intror I)) as [F1 F2]. rewrite Nat.sub_0_r in F1, F2. split.
  - intros k Hk. rewrite (F1 k Hk). reflexivity.
  - intros Hk. rewrite (F2 Hk). reflexivity.
Qed.
Lemma skipn_cons : forall A (l : list A) i, i < length l -> exists x, skipn i l = x :: skipn (S i) l.
Proof. induction l as [|a l IH]; intros [|i] H; cbn in *; try lia; [exists a; reflexivity|]. destruct (IH i ltac:(lia)) as [x E]. exists x. exact E. Qed.
Lemma forward_anch_l : forall g anchor n, anchored g = true -> anchor <> [] -> 1 <= n -> current_row g < length (data g) ->
    (forall k, nth_hit (occurs anchor) n (skipn (S (current_row g)) (data g)) k -> mark_anchor g anchor (Z.of_nat n) = Ok (mkGen (data g) (S (current_row g) + k) true)) /\
    ((forall k, ~ nth_hit (occurs anchor) n (skipn (S (current_row g)) (data g)) k) -> mark_anchor g anchor (Z.of_nat n) = Err RuntimeError).
Proof.
  intros g anchor n HA Ha Hn HR. unfold mark_anchor. destruct (Z.ltb_spec 0 (Z.of_nat n)); [|lia]. rewrite Nat2Z.id, HA.
  destruct (skipn_cons _ _ _ HR) as [x E]. rewrite E, forward_anchored by exact Ha.
  destruct (forward_spec anchor (skipn (S (current_row g)) (data g)) 1 0 n ltac:(lia) (or_intror I)) as [F1 F2]. rewrite Nat.sub_0_r in F1, F2. split.
  - intros k Hk. rewrite (F1 k Hk). cbn [bind]. do 2 f_equal. lia.
  - intros Hk. rewrite (F2 Hk). reflexivity.
Qed.
Lemma backward_l : forall g anchor n, anchored g = false -> 1 <= n ->
    (forall k, nth_hit (occurs anchor) n (rev (data g)) k -> mark_anchor g anchor (- Z.of_nat n) = Ok (mkGen (data g) (length (data g) - 1 - k) true)) /\
    ((forall k, ~ nth_hit (occurs anchor) n (rev (data g)) k) -> mark_anchor g anchor (- Z.of_nat n) = Err RuntimeError).
Proof.
  intros g anchor n HA Hn. unfold mark_anchor. destruct (Z.ltb_spec 0 (- Z.of_nat n)); [lia|]. destruct (Z.ltb_spec (- Z.of_nat n) 0); [|lia].
  rewrite Z.opp_involutive, Nat2Z.id, HA, backward_first. destruct (backward_spec anchor (rev (data g)) 0 n ltac:(lia)) as [F1 F2]. rewrite Nat.sub_0_r in F1, F2. split.
  - intros k Hk. rewrite (F1 k Hk). rewrite rev_length. reflexivity.
  - intros Hk. rewrite (F2 Hk). reflexivity.
Qed.
Lemma backward_anch_l : forall g anchor n d l, anchored g = true -> anchor <> [] -> 1 <= n -> data g = d ++ [l] ->
    (forall k, nth_hit (occurs anchor) n (rev d) k -> mark_anchor g anchor (- Z.of_nat n) = Ok (mkGen (data g) (length d - 1 - k) true)) /\
    ((forall k, ~ nth_hit (occurs anchor) n (rev d) k) -> mark_anchor g anchor (- Z.of_nat n) = Err RuntimeError).
Proof.
  intros g anchor n d l HA Ha Hn HD. unfold mark_anchor. destruct (Z.ltb_spec 0 (- Z.of_nat n)); [lia|]. destruct (Z.ltb_spec (- Z.of_nat n) 0); [|lia].
  rewrite Z.opp_involutive, Nat2Z.id, HA.
  assert (E : search_backward anchor true true (rev (data g)) 0 n = search_backward anchor false false (rev d) 0 n) by (rewrite HD, rev_skip_last; apply backward_anchored; exact Ha).
  rewrite E. destruct (backward_spec anchor (rev d) 0 n ltac:(lia)) as [F1 F2]. rewrite Nat.sub_0_r in F1, F2. split.
  - intros k Hk. rewrite (F1 k Hk). rewrite rev_length. reflexivity.
  - intros Hk. rewrite (F2 Hk). reflexivity.
Qed.

(** ** keys *)
Lemma keyvar_forward_l : forall T (parse : text -> res (list T)) mark g key field n off k, 1 <= n ->
    nth_hit (occurs key) n (skipn (current_row g) (data g)) k ->
    transfer_keyvar parse mark g key field (Z.of_nat n) off =
      let! line := py_get (data g) (Z.of_nat (current_row g + k) + off) in let! fields := parse (mark line) in py_get fields field.
Proof.
  intros T parse mark g key field n off k Hn H. unfold transfer_keyvar. destruct (Z.eqb_spec (Z.of_nat n) 0); [lia|].
  unfold keyvar_row. destruct (Z.ltb_spec 0 (Z.of_nat n)); [|lia]. rewrite Nat2Z.id. rewrite (key_forward_hit key _ 0 0 n k) by (try lia; rewrite Nat.sub_0_r; exact H).
  replace (Z.of_nat (current_row g) + (0 + Z.of_nat k) + off)%Z with (Z.of_nat (current_row g + k) + off)%Z by lia. reflexivity.
Qed.
Lemma keyvar_forward_none_l : forall T (parse : text -> res (list T)) mark g key field n off, 1 <= n -> current_row g <= length (data g) -> (0 <= off)%Z ->
    (forall k, ~ nth_hit (occurs key) n (skipn (current_row g) (data g)) k) -> transfer_keyvar parse mark g key field (Z.of_nat n) off = Err IndexError.
Proof.
  intros T parse mark g key field n off Hn HR Ho H. unfold transfer_keyvar. destruct (Z.eqb_spec (Z.of_nat n) 0); [lia|].
  unfold keyvar_row. destruct (Z.ltb_spec 0 (Z.of_nat n)); [|lia]. rewrite Nat2Z.id. rewrite (key_forward_none key _ 0 0 n) by (try lia; rewrite Nat.sub_0_r; exact H).
  unfold py_get. rewrite py_index_none; [reflexivity|]. rewrite skipn_length. lia.
Qed.
Lemma keyvar_backward_l : forall T (parse : text -> res (list T)) mark g key field n k off, 1 <= n ->
    nth_hit (occurs key) n (rev (skipn (current_row g) (data g))) k ->
    transfer_keyvar parse mark g key field (- Z.of_nat n) off =
      let! line := py_get (data g) (Z.of_nat (current_row g) - 1 - Z.of_nat k + off) in let! fields := parse (mark line) in py_get fields field.
Proof.
  intros T parse mark g key field n k off Hn H. unfold transfer_keyvar. destruct (Z.eqb_spec (- Z.of_nat n) 0); [lia|].
  unfold keyvar_row. destruct (Z.ltb_spec 0 (- Z.of_nat n)); [lia|]. rewrite Z.opp_involutive, Nat2Z.id.
  rewrite (key_backward_hit key _ (-1) 0 n k) by (try lia; rewrite Nat.sub_0_r; exact H).
  replace (Z.of_nat (current_row g) + (-1 - Z.of_nat k) + off)%Z with (Z.of_nat (current_row g) - 1 - Z.of_nat k + off)%Z by lia. reflexivity.
Qed.
Lemma py_get_neg : forall A (l : list A) k, k < length l -> py_get l (- 1 - Z.of_nat k) = py_get l (Z.of_nat (length l - 1 - k)).
Proof.
  intros A l k H. unfold py_get. rewrite (py_index_nat (length l) (length l - 1 - k)) by lia. unfold py_index.
  destruct (Z.leb_spec 0 (-1 - Z.of_nat k)); [lia|]. destruct (Z.leb_spec (- Z.of_nat (length l)) (-1 - Z.of_nat k)); [|lia].
  replace (Z.to_nat (Z.of_nat (length l) + (-1 - Z.of_nat k))) with (length l - 1 - k) by lia. reflexivity.
Qed.

(** ** comments *)
Lemma split_uncommented : forall sep line, sep <> [] -> line <> [] -> exists p, py_split sep line = Ok p /\ uncommented sep line (hd [] p).
Proof.
  intros sep line Hs Hl. destruct sep as [|x sep]; [congruence|]. eexists. split; [reflexivity|]. destruct line as [|c line]; [congruence|].
  cbn [length split_fuel]. destruct (find_first (x :: sep) (c :: line)) as [[a b]|] eqn:E; cbn [hd].
  - right. exists b. split; [apply find_first_some; exact E|]. intros y z H. destruct (find_first_min _ _ _ _ H) as (a' & b' & E' & L). rewrite E in E'. injection E' as <- <-. exact L.
  - left. split; [|reflexivity]. apply contains_not. unfold contains. rewrite E. reflexivity.
Qed.
Lemma text_eqb_iff : forall a b, text_eqb a b = true <-> a = b.
Proof.
  induction a as [|x a IH]; intros [|y b]; cbn; split; try discriminate; auto.
  - rewrite Bool.andb_true_iff, IH. intros [H1 H2]. apply Ascii.eqb_eq in H1. congruence.
  - intros H. injection H as -> ->. rewrite Bool.andb_true_iff. split; [apply Ascii.eqb_refl|apply IH; reflexivity].
Qed.

Lemma keep_lines_spec : forall sep full lines, sep <> [] -> Forall (fun l => l <> []) lines ->
    exists out, keep_lines (Some sep) full lines = Ok out /\ kept sep full lines out.
Proof.
  intros sep full lines Hs HF. induction HF as [|line lines Hl HF (out & E & K)]; [exists []; split; [reflexivity|constructor]|].
  destruct line as [|c line]; [congruence|]. cbn [keep_lines]. destruct (match full with Some f => text_eqb [c] f | None => false end) eqn:C.
  - exists out. split; [exact E|]. apply kept_skip; [|exact K]. destruct full as [f|]; [|discriminate]. apply text_eqb_iff in C. cbn. congruence.
  - destruct (split_uncommented sep (c :: line) Hs Hl) as (p & P & U). rewrite P. cbn [bind]. rewrite E. cbn [bind]. eexists. split; [reflexivity|].
    apply kept_line; [|exact U|exact K]. intros S. destruct full as [f|]; [|exact S]. cbn in S. subst f. rewrite (proj2 (text_eqb_iff [c] [c]) eq_refl) in C. discriminate.
Qed.

(** ** reading arrays *)
Lemma py_slice_nat : forall A (l : list A) a b, a <= b -> py_slice l (Z.of_nat a) (Z.of_nat b) = firstn (b - a) (skipn a l).
Proof.
  intros A l a b H. unfold py_slice, clip. destruct (Z.ltb_spec (Z.of_nat a) 0); [lia|]. destruct (Z.ltb_spec (Z.of_nat b) 0); [lia|]. rewrite !Nat2Z.id.
  destruct (Nat.le_gt_cases (length l) a) as [Ha|Ha].
  - rewrite (skipn_all2 l) by (rewrite Nat.min_r; lia). rewrite (skipn_all2 l) by lia. rewrite !firstn_nil. reflexivity.
  - rewrite (Nat.min_l a) by lia. destruct (Nat.le_gt_cases (length l) b) as [Hb|Hb].
    + rewrite (Nat.min_r b) by lia. rewrite !firstn_all2 by (rewrite skipn_length; lia). reflexivity.
    + rewrite (Nat.min_l b) by lia. reflexivity.
Qed.
Lemma py_slice_from_nat : forall A (l : list A) a, py_slice_from l (Z.of_nat a) = skipn a l.
Proof.
  intros A l a. unfold py_slice_from, clip. destruct (Z.ltb_spec (Z.of_nat a) 0); [lia|]. rewrite Nat2Z.id.
  destruct (Nat.le_gt_cases (length l) a) as [Ha|Ha]; [rewrite !skipn_all2 by lia; reflexivity|]. rewrite Nat.min_l by lia. reflexivity.
Qed.

Lemma read_rows_spec : forall T (parse : text -> res (list T)) fe lines fss, Forall2 (fun l f => parse l = Ok f) lines fss -> lines <> [] ->
    forall fs i, (length lines = 1 -> fs <= fe) ->
    read_rows parse lines i (i + Z.of_nat (length lines) - 1) (Z.of_nat fs + 1) (Z.of_nat fe) = Ok (field_range fs fe fss).
Proof.
  intros T parse fe lines fss H. induction H as [|line f lines fss Hp H IH]; intros HN fs i Hf; [congruence|]. cbn [read_rows]. rewrite Hp. cbn [bind].
  replace (Z.of_nat fs + 1 - 1)%Z with (Z.of_nat fs) by lia. destruct H as [|line2 f2 lines fss Hp2 H].
  - cbn [length read_rows bind]. destruct (Z.eqb_spec i (i + Z.of_nat 1 - 1)); [|lia]. rewrite py_slice_nat by (apply Hf; reflexivity). rewrite app_nil_r. reflexivity.
  - destruct (Z.eqb_spec i (i + Z.of_nat (length (line :: line2 :: lines)) - 1)) as [E|E]; [cbn [length] in E; lia|]. rewrite py_slice_from_nat.
    specialize (IH ltac:(discriminate) 0 (i + 1)%Z ltac:(intros; lia)).
    replace (i + Z.of_nat (length (line :: line2 :: lines)) - 1)%Z with (i + 1 + Z.of_nat (length (line2 :: lines)) - 1)%Z by (cbn [length]; lia).
    replace (Z.of_nat 0 + 1)%Z with 1%Z in IH by lia. rewrite IH. cbn [bind]. f_equal. cbn [field_range]. f_equal.
    destruct fss as [|f3 fss]; [rewrite Nat.sub_0_r; reflexivity|]. cbn [skipn]. rewrite app_assoc. reflexivity.
Qed.

Lemma read_array_l : forall T (parse : text -> res (list T)) g before lines after fss rowstart fs fe,
    data g = before ++ lines ++ after -> lines <> [] -> (Z.of_nat (current_row g) + rowstart = Z.of_nat (length before))%Z ->
    Forall2 (fun l f => parse l = Ok f) lines fss -> 1 <= fe -> (length lines = 1 -> fs <= fe) ->
    read_array parse g rowstart (Z.of_nat fs + 1) (Some (rowstart + Z.of_nat (length lines) - 1)%Z) (Some (Z.of_nat fe)) = Ok (field_range fs fe fss).
Proof.
  intros T parse g before lines after fss rowstart fs fe HD HN HR HP Hfe Hfs. unfold read_array. destruct (Z.eqb_spec (Z.of_nat fe) 0); [lia|].
  replace (Z.of_nat (current_row g) + (rowstart + Z.of_nat (length lines) - 1) + 1)%Z with (Z.of_nat (length before + length lines)) by lia.
  rewrite HR. rewrite py_slice_nat by lia. rewrite HD. rewrite skipn_app, skipn_all, Nat.sub_diag. cbn [app skipn].
  replace (length before + length lines - length before) with (length lines) by lia. rewrite firstn_app, firstn_all, Nat.sub_diag. cbn [firstn]. rewrite app_nil_r.
  pose proof (read_rows_spec T parse fe lines fss HP HN fs 0 Hfs) as K. replace (Z.of_nat (length before + length lines) - Z.of_nat (length before) - 1)%Z with (0 + Z.of_nat (length lines) - 1)%Z by lia. exact K.
Qed.

Lemma other_rows_spec : forall T (parse : text -> res (list T)) zero fs fe lines fss, fs < fe -> Forall2 (fun l f => parse l = Ok f) lines fss ->
    Forall (fun f => fe <= length f) fss ->
    other_rows parse zero (fe - fs) (Z.of_nat fs + 1) (Some (Z.of_nat fe)) lines = Ok (map (fun f => firstn (fe - fs) (skipn fs f)) fss).
Proof.
  intros T parse zero fs fe lines fss Hlt H. induction H as [|line f lines fss Hp H IH]; intros HF; [reflexivity|]. inversion HF as [|? ? Hf HF']; subst.
  cbn [other_rows map]. rewrite Hp. cbn [bind]. unfold row_fields. destruct (Z.eqb_spec (Z.of_nat fe) 0); [lia|]. replace (Z.of_nat fs + 1 - 1)%Z with (Z.of_nat fs) by lia.
  rewrite py_slice_nat by lia. unfold assign_row. rewrite firstn_length, skipn_length, Nat.min_l by lia. rewrite Nat.eqb_refl. cbn [bind]. rewrite IH by exact HF'. reflexivity.
Qed.
Lemma read_2D_l : forall T (parse : text -> res (list T)) zero g before lines after fss rowstart fs fe,
    data g = before ++ lines ++ after -> lines <> [] -> (Z.of_nat (current_row g) + rowstart = Z.of_nat (length before))%Z ->
    Forall2 (fun l f => parse l = Ok f) lines fss -> fs < fe -> Forall (fun f => fe <= length f) fss ->
    read_2Darray parse zero g rowstart (Z.of_nat fs + 1) (rowstart + Z.of_nat (length lines) - 1) (Some (Z.of_nat fe)) = Ok (map (fun f => firstn (fe - fs) (skipn fs f)) fss).
Proof.
  intros T parse zero g before lines after fss rowstart fs fe HD HN HR HP Hlt HF. unfold read_2Darray. cbn [caught].
  destruct (Z.eqb_spec (Z.of_nat fe) 0) as [E0|E0]; [lia|]. cbn [negb andb]. destruct (Z.ltb_spec (Z.of_nat fe) (Z.of_nat fs + 1)); [lia|].
  destruct (Z.ltb_spec (rowstart + Z.of_nat (length lines) - 1) rowstart); [destruct lines; [congruence|cbn [length] in *; lia]|].
  replace (Z.of_nat (current_row g) + (rowstart + Z.of_nat (length lines) - 1) + 1)%Z with (Z.of_nat (length before + length lines)) by lia.
  rewrite HR. rewrite py_slice_nat by lia. rewrite HD. rewrite skipn_app, skipn_all, Nat.sub_diag. cbn [app skipn].
  replace (length before + length lines - length before) with (length lines) by lia. rewrite firstn_app, firstn_all, Nat.sub_diag. cbn [firstn]. rewrite app_nil_r.
  destruct HP as [|line f lines fss Hp HP]; [congruence|]. inversion HF as [|? ? Hf HF']; subst. rewrite Hp. cbn [bind].
  unfold row_fields at 1 2 3. destruct (Z.eqb_spec (Z.of_nat fe) 0) as [E1|_]; [lia|]. replace (Z.of_nat fs + 1 - 1)%Z with (Z.of_nat fs) by lia.
  rewrite !py_slice_nat by lia. assert (LR : length (firstn (fe - fs) (skipn fs f)) = fe - fs) by (rewrite firstn_length, skipn_length; lia). rewrite LR.
  rewrite (other_rows_spec T parse zero fs fe lines fss Hlt HP HF'). cbn [bind map]. f_equal. f_equal.
  replace (Z.to_nat (Z.of_nat (length before + length (line :: lines)) - Z.of_nat (length before)) - S (length lines)) with 0 by (cbn [length]; lia). cbn [repeat]. apply app_nil_r.
Qed.

(** ** delimiters *)
Lemma class_plain : forall d, Forall (fun c => c <> "-"%char) d -> class_ranges d = Some (map (fun c => (c, c)) d).
Proof.
  intros d H. induction H as [|c d Hc H IH]; [reflexivity|]. cbn [class_ranges map]. rewrite IH. cbn [option_map].
  destruct H as [|m d Hm H]; [reflexivity|]. destruct d as [|e d]; [reflexivity|]. destruct (Ascii.eqb_spec m "-") as [E|_]; [congruence|reflexivity].
Qed.
Lemma in_ranges_plain : forall d c, in_ranges (map (fun c => (c, c)) d) c = true <-> In c d.
Proof.
  intros d c. unfold in_ranges. rewrite existsb_exists. split.
  - intros ([a b] & Hin & H). apply in_map_iff in Hin. destruct Hin as (x & Ex & Hx). injection Ex as <- <-. cbn [fst snd] in H. apply Bool.andb_true_iff in H. destruct H as [H1 H2].
    apply Nat.leb_le in H1, H2. assert (E : nat_of_ascii c = nat_of_ascii x) by lia. rewrite <- (ascii_nat_embedding c), E, ascii_nat_embedding. exact Hx.
  - intros H. exists (c, c). split; [apply in_map_iff; exists c; auto|]. cbn. rewrite Nat.leb_refl. reflexivity.
Qed.

Lemma array2_rows_spec : forall V isd (fmt : V -> res text) fs fe cur ls lines before after r0 values vals,
    Forall2 (laid_out isd) ls lines -> length ls <= length values ->
    Forall2 (Forall2 (fun v t => fmt v = Ok t)) values vals ->
    (Z.of_nat cur + r0 = Z.of_nat (length before))%Z ->
    array2_rows isd fmt values cur (map (fun k => r0 + Z.of_nat k)%Z (seq 0 (length ls))) fs fe (before ++ lines ++ after) =
      Ok (before ++ map flat (fill_rows fs fe ls vals) ++ after).
Proof.
  intros V isd fmt fs fe cur. induction ls as [|l ls IH]; intros lines before after r0 values vals HL Hn HV Hr.
  - inversion HL; subst. destruct values; reflexivity.
  - inversion HL as [|? line ? lines' Hl HL']; subst. destruct HV as [|v t values vals Hv HV]; [cbn in Hn; lia|].
    cbn [length seq map array2_rows].
    replace (Z.of_nat cur + (r0 + Z.of_nat 0))%Z with (Z.of_nat (length before)) by lia.
    assert (G : nth_error (before ++ (line :: lines') ++ after) (length before) = Some line) by (rewrite nth_error_app2, Nat.sub_diag by lia; reflexivity).
    rewrite (py_get_nat _ _ _ _ G). cbn [bind]. rewrite (re_sub_layout isd _ _ _ _ Hl).
    destruct (map_array V fmt v t fs fe Hv (snd l) 0 0 ltac:(lia)) as (c1 & C1 & M & F). cbn [skipn] in M.
    rewrite M. cbn [bind fst snd]. rewrite py_index_nat by (rewrite app_length; cbn; lia).
    change (before ++ (line :: lines') ++ after) with (before ++ line :: (lines' ++ after)). rewrite set_nth_app.
    set (nl := flat (fst l, fst (fill fs fe 1 (snd l) t))).
    pose proof (IH lines' (before ++ [nl]) after (r0 + 1)%Z values vals HL' ltac:(cbn in Hn; lia) HV ltac:(rewrite app_length; cbn [length]; lia)) as R.
    rewrite <- seq_shift, map_map. rewrite (map_ext _ (fun k => (r0 + 1 + Z.of_nat k)%Z)) by (intros k; lia).
    rewrite <- app_assoc in R. cbn [app] in R. rewrite R. rewrite <- app_assoc. reflexivity.
Qed.
Lemma array2_rows_short : forall V isd (fmt : V -> res text) fs fe cur ls lines before after r0 values vals,
    Forall2 (laid_out isd) ls lines -> length values < length ls ->
    Forall2 (Forall2 (fun v t => fmt v = Ok t)) values vals ->
    (Z.of_nat cur + r0 = Z.of_nat (length before))%Z ->
    array2_rows isd fmt values cur (map (fun k => r0 + Z.of_nat k)%Z (seq 0 (length ls))) fs fe (before ++ lines ++ after) = Err IndexError.
Proof.
  intros V isd fmt fs fe cur. induction ls as [|l ls IH]; intros lines before after r0 values vals HL Hn HV Hr; [cbn in Hn; lia|].
  inversion HL as [|? line ? lines' Hl HL']; subst.
  assert (G : nth_error (before ++ (line :: lines') ++ after) (length before) = Some line) by (rewrite nth_error_app2, Nat.sub_diag by lia; reflexivity).
  assert (R0 : (Z.of_nat cur + (r0 + Z.of_nat 0))%Z = Z.of_nat (length before)) by lia.
  destruct HV as [|v t values vals Hv HV]; cbn [length seq map array2_rows]; rewrite R0, (py_get_nat _ _ _ _ G); cbn [bind]; [reflexivity|].
  rewrite (re_sub_layout isd _ _ _ _ Hl).
  destruct (map_array V fmt v t fs fe Hv (snd l) 0 0 ltac:(lia)) as (c1 & C1 & M & F). cbn [skipn] in M.
  rewrite M. cbn [bind fst snd]. rewrite py_index_nat by (rewrite app_length; cbn; lia).
  change (before ++ (line :: lines') ++ after) with (before ++ line :: (lines' ++ after)). rewrite set_nth_app.
  set (nl := flat (fst l, fst (fill fs fe 1 (snd l) t))).
  pose proof (IH lines' (before ++ [nl]) after (r0 + 1)%Z values vals HL' ltac:(cbn in Hn; lia) HV ltac:(rewrite app_length; cbn [length]; lia)) as R.
  rewrite <- seq_shift, map_map. rewrite (map_ext _ (fun k => (r0 + 1 + Z.of_nat k)%Z)) by (intros k; lia).
  rewrite <- app_assoc in R. cbn [app] in R. exact R.
Qed.

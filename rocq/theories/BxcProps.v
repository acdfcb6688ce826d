(** C139: reading a box of columns. *)
From Verif Require Import Base BaseFacts FileModel BxcModel BxcSpec.
Local Open Scope nat_scope.
Local Open Scope list_scope.

Lemma slice_rows : forall {A} (l : list A) (a b : nat), py_slice l (Z.of_nat a) (Z.of_nat b) = firstn (b - a) (skipn a l).
Proof.
  intros A l a b. unfold py_slice, clip. destruct (Z.ltb_spec (Z.of_nat a) 0); [lia|]. destruct (Z.ltb_spec (Z.of_nat b) 0); [lia|]. rewrite !Nat2Z.id.
  destruct (Nat.le_gt_cases (length l) a) as [L|L].
  - rewrite (Nat.min_r a) by lia. rewrite !skipn_all2 by lia. rewrite !firstn_nil. reflexivity.
  - rewrite (Nat.min_l a) by lia. destruct (Nat.le_gt_cases (length l) b) as [M|M]; [rewrite (Nat.min_r b) by lia; rewrite !firstn_all2 by (rewrite skipn_length; lia); reflexivity|]. rewrite (Nat.min_l b) by lia. reflexivity.
Qed.
Lemma rows_slice : forall file first rows, rows_at file first rows -> py_slice file (Z.of_nat first) (Z.of_nat (first + length rows)) = rows.
Proof. intros file first rows (a & b & -> & L). rewrite slice_rows. replace (first + length rows - first) with (length rows) by lia. rewrite skipn_app, skipn_all2 by lia. rewrite L, Nat.sub_diag. cbn [app skipn]. rewrite firstn_app, Nat.sub_diag, firstn_all. cbn. apply app_nil_r. Qed.
Lemma cut_slice : forall fs fe line box, 1 <= fs -> cut fs fe line box -> py_slice line (Z.of_nat fs - 1) (Z.of_nat fe) = box.
Proof.
  intros fs fe line box F (a & b & -> & Ha & Hb). replace (Z.of_nat fs - 1)%Z with (Z.of_nat (fs - 1)) by lia. rewrite slice_rows. destruct Ha as [L|(L & -> & ->)].
  - rewrite skipn_app, skipn_all2 by lia. rewrite L, Nat.sub_diag. cbn [app skipn]. destruct Hb as [M|(M & ->)]; [rewrite firstn_app, firstn_all2 by lia; replace (fe - (fs - 1) - length box) with 0 by lia; cbn; apply app_nil_r|]. rewrite app_nil_r. apply firstn_all2. lia.
  - rewrite !app_nil_r. rewrite skipn_all2 by lia. apply firstn_nil.
Qed.
Lemma lstrip_ok : forall a t, Forall (fun c => is_space c = true) a -> (forall c r, t = c :: r -> is_space c = false) -> lstrip (a ++ t) = t.
Proof. intros a t F H. induction F as [|c a Hc F IH]; cbn; [|rewrite Hc; exact IH]. destruct t as [|c r]; [reflexivity|]. cbn. rewrite (H c r eq_refl). reflexivity. Qed.
Lemma strip_ok : forall s t, stripped s t -> strip s = t.
Proof.
  intros s t (a & b & -> & F & H1 & H2). apply Forall_app in F. destruct F as (Fa & Fb). unfold strip, rstrip.
  assert (Rb : Forall (fun c => is_space c = true) (rev b)) by (apply Forall_rev; exact Fb). destruct t as [|c r].
  - cbn [app]. rewrite (lstrip_ok (a ++ b) [] ltac:(apply Forall_app; split; assumption) ltac:(discriminate)) || (replace (a ++ b) with ((a ++ b) ++ []) by apply app_nil_r; rewrite (lstrip_ok (a ++ b) []); [reflexivity|apply Forall_app; split; assumption|discriminate]).
  - rewrite lstrip_ok; [|exact Fa|intros c' r' [= <- _]; exact (H1 c r eq_refl)]. rewrite rev_app_distr. rewrite lstrip_ok; [apply rev_involutive|exact Rb|]. intros c' r' E. apply (H2 c' (rev r')). rewrite <- (rev_involutive (c :: r)), E. reflexivity.
Qed.

Section Facts.
  Variable parse : text -> res (list token).
  Variable shown : Q -> text.
  Variable to_float : text -> option Q.
  Notation array_loop := (array_loop parse shown).
  Notation transfer_array := (transfer_array parse shown).
  Notation transfer_2Darray := (transfer_2Darray parse shown to_float).
  (** the box of a row, and its words *)
  Definition box_words (fs fe : nat) (line : text) (ws : list token) : Prop := exists box word, cut fs fe line box /\ stripped box word /\ parse word = Ok ws.

  Lemma no_txt : forall qs, existsb is_txt (map TNum qs) = false.
  Proof. induction qs as [|q qs IH]; [reflexivity|]. exact IH. Qed.
  Lemma has_as_txt : forall l, existsb is_txt l = true -> existsb is_txt (map (as_txt shown) l) = true.
  Proof. intros [|t l] H; [discriminate H|]. destruct t; reflexivity. Qed.
  Lemma np_array_txt : forall l, existsb is_txt (np_array shown l) = existsb is_txt l.
  Proof. intros l. unfold np_array. destruct (existsb is_txt l) eqn:E; [apply has_as_txt; exact E|exact E]. Qed.
  Lemma numbers_loop : forall fs fe rows nums acc, 1 <= fs -> Forall2 (fun line qs => box_words fs fe line (map TNum qs)) rows nums ->
    array_loop (Z.of_nat fs) (Z.of_nat fe) rows (map TNum acc) = Ok (map TNum (acc ++ concat nums)).
  Proof.
    intros fs fe rows nums acc F H. revert acc. induction H as [|line qs rows nums (box & word & C & S0 & P) H IH]; intros acc; cbn [BxcModel.array_loop concat]; [rewrite app_nil_r; reflexivity|].
    rewrite (cut_slice fs fe line box F C), (strip_ok box word S0), P. cbn [bind]. cbv zeta. rewrite np_array_txt, no_txt. unfold np_append, np_array at 2. rewrite no_txt. rewrite <- map_app. unfold np_array. rewrite no_txt, IH, app_assoc. reflexivity.
  Qed.
  (** All numbers of the box, row by row. *)
  Theorem C139_box : forall g rowstart rowend fs fe rows nums, 1 <= fs -> 1 <= fe -> rows_at (data g) (current_row g + rowstart) rows -> rowstart + length rows = rowend + 1 ->
    Forall2 (fun line qs => box_words fs fe line (map TNum qs)) rows nums ->
    transfer_array g (Z.of_nat rowstart) (Z.of_nat fs) (Some (Z.of_nat rowend)) (Some (Z.of_nat fe)) = Ok (map TNum (concat nums)).
  Proof.
    intros g rowstart rowend fs fe rows nums F E R L H. unfold BxcModel.transfer_array. cbv zeta. destruct (Z.eqb_spec (Z.of_nat fe) 0); [lia|].
    replace (Z.of_nat (current_row g) + Z.of_nat rowstart)%Z with (Z.of_nat (current_row g + rowstart)) by lia. replace (Z.of_nat (current_row g) + Z.of_nat rowend + 1)%Z with (Z.of_nat (current_row g + rowstart + length rows)) by lia.
    rewrite (rows_slice _ _ _ R). exact (numbers_loop fs fe rows nums [] F H).
  Qed.
  Lemma texts_loop : forall fs fe rows texts acc, 1 <= fs -> Forall2 (fun line word => exists box ws, cut fs fe line box /\ stripped box word /\ parse word = Ok ws /\ existsb is_txt ws = true) rows texts ->
    array_loop (Z.of_nat fs) (Z.of_nat fe) rows (map TTxt acc) = Ok (map TTxt (acc ++ texts)).
  Proof.
    intros fs fe rows texts acc F H. revert acc. induction H as [|line word rows texts (box & ws & C & S0 & P & T) H IH]; intros acc; cbn [BxcModel.array_loop]; [rewrite app_nil_r; reflexivity|].
    rewrite (cut_slice fs fe line box F C), (strip_ok box word S0), P. cbn [bind]. cbv zeta. rewrite np_array_txt, T. unfold np_append, np_array. assert (X : existsb is_txt (map TTxt acc ++ [TTxt word]) = true) by (rewrite existsb_app; cbn; apply orb_true_r). rewrite X.
    replace (map (as_txt shown) (map TTxt acc ++ [TTxt word])) with (map TTxt (acc ++ [word])) by (rewrite !map_app, map_map; reflexivity). rewrite IH, <- app_assoc. reflexivity.
  Qed.
  (** Rows with texts: the whole of each row. *)
  Theorem C139_texts : forall g rowstart rowend fs fe rows texts, 1 <= fs -> 1 <= fe -> rows_at (data g) (current_row g + rowstart) rows -> rowstart + length rows = rowend + 1 ->
    Forall2 (fun line word => exists box ws, cut fs fe line box /\ stripped box word /\ parse word = Ok ws /\ existsb is_txt ws = true) rows texts ->
    transfer_array g (Z.of_nat rowstart) (Z.of_nat fs) (Some (Z.of_nat rowend)) (Some (Z.of_nat fe)) = Ok (map TTxt texts).
  Proof.
    intros g rowstart rowend fs fe rows texts F E R L H. unfold BxcModel.transfer_array. cbv zeta. destruct (Z.eqb_spec (Z.of_nat fe) 0); [lia|].
    replace (Z.of_nat (current_row g) + Z.of_nat rowstart)%Z with (Z.of_nat (current_row g + rowstart)) by lia. replace (Z.of_nat (current_row g) + Z.of_nat rowend + 1)%Z with (Z.of_nat (current_row g + rowstart + length rows)) by lia.
    rewrite (rows_slice _ _ _ R). exact (texts_loop fs fe rows texts [] F H).
  Qed.
  (** But one row with a text makes texts of all numbers of the other rows. *)
  Lemma all_or_none : forall fs fe rows acc out, (existsb is_txt acc = true -> forallb is_txt acc = true) -> array_loop fs fe rows acc = Ok out ->
    (existsb is_txt acc = true -> forallb is_txt out = true) /\ (existsb is_txt out = true -> forallb is_txt out = true)
    /\ forall line ws, In line rows -> parse (strip (py_slice line (fs - 1) fe)) = Ok ws -> existsb is_txt ws = true -> forallb is_txt out = true.
  Proof.
    intros fs fe rows. induction rows as [|line rows IH]; intros acc out H E; cbn [BxcModel.array_loop] in E.
    - injection E as <-. split; [exact H|]. split; [exact H|]. intros line ws [].
    - cbv zeta in E. destruct (parse (strip (py_slice line (fs - 1) fe))) as [ws|] eqn:P; [|discriminate E]. cbn [bind] in E. rewrite np_array_txt in E.
      assert (K : forall l, existsb is_txt (np_append shown acc l) = true -> forallb is_txt (np_append shown acc l) = true). { intros l. unfold np_append, np_array. destruct (existsb is_txt (acc ++ l)) eqn:X; [|congruence]. intros _. clear. induction (acc ++ l) as [|t m IHm]; [reflexivity|]. destruct t; exact IHm. }
      destruct (IH _ out (K _) E) as (A & B & C). split; [|split; [exact B|]].
      + intros X. apply A. unfold np_append. rewrite np_array_txt, existsb_app, X. reflexivity.
      + intros l ws' [<-|J] Q T; [|exact (C l ws' J Q T)]. rewrite P in Q. injection Q as <-. apply A. rewrite T. unfold np_append. rewrite np_array_txt, existsb_app. cbn. apply orb_true_r.
  Qed.
  Theorem C139_mixed_refuted : forall g rowstart fs rowend fe out line ws, transfer_array g rowstart fs (Some rowend) (Some fe) = Ok out ->
    In line (py_slice (data g) (Z.of_nat (current_row g) + rowstart) (Z.of_nat (current_row g) + rowend + 1)) -> parse (strip (py_slice line (fs - 1) fe)) = Ok ws -> existsb is_txt ws = true ->
    forall q, ~ In (TNum q) out.
  Proof.
    intros g rowstart fs rowend fe out line ws E J P T q I. unfold BxcModel.transfer_array in E. cbv zeta in E. destruct (fe =? 0)%Z; [discriminate E|]. destruct (all_or_none fs fe _ [] out ltac:(discriminate) E) as (_ & _ & C).
    specialize (C line ws J P T). rewrite forallb_forall in C. discriminate (C _ I).
  Qed.

  Lemma floats_nums : forall qs, floats to_float (map TNum qs) = Ok qs.
  Proof. induction qs as [|q qs IH]; [reflexivity|]. cbn. rewrite IH. reflexivity. Qed.
  Lemma assign_nums : forall qs, assign shown to_float (length qs) (map TNum qs) = Ok qs.
  Proof. intros qs. unfold assign, np_array. rewrite no_txt, floats_nums. cbn [bind]. rewrite Nat.eqb_refl. reflexivity. Qed.
  Definition box_row (fs fe : nat) (n : nat) (line : text) (qs : list Q) : Prop := exists box, cut fs fe line box /\ parse box = Ok (map TNum qs) /\ length qs = n.
  Lemma rows_nums : forall fs fe n rows m, 1 <= fs -> 1 <= fe -> Forall2 (box_row fs fe n) rows m -> rows_loop parse shown to_float n (Z.of_nat fs) (Some (Z.of_nat fe)) rows = Ok m.
  Proof.
    intros fs fe n rows m F E H. induction H as [|line qs rows m (box & C & P & <-) H IH]; [reflexivity|]. cbn [rows_loop]. unfold box_of. destruct (Z.eqb_spec (Z.of_nat fe) 0); [lia|]. rewrite (cut_slice fs fe line box F C), P. cbn [bind]. rewrite assign_nums. cbn [bind]. rewrite IH. reflexivity.
  Qed.
  Lemma two_d : forall g rowstart rowend fs fe n rows m, 1 <= fs <= fe -> rowstart <= rowend -> rows <> [] -> py_slice (data g) (Z.of_nat (current_row g) + Z.of_nat rowstart) (Z.of_nat (current_row g) + Z.of_nat rowend + 1) = rows -> Forall2 (box_row fs fe n) rows m ->
    transfer_2Darray g (Z.of_nat rowstart) (Z.of_nat fs) (Z.of_nat rowend) (Some (Z.of_nat fe)) = Ok (m ++ repeat (repeat 0%Q n) (rowend + 1 - rowstart - length rows)).
  Proof.
    intros g rowstart rowend fs fe n rows m F L N R H. unfold BxcModel.transfer_2Darray. destruct (Z.eqb_spec (Z.of_nat fe) 0); [lia|]. cbn [negb andb]. destruct (Z.ltb_spec (Z.of_nat fe) (Z.of_nat fs)); [lia|]. destruct (Z.ltb_spec (Z.of_nat rowend) (Z.of_nat rowstart)); [lia|]. cbv zeta. rewrite R.
    destruct H as [|line qs rows m (box & C & P & <-) H]; [contradiction|]. unfold box_of at 1. destruct (Z.eqb_spec (Z.of_nat fe) 0); [lia|]. rewrite (cut_slice fs fe line box ltac:(lia) C), P. cbn [bind]. rewrite map_length, assign_nums. cbn [bind]. rewrite (rows_nums fs fe _ rows m ltac:(lia) ltac:(lia) H). cbn [bind app]. do 4 f_equal. cbn [length]. lia.
  Qed.
  (** A matrix with one row for every line of the box. *)
  Theorem C139_matrix : forall g rowstart rowend fs fe n rows m, 1 <= fs <= fe -> rows <> [] -> rows_at (data g) (current_row g + rowstart) rows -> rowstart + length rows = rowend + 1 -> Forall2 (box_row fs fe n) rows m ->
    transfer_2Darray g (Z.of_nat rowstart) (Z.of_nat fs) (Z.of_nat rowend) (Some (Z.of_nat fe)) = Ok m.
  Proof.
    intros g rowstart rowend fs fe n rows m F N R L H. assert (Lr : length rows <> 0) by (destruct rows; [contradiction|discriminate]). rewrite (two_d g rowstart rowend fs fe n rows m F ltac:(lia) N); [|replace (Z.of_nat (current_row g) + Z.of_nat rowstart)%Z with (Z.of_nat (current_row g + rowstart)) by lia; replace (Z.of_nat (current_row g) + Z.of_nat rowend + 1)%Z with (Z.of_nat (current_row g + rowstart + length rows)) by lia; exact (rows_slice _ _ _ R)|exact H].
    replace (rowend + 1 - rowstart - length rows) with 0 by lia. cbn. rewrite app_nil_r. reflexivity.
  Qed.
  (** But rows after the end of the file are zeros, not an error. *)
  Theorem C139_end_refuted : forall g rowstart rowend fs fe n rows m, 1 <= fs <= fe -> rows <> [] -> skipn (current_row g + rowstart) (data g) = rows -> rowstart + length rows < rowend + 1 -> Forall2 (box_row fs fe n) rows m ->
    transfer_2Darray g (Z.of_nat rowstart) (Z.of_nat fs) (Z.of_nat rowend) (Some (Z.of_nat fe)) = Ok (m ++ repeat (repeat 0%Q n) (rowend + 1 - rowstart - length rows)).
  Proof.
    intros g rowstart rowend fs fe n rows m F N R L H. apply two_d; [exact F|lia|exact N| |exact H]. replace (Z.of_nat (current_row g) + Z.of_nat rowstart)%Z with (Z.of_nat (current_row g + rowstart)) by lia. replace (Z.of_nat (current_row g) + Z.of_nat rowend + 1)%Z with (Z.of_nat (current_row g + rowend + 1)) by lia.
    rewrite slice_rows, R. apply firstn_all2. lia.
  Qed.
End Facts.
Print Assumptions C139_box.
Print Assumptions C139_texts.
Print Assumptions C139_mixed_refuted.
Print Assumptions C139_matrix.
Print Assumptions C139_end_refuted.

(** digits are numbers, anything else is a text; columns 2 and 3 of three lines *)
Definition bxc_digit (c : ascii) : token := let n := nat_of_ascii c in if (48 <=? n) && (n <=? 57) then TNum (inject_Z (Z.of_nat n - 48)) else TTxt [c].
Definition bxc_parse (t : text) : res (list token) := match filter (fun c => negb (is_space c)) t with [] => Err ValueError | l => Ok (map bxc_digit l) end.
Definition bxc_file := mkGen [list_ascii_of_string "x12y"; list_ascii_of_string "x34y"; list_ascii_of_string "xa5y"] 0 false.
Example C139_ex : transfer_array bxc_parse (fun _ => []) bxc_file 0 2 (Some 1%Z) (Some 3%Z) = Ok [TNum 1; TNum 2; TNum 3; TNum 4]
  /\ transfer_array bxc_parse (fun _ => []) bxc_file 0 2 (Some 2%Z) (Some 3%Z) = Ok [TTxt []; TTxt []; TTxt []; TTxt []; TTxt (list_ascii_of_string "a5")]
  /\ transfer_2Darray bxc_parse (fun _ => []) (fun _ => None) bxc_file 0 2 1 (Some 3%Z) = Ok [[1; 2]; [3; 4]]%Q
  /\ transfer_2Darray bxc_parse (fun _ => []) (fun _ => None) (mkGen [list_ascii_of_string "x12y"] 0 false) 0 2 1 (Some 3%Z) = Ok [[1; 2]; [0; 0]]%Q
  /\ rows_at (data bxc_file) 0 [list_ascii_of_string "x12y"; list_ascii_of_string "x34y"] /\ box_words bxc_parse 2 3 (list_ascii_of_string "x12y") [TNum 1; TNum 2].
Proof.
  do 4 (split; [reflexivity|]). split; [exists [], [list_ascii_of_string "xa5y"]; split; reflexivity|].
  exists (list_ascii_of_string "12"), (list_ascii_of_string "12"). split; [exists ["x"%char], ["y"%char]; split; [reflexivity|split; left; reflexivity]|]. split; [|reflexivity].
  exists [], []. split; [reflexivity|]. split; [constructor|]. split; [intros c r [= <- _]; reflexivity|]. intros c r E. apply (f_equal (@rev ascii)) in E. rewrite rev_app_distr in E. cbn in E. injection E as <- _. reflexivity.
Qed.

(** Lemmas about the names of ExecComp. *)
From Verif Require Import Base BaseFacts OrderModel FileModel FileSpec FileProofs RecordModel ExprModel ExprSpec.
From Coq Require Import Permutation DecimalNat DecimalString.
Local Open Scope nat_scope.
Local Open Scope list_scope.

Lemma teqb_iff : forall a b, teqb a b = true <-> a = b.
Proof. intros a b. unfold teqb. destruct (text_dec a b); split; congruence. Qed.

(** ** decimal numbers *)
Lemma uint_digits : forall d c, In c (list_ascii_of_string (NilEmpty.string_of_uint d)) -> digit c = true.
Proof. induction d; intros c I; cbn in I; [destruct I| | | | | | | | | |]; destruct I as [<- |I]; try reflexivity; apply IHd; exact I. Qed.
Lemma dec_digits : forall i c, In c (dec i) -> digit c = true.
Proof. intros i c I. unfold dec, str_int, NilZero.string_of_uint in I. destruct (Nat.to_uint i) eqn:E; try (apply (uint_digits (Nat.to_uint i)); rewrite E; exact I). cbn in I. destruct I as [<- |[]]. reflexivity. Qed.
Lemma dec_nonempty : forall i, dec i <> [].
Proof. intros i. unfold dec, str_int, NilZero.string_of_uint. destruct (Nat.to_uint i); discriminate. Qed.
Lemma of_uint_acc_bound : forall d acc, Nat.of_uint_acc d acc < (acc + 1) * 10 ^ length (list_ascii_of_string (NilEmpty.string_of_uint d)).
Proof.
  induction d; intros acc; cbn [Nat.of_uint_acc NilEmpty.string_of_uint list_ascii_of_string length]; [cbn; lia| | | | | | | | | |];
    rewrite Nat.pow_succ_r'; match goal with |- Nat.of_uint_acc _ ?a < _ => specialize (IHd a); assert (B : a <= 10 * acc + 9) by (rewrite Nat.tail_mul_spec; cbn; lia); revert IHd B; generalize (Nat.of_uint_acc d a); generalize a; generalize (10 ^ length (list_ascii_of_string (NilEmpty.string_of_uint d))); intros; nia end.
Qed.
Lemma dec_bound : forall i, i < 10 ^ length (dec i).
Proof.
  intros i. rewrite <- (Unsigned.of_to i) at 1. assert (H := of_uint_acc_bound (Nat.to_uint i) 0). unfold Nat.of_uint. rewrite Nat.add_0_l, Nat.mul_1_l in H. eapply Nat.lt_le_trans; [exact H|]. apply Nat.pow_le_mono_r; [discriminate|].
  unfold dec, str_int, NilZero.string_of_uint. destruct (Nat.to_uint i); cbn; lia.
Qed.
Lemma dec_long : forall L, exists i, L < length (dec i).
Proof. intros L. exists (10 ^ L). apply Nat.nle_gt. intros H. assert (B := dec_bound (10 ^ L)). assert (P := Nat.pow_le_mono_r 10 _ _ (Nat.neq_succ_0 9) H). lia. Qed.

(** ** replacing *)
Lemma replace_colon_fuel : forall d s f, length s <= f -> replace_fuel f [colon] d s = flat_map (fun c => if Ascii.eqb c colon then d else [c]) s.
Proof.
  intros d. induction s as [|c s IH]; intros [|f] L; cbn in L; try lia; [reflexivity|reflexivity|]. cbn [replace_fuel strip_prefix flat_map]. rewrite (Ascii.eqb_sym c colon).
  destruct (Ascii.eqb colon c); rewrite IH by lia; reflexivity.
Qed.
Definition subst (i : nat) (s : text) : text := flat_map (fun c => if Ascii.eqb c colon then dec i else [c]) s.
Lemma replace_colon : forall i s, replace [colon] (dec i) s = subst i s.
Proof. intros. apply replace_colon_fuel. lia. Qed.
Lemma has_colon_in : forall n, has_colon n = true <-> In colon n.
Proof. intros n. unfold has_colon. rewrite existsb_exists. split; [intros (c & I & E); apply Ascii.eqb_eq in E; subst c; exact I|intros I; exists colon; split; [exact I|apply Ascii.eqb_refl]]. Qed.
Lemma subst_length : forall i s, In colon s -> length (dec i) <= length (subst i s).
Proof.
  intros i. induction s as [|c s IH]; intros I; [destruct I|]. unfold subst. cbn [flat_map]. rewrite app_length. destruct I as [-> |I]; [rewrite Ascii.eqb_refl; lia|]. specialize (IH I). unfold subst in IH. lia.
Qed.
Lemma occurs_length : forall a b, occurs a b -> length a <= length b.
Proof. intros a b (x & y & ->). rewrite !app_length. lia. Qed.
(** the loop of _valid_name ends *)
Lemma valid_name_ends : forall s check, In colon s -> exists k, forall fuel i0, k <= fuel + i0 -> i0 <= k -> exists i, valid_name (S fuel) i0 s check = Some (subst i s) /\ ~ occurs (subst i s) check.
Proof.
  intros s check I. destruct (dec_long (length check)) as (m & Lm). exists m.
  assert (M : ~ occurs (subst m s) check) by (intros O; apply occurs_length in O; assert (X := subst_length m s I); lia).
  induction fuel as [|fuel IH]; intros i0 H1 H2.
  - assert (i0 = m) by lia. subst i0. exists m. cbn [valid_name]. rewrite replace_colon. rewrite (proj2 (contains_not _ _) M). auto.
  - cbn [valid_name]. rewrite replace_colon. destruct (contains (subst i0 s) check) eqn:C.
    + apply contains_iff in C. assert (i0 <> m) by (intros ->; contradiction). destruct (IH (S i0)) as (i & E & O); [lia|lia|]. exists i. split; [|exact O]. exact E.
    + exists i0. split; [reflexivity|]. apply contains_not. exact C.
Qed.
Lemma valid_name_enough : forall s check, In colon s -> exists k, forall fuel, k <= fuel -> exists i, valid_name fuel 0 s check = Some (subst i s) /\ ~ occurs (subst i s) check.
Proof. intros s check I. destruct (valid_name_ends s check I) as (k & H). exists (S k). intros [|fuel] L; [lia|]. apply H; lia. Qed.
(** the result does not depend on the fuel *)
Lemma valid_name_mono : forall s check fuel i r, valid_name fuel i s check = Some r -> forall fuel', fuel <= fuel' -> valid_name fuel' i s check = Some r.
Proof. induction fuel as [|f IH]; intros i r E fuel' L; [discriminate|]. destruct fuel' as [|f']; [lia|]. cbn [valid_name] in *. destruct (contains _ _); [|exact E]. apply (IH _ _ E). lia. Qed.

(** ** words of a text *)
Fixpoint wsplit (s : text) : text * list (ascii * text) :=
  match s with
  | [] => ([], [])
  | c :: r => let (w, l) := wsplit r in if wchar c then (c :: w, l) else ([], (c, w) :: l)
  end.
Definition assemble (w : text) (l : list (ascii * text)) : text := w ++ flat_map (fun p => fst p :: snd p) l.
Lemma wsplit_assemble : forall s, assemble (fst (wsplit s)) (snd (wsplit s)) = s.
Proof. induction s as [|c s IH]; [reflexivity|]. cbn [wsplit]. destruct (wsplit s) as [w l]. cbn [fst snd] in IH. destruct (wchar c); cbn [fst snd]; unfold assemble in *; cbn [app flat_map fst snd]; rewrite IH; reflexivity. Qed.
Lemma wsplit_ok : forall s, (forall c, In c (fst (wsplit s)) -> wchar c = true) /\ (forall c w, In (c, w) (snd (wsplit s)) -> wchar c = false /\ forall d, In d w -> wchar d = true).
Proof.
  induction s as [|c s (I1 & I2)]; [split; intros; contradiction|]. cbn [wsplit]. destruct (wsplit s) as [w l]. cbn [fst snd] in *. destruct (wchar c) eqn:E; cbn [fst snd].
  - split; [|exact I2]. intros d [<- |I]; auto.
  - split; [intros d []|]. intros d v [X|I]; [injection X as <- <-; auto|apply (I2 _ _ I)].
Qed.
Definition nonempty (w : text) : list text := match w with [] => [] | _ => [w] end.
Lemma words_assemble : forall w l cur, (forall c, In c w -> wchar c = true) -> (forall c v, In (c, v) l -> wchar c = false /\ forall d, In d v -> wchar d = true) ->
    words_from cur (assemble w l) = flat_map nonempty ((cur ++ w) :: map snd l).
Proof.
  intros w l. revert w. induction l as [|[c v] l IH].
  - intros w. unfold assemble. cbn [flat_map map]. rewrite app_nil_r. induction w as [|d w IHw]; intros cur Hw _; cbn [words_from flat_map app].
    + rewrite !app_nil_r. destruct cur; reflexivity.
    + rewrite (Hw d (or_introl eq_refl)). rewrite IHw; [|intros e I; apply Hw; right; exact I|intros ? ? []]. rewrite <- app_assoc. reflexivity.
  - intros w. induction w as [|d w IHw]; intros cur Hw Hl.
    + unfold assemble. cbn [app flat_map words_from fst snd map]. destruct (Hl c v (or_introl eq_refl)) as (Hc & Hv). rewrite Hc. rewrite app_nil_r. 
      change (words_from [] (v ++ flat_map (fun p => fst p :: snd p) l)) with (words_from [] (assemble v l)). rewrite (IH v [] Hv) by (intros e u I; apply Hl; right; exact I). destruct cur; reflexivity.
    + unfold assemble in *. cbn [app words_from]. rewrite (Hw d (or_introl eq_refl)). rewrite IHw; [|intros e I; apply Hw; right; exact I|exact Hl]. rewrite <- app_assoc. reflexivity.
Qed.
Lemma words_eq : forall s, words s = flat_map nonempty (fst (wsplit s) :: map snd (snd (wsplit s))).
Proof. intros s. unfold words. rewrite <- (wsplit_assemble s) at 1. apply (words_assemble _ _ []); apply wsplit_ok. Qed.
Lemma words_occur : forall s w, In w (words s) -> occurs w s /\ w <> [].
Proof.
  intros s w I. rewrite words_eq in I. apply in_flat_map in I. destruct I as (v & Iv & I). assert (v = w /\ w <> []) as (-> & NE) by (destruct v; cbn in I; [destruct I|]; destruct I as [<- |[]]; split; [reflexivity|discriminate]). split; [|exact NE].
  rewrite <- (wsplit_assemble s). destruct Iv as [<- |Iv]; [exists [], (flat_map (fun p => fst p :: snd p) (snd (wsplit s))); reflexivity|].
  apply in_map_iff in Iv. destruct Iv as ([c v] & <- & Iv). apply in_split in Iv. destruct Iv as (l1 & l2 & E). rewrite E. unfold assemble. rewrite flat_map_app. cbn [flat_map fst snd]. exists (fst (wsplit s) ++ flat_map (fun p => fst p :: snd p) l1 ++ [c]), (flat_map (fun p => fst p :: snd p) l2). rewrite <- !app_assoc. reflexivity.
Qed.

(** ** replacing a word *)
Definition rword (n n' w : text) : text := if text_dec w n then n' else w.
Lemma strip_word : forall n w tl r, (forall c, In c n -> wchar c = true) -> (match tl with [] => True | c :: _ => wchar c = false end) -> strip_prefix n (w ++ tl) = Some r -> exists w', w = n ++ w' /\ r = w' ++ tl.
Proof.
  induction n as [|a n IH]; intros w tl r Hn Ht E; [exists w; injection E as <-; auto|]. destruct w as [|b w].
  - cbn [app] in E. destruct tl as [|c tl]; [discriminate|]. cbn in E. destruct (Ascii.eqb_spec a c) as [-> |]; [|discriminate]. rewrite (Hn c (or_introl eq_refl)) in Ht. discriminate.
  - cbn in E. destruct (Ascii.eqb_spec a b) as [-> |]; [|discriminate]. destruct (IH w tl r) as (w' & -> & ->); [intros c I; apply Hn; right; exact I|exact Ht|exact E|]. exists w'. auto.
Qed.
Lemma replace_fuel_word : forall n n' w tl f, n <> [] -> (forall c, In c n -> wchar c = true) -> (match tl with [] => True | c :: _ => wchar c = false end) ->
    (occurs n w -> w = n) -> length (w ++ tl) <= f -> exists f', length tl <= f' /\ replace_fuel f n n' (w ++ tl) = rword n n' w ++ replace_fuel f' n n' tl.
Proof.
  intros n n' w tl f NE Hn Ht Hw L. unfold rword. destruct (text_dec w n) as [-> |NW].
  - destruct f as [|f]; [destruct n; cbn in L; [congruence|lia]|]. cbn [replace_fuel]. rewrite (proj2 (strip_prefix_spec n (n ++ tl) tl) eq_refl). exists f. split; [|reflexivity]. rewrite app_length in L. destruct n; [congruence|]. cbn [length] in L. lia.
  - assert (NO : ~ occurs n w) by (intros O; apply NW; auto). clear Hw NW. revert f L. induction w as [|c w IH]; intros f L; [exists f; split; [exact L|reflexivity]|]. destruct f as [|f]; [cbn in L; lia|]. cbn [replace_fuel app].
    change (c :: w ++ tl) with ((c :: w) ++ tl). destruct (strip_prefix n ((c :: w) ++ tl)) as [r|] eqn:E.
    + exfalso. destruct (strip_word n (c :: w) tl r Hn Ht E) as (w' & E' & _). apply NO. exists [], w'. exact E'.
    + cbn [app]. destruct (IH ltac:(intros (x & y & ->); apply NO; exists (c :: x), y; reflexivity) f) as (f' & L' & R); [cbn in L; lia|]. exists f'. split; [exact L'|]. rewrite R. reflexivity.
Qed.
Lemma replace_assemble : forall n n' l w f, n <> [] -> (forall c, In c n -> wchar c = true) -> (forall c v, In (c, v) l -> wchar c = false) -> (forall v, In v (w :: map snd l) -> occurs n v -> v = n) ->
    length (assemble w l) <= f -> replace_fuel f n n' (assemble w l) = assemble (rword n n' w) (map (fun p => (fst p, rword n n' (snd p))) l).
Proof.
  intros n n'. induction l as [|[c v] l IH]; intros w f NE Hn Hl Ho L.
  - unfold assemble in *. cbn [flat_map map] in *. destruct (replace_fuel_word n n' w [] f NE Hn I (Ho w (or_introl eq_refl)) L) as (f' & _ & E). rewrite E. f_equal. destruct f'; [reflexivity|]. cbn. destruct n; [congruence|reflexivity].
  - unfold assemble in *. cbn [flat_map map fst snd] in *. destruct (replace_fuel_word n n' w ((c :: v) ++ flat_map (fun p => fst p :: snd p) l) f NE Hn) as (f' & L' & E); [cbn; apply (Hl c v); left; reflexivity|apply Ho; left; reflexivity|exact L|].
    rewrite E. f_equal. cbn [app] in *. destruct f' as [|f']; [cbn in L'; lia|]. cbn [replace_fuel].
    destruct (strip_prefix n (c :: v ++ flat_map (fun p => fst p :: snd p) l)) as [r|] eqn:S.
    + exfalso. apply strip_prefix_spec in S. destruct n as [|a n]; [congruence|]. injection S as E1 _. assert (X := Hn a (or_introl eq_refl)). rewrite <- E1, (Hl c v (or_introl eq_refl)) in X. discriminate.
    + f_equal. apply IH; [exact NE|exact Hn|intros d u I; apply (Hl d u); right; exact I|intros u I; apply Ho; right; exact I|cbn in L'; lia].
Qed.
Lemma subst_wchar : forall i n c, (forall d, In d n -> wchar d = true) -> In c (subst i n) -> wchar c = true /\ c <> colon.
Proof.
  intros i n c H I. unfold subst in I. apply in_flat_map in I. destruct I as (d & Id & I). destruct (Ascii.eqb_spec d colon) as [-> |NE].
  - apply dec_digits in I. split; [unfold wchar; rewrite I, orb_true_r; reflexivity|intros ->; discriminate].
  - destruct I as [<- |[]]. auto.
Qed.

(** ** compiling *)
Definition rename (from : list (text * text)) (names : list text) (w : text) : text :=
  if in_dec text_dec w names then match dget teqb from w with Some n' => n' | None => w end else w.
Lemma compile_words : forall from names w l,
    (forall n, In n names -> n <> [] /\ has_colon n = true /\ (forall c, In c n -> wchar c = true) /\ exists n', dget teqb from n = Some n' /\ (forall c, In c n' -> wchar c = true /\ c <> colon)) ->
    (forall c v, In (c, v) l -> wchar c = false /\ forall d, In d v -> wchar d = true) -> (forall d, In d w -> wchar d = true) ->
    (forall v n, In v (w :: map snd l) -> In n names -> occurs n v -> v = n) ->
    compile_expr from names (assemble w l) = assemble (rename from names w) (map (fun p => (fst p, rename from names (snd p))) l).
Proof.
  intros from. induction names as [|n names IH]; intros w l HN Hl Hw Ho.
  - cbn [compile_expr]. f_equal. rewrite <- (map_id l) at 1. apply map_ext. intros [c v]. reflexivity.
  - cbn [compile_expr]. destruct (HN n (or_introl eq_refl)) as (NE & HC & HW & n' & D & HN'). rewrite D. unfold replace.
    rewrite (replace_assemble n n' l w); [|exact NE|exact HW|intros c v I; apply (Hl c v I)|intros v I; apply Ho; [exact I|left; reflexivity]|lia].
    assert (NC : forall m, In m names -> ~ occurs m n').
    { intros m Im (x & y & E). destruct (HN m (or_intror Im)) as (_ & Hc & _). apply has_colon_in in Hc. destruct (HN' colon) as (_ & X); [|congruence]. rewrite E. apply in_or_app. right. apply in_or_app. left. exact Hc. }
    assert (RW : forall v, rword n n' v = v \/ (v = n /\ rword n n' v = n')) by (intros v; unfold rword; destruct (text_dec v n); auto).
    assert (RN : forall v, rename from names (rword n n' v) = rename from (n :: names) v).
    { intros v. unfold rename, rword. destruct (text_dec v n) as [-> |NV].
      - destruct (in_dec text_dec n (n :: names)) as [_|X]; [|exfalso; apply X; left; reflexivity]. rewrite D. destruct (in_dec text_dec n' names) as [X|_]; [|reflexivity]. exfalso. apply (NC n' X). exists [], []. rewrite app_nil_r. reflexivity.
      - destruct (in_dec text_dec v names) as [X|X], (in_dec text_dec v (n :: names)) as [Y|Y]; try reflexivity; exfalso; [apply Y; right; exact X|destruct Y as [Y|Y]; [congruence|contradiction]]. }
    rewrite IH.
    + rewrite RN, map_map. f_equal. apply map_ext. intros [c v]. cbn [fst snd]. rewrite RN. reflexivity.
    + intros m Im. apply HN. right. exact Im.
    + intros c v I. apply in_map_iff in I. destruct I as ([c0 v0] & E & I). cbn [fst snd] in E. injection E as <- <-. destruct (Hl c0 v0 I) as (H1 & H2). split; [exact H1|]. intros d. destruct (RW v0) as [-> |(-> & ->)]; [apply H2|intros Id; apply (HN' d Id)].
    + intros d. destruct (RW w) as [-> |(-> & ->)]; [apply Hw|intros Id; apply (HN' d Id)].
    + intros v m Iv Im O.
      assert (EX : exists u, In u (w :: map snd l) /\ v = rword n n' u).
      { destruct Iv as [<- |Iv]; [exists w; split; [left; reflexivity|reflexivity]|]. rewrite map_map in Iv. apply in_map_iff in Iv. destruct Iv as ([c u] & <- & Iu). exists u. split; [right; apply in_map_iff; exists (c, u); auto|reflexivity]. }
      destruct EX as (u & Iu & ->). destruct (RW u) as [E|(-> & E)]; rewrite E in *; [apply (Ho u m Iu (or_intror Im) O)|]. exfalso. apply (NC m Im O).
Qed.

(** ** the names found in an expression *)
Lemma letter_digit : forall c, letter c = true -> digit c = false.
Proof. intros c. destruct c as [[] [] [] [] [] [] [] []]; cbv; congruence. Qed.
Lemma letter_colon : forall c, letter c = true -> c <> colon. Proof. intros c H ->. discriminate. Qed.
Lemma wordc_wchar : forall c, wordc c = true -> wchar c = true. Proof. intros c H. unfold wchar, wordc in *. rewrite H. reflexivity. Qed.
Lemma wordc_colon : forall c, wordc c = true -> c <> colon. Proof. intros c H ->. discriminate. Qed.
Lemma span_ok : forall p s a b, span p s = (a, b) -> s = a ++ b /\ forall c, In c a -> p c = true.
Proof.
  intros p. induction s as [|c s IH]; intros a b E; cbn in E; [injection E as <- <-; split; [reflexivity|intros ? []]|]. destruct (p c) eqn:P; [|injection E as <- <-; split; [reflexivity|intros ? []]].
  destruct (span p s) as [a' b'] eqn:E'. injection E as <- <-. destruct (IH a' b' eq_refl) as (-> & H). split; [reflexivity|]. intros d [<- |I]; auto.
Qed.
(** every colon is followed by a letter *)
Fixpoint cwf (n : text) : bool :=
  match n with
  | [] => true
  | c :: r => (negb (Ascii.eqb c colon) || match r with d :: _ => letter d | [] => false end) && cwf r
  end.
Lemma cwf_app : forall a b, (forall c, In c a -> wordc c = true) -> cwf (a ++ b) = cwf b.
Proof. induction a as [|c a IH]; intros b H; [reflexivity|]. cbn [app cwf]. destruct (Ascii.eqb_spec c colon) as [E|_]; [exfalso; apply (wordc_colon c); [apply H; left; reflexivity|exact E]|]. cbn. apply IH. intros d I. apply H. right. exact I. Qed.
Lemma colon_parts_ok : forall f s a b, colon_parts f s = (a, b) -> s = a ++ b /\ (forall c, In c a -> wchar c = true) /\ cwf a = true.
Proof.
  induction f as [|f IH]; intros s a b E; cbn in E; [injection E as <- <-; split; [reflexivity|split; [intros ? []|reflexivity]]|].
  destruct s as [|k [|c r]]; try (injection E as <- <-; split; [reflexivity|split; [intros ? []|reflexivity]]).
  destruct (Ascii.eqb k colon && letter c) eqn:C; [|injection E as <- <-; split; [reflexivity|split; [intros ? []|reflexivity]]]. apply andb_true_iff in C. destruct C as (C1 & C2). apply Ascii.eqb_eq in C1. subst k.
  destruct (span wordc r) as [w r1] eqn:ES. destruct (colon_parts f r1) as [w2 r2] eqn:EC. injection E as <- <-. destruct (span_ok _ _ _ _ ES) as (-> & HS). destruct (IH _ _ _ EC) as (-> & HC & HW).
  assert (WC : wordc c = true) by (unfold wordc; rewrite C2; reflexivity).
  split; [cbn; rewrite <- app_assoc; reflexivity|]. split.
  - intros d [<- |[<- |I]]; [reflexivity|apply wordc_wchar; exact WC|]. apply in_app_or in I. destruct I as [I|I]; [apply wordc_wchar, HS, I|apply HC, I].
  - change (colon :: c :: w ++ w2) with ([colon] ++ (c :: w) ++ w2). cbn [app cwf]. rewrite C2, Ascii.eqb_refl. cbn [negb orb andb]. destruct (Ascii.eqb_spec c colon) as [X|_]; [exfalso; apply (letter_colon c C2 X)|]. cbn [negb orb andb]. rewrite cwf_app by exact HS. exact HW.
Qed.
Definition proper (n : text) : Prop := n <> [] /\ (forall c, In c n -> wchar c = true) /\ cwf n = true.
Lemma occurs_cons : forall n c s, occurs n s -> occurs n (c :: s).
Proof. intros n c s (x & y & ->). exists (c :: x), y. reflexivity. Qed.
Lemma occurs_app : forall n a s, occurs n s -> occurs n (a ++ s).
Proof. intros n a s (x & y & ->). exists (a ++ x), y. rewrite <- app_assoc. reflexivity. Qed.
Lemma find_vars_ok : forall f s n, In n (find_vars f s) -> proper n /\ occurs n s.
Proof.
  induction f as [|f IH]; intros s n I; [destruct I|]. cbn [find_vars] in I. destruct s as [|c r]; [destruct I|]. destruct (letter c) eqn:LC; [|destruct (IH r n I) as (P & O); split; [exact P|apply occurs_cons; exact O]].
  destruct (span wordc r) as [w r1] eqn:E1. destruct (colon_parts (length r1) r1) as [w2 r2] eqn:E2. destruct (span (fun d => Ascii.eqb d " "%char) r2) as [w3 r3] eqn:E3.
  destruct (span_ok _ _ _ _ E1) as (-> & H1). destruct (colon_parts_ok _ _ _ _ E2) as (-> & H2 & H2'). destruct (span_ok _ _ _ _ E3) as (-> & H3).
  assert (SELF : proper (c :: w ++ w2) /\ occurs (c :: w ++ w2) (c :: w ++ w2 ++ w3 ++ r3)).
  { split; [|exists [], (w3 ++ r3); cbn; rewrite <- app_assoc; reflexivity]. assert (WC : wordc c = true) by (unfold wordc; rewrite LC; reflexivity). split; [discriminate|]. split.
    - intros d [<- |I']; [apply wordc_wchar; exact WC|]. apply in_app_or in I'. destruct I' as [I'|I']; [apply wordc_wchar, H1, I'|apply H2, I'].
    - change (c :: w ++ w2) with ((c :: w) ++ w2). rewrite cwf_app; [exact H2'|]. intros d [<- |I']; auto. }
  assert (REST : forall n, In n (find_vars f r3) -> proper n /\ occurs n (c :: w ++ w2 ++ w3 ++ r3)).
  { intros m Im. destruct (IH r3 m Im) as (P & O). split; [exact P|]. apply occurs_cons. do 3 apply occurs_app. exact O. }
  destruct r3 as [|p r4].
  - destruct I as [<- |I]; [exact SELF|apply REST; exact I].
  - destruct (Ascii.eqb p "("%char).
    + destruct (IH r4 n I) as (P & O). split; [exact P|]. apply occurs_cons. do 3 apply occurs_app. apply occurs_cons. exact O.
    + destruct I as [<- |I]; [exact SELF|apply REST; exact I].
Qed.
Lemma joined_occurs : forall exprs e n, In e exprs -> occurs n e -> occurs n (joined exprs).
Proof.
  induction exprs as [|a exprs IH]; intros e n I O; [destruct I|]. destruct exprs as [|b exprs]; [destruct I as [<- |[]]; exact O|].
  change (joined (a :: b :: exprs)) with (a ++ " "%char :: joined (b :: exprs)). destruct I as [<- |I].
  - destruct O as (x & y & ->). exists x, (y ++ " "%char :: joined (b :: exprs)). rewrite <- !app_assoc. reflexivity.
  - apply occurs_app, occurs_cons, (IH e); assumption.
Qed.
Lemma parse_ok : forall known exprs n, In n (parse_for_vars known exprs) -> proper n /\ occurs n (joined exprs) /\ known n = false.
Proof.
  intros known exprs n I. unfold parse_for_vars in I. apply nodup_In, filter_In in I. destruct I as (I & K). apply negb_true_iff in K. apply in_flat_map in I. destruct I as (e & Ie & I). destruct (find_vars_ok _ _ _ I) as (P & O). split; [exact P|]. split; [apply (joined_occurs exprs e n Ie O)|exact K].
Qed.

(** ** the dictionaries *)
Definition chosen (check n n' : text) : Prop := if has_colon n then exists i, n' = subst i n /\ ~ occurs n' check else n' = n.
Lemma names_loop_ok : forall check vars, (forall n, In n vars -> has_colon n = true -> In colon n) -> NoDup vars ->
    exists k fc, (forall n, In n vars -> chosen check n (fc n)) /\
      forall fuel to from, k <= fuel -> names_loop fuel check vars to from = Some (fold_left (fun d n => dset teqb d (fc n) n) vars to, fold_left (fun d n => dset teqb d n (fc n)) vars from).
Proof.
  intros check. induction vars as [|n vars IH]; intros H ND; [exists 0, (fun n => n); split; [intros ? []|reflexivity]|]. inversion ND as [|? ? NI ND']; subst.
  destruct (IH (fun m I => H m (or_intror I)) ND') as (k & fc & C & E).
  assert (ONE : exists k1 n', chosen check n n' /\ forall fuel, k1 <= fuel -> (if has_colon n then valid_name fuel 0 n check else Some n) = Some n').
  { unfold chosen. destruct (has_colon n) eqn:HC; [|exists 0, n; auto]. destruct (valid_name_enough n check (H n (or_introl eq_refl) HC)) as (k1 & V). destruct (V k1 (Nat.le_refl _)) as (i & Ei & Oi). exists k1, (subst i n). split; [exists i; auto|]. intros fuel L. apply (valid_name_mono _ _ _ _ _ Ei fuel L). }
  destruct ONE as (k1 & n' & C1 & E1). exists (Nat.max k k1), (fun m => if text_dec m n then n' else fc m). split.
  - intros m [<- |I]; [destruct (text_dec n n); [exact C1|congruence]|]. destruct (text_dec m n) as [-> |]; [contradiction|apply C; exact I].
  - intros fuel to from L. cbn [names_loop fold_left]. rewrite E1 by lia. rewrite E by lia. destruct (text_dec n n); [|congruence].
    assert (F : forall (A : Type) (g h : A -> text -> A) l a, (forall a m, In m l -> g a m = h a m) -> fold_left g l a = fold_left h l a).
    { intros A g h. induction l as [|x l IHl]; intros a G; [reflexivity|]. cbn. rewrite G by (left; reflexivity). apply IHl. intros b m I. apply G. right. exact I. }
    f_equal. f_equal; apply F; intros d m I; (destruct (text_dec m n) as [-> |]; [contradiction|reflexivity]).
Qed.
Lemma fold_from : forall (fc : text -> text) (vars : list text) (d : list (text * text)) (n : text), (In n vars -> dget teqb (fold_left (fun d n => dset teqb d n (fc n)) vars d) n = Some (fc n)) /\ (~ In n vars -> dget teqb (fold_left (fun d n => dset teqb d n (fc n)) vars d) n = dget teqb d n).
Proof.
  intros fc. induction vars as [|m vars IH]; intros d n; [split; [intros []|reflexivity]|]. cbn [fold_left In]. destruct (IH (dset teqb d m (fc m)) n) as (I1 & I2). split.
  - intros I. destruct (in_dec text_dec n vars) as [Iv|Nv]; [apply I1; exact Iv|]. rewrite I2 by exact Nv. destruct I as [<- |I]; [|contradiction]. apply dget_dset_eq. apply teqb_iff.
  - intros NI. rewrite I2 by tauto. apply dget_dset_ne; [apply teqb_iff|]. intros ->. apply NI. left. reflexivity.
Qed.
Lemma fold_to : forall (fc : text -> text) (vars : list text) (d : list (text * text)) (w : text), (forall n, In n vars -> w = fc n -> NoDup (map fc vars) -> dget teqb (fold_left (fun d n => dset teqb d (fc n) n) vars d) w = Some n) /\ (~ In w (map fc vars) -> dget teqb (fold_left (fun d n => dset teqb d (fc n) n) vars d) w = dget teqb d w).
Proof.
  intros fc. induction vars as [|m vars IH]; intros d w; [split; [intros ? []|reflexivity]|]. cbn [fold_left In map]. destruct (IH (dset teqb d (fc m) m) w) as (I1 & I2). split.
  - intros n I E ND. inversion ND as [|? ? NI ND']; subst. destruct I as [<- |I]; [|apply I1; auto]. rewrite I2 by exact NI. apply dget_dset_eq. apply teqb_iff.
  - intros NI. rewrite I2 by tauto. apply dget_dset_ne; [apply teqb_iff|]. intros ->. apply NI. left. reflexivity.
Qed.
(** ** different names get different replacements *)
Lemma digits_prefix : forall a b x y, (forall c, In c a -> digit c = true) -> (forall c, In c b -> digit c = true) -> (match x with c :: _ => digit c = false | [] => True end) -> (match y with c :: _ => digit c = false | [] => True end) -> a ++ x = b ++ y -> x = y.
Proof.
  induction a as [|c a IH]; intros [|d b] x y Ha Hb Hx Hy E.
  - exact E.
  - cbn in E. subst x. rewrite (Hb d (or_introl eq_refl)) in Hx. discriminate.
  - cbn in E. subst y. rewrite (Ha c (or_introl eq_refl)) in Hy. discriminate.
  - injection E as _ E. apply (IH b x y); auto; intros e I; [apply Ha|apply Hb]; right; exact I.
Qed.
Lemma subst_inj : forall i j n m, (forall c, In c n -> digit c = false) -> (forall c, In c m -> digit c = false) -> cwf n = true -> cwf m = true -> subst i n = subst j m -> n = m.
Proof.
  intros i j. induction n as [|c n IH]; intros [|d m] Hn Hm Wn Wm E; [reflexivity| | |].
  - unfold subst in E. cbn [flat_map] in E. destruct (Ascii.eqb d colon); [|discriminate]. assert (X := dec_nonempty j). destruct (dec j); [congruence|discriminate].
  - unfold subst in E. cbn [flat_map] in E. destruct (Ascii.eqb c colon); [|discriminate]. assert (X := dec_nonempty i). destruct (dec i); [congruence|discriminate].
  - cbn [cwf] in Wn, Wm. apply andb_true_iff in Wn, Wm. destruct Wn as (Wn1 & Wn2), Wm as (Wm1 & Wm2).
    assert (IH' : forall m, (forall c, In c m -> digit c = false) -> cwf m = true -> subst i n = subst j m -> n = m) by (intros m' A B C; apply IH; auto; intros e I; apply Hn; right; exact I).
    assert (Hm' : forall c, In c m -> digit c = false) by (intros e I; apply Hm; right; exact I).
    unfold subst in E. cbn [flat_map] in E. destruct (Ascii.eqb_spec c colon) as [-> |NC], (Ascii.eqb_spec d colon) as [-> |ND].
    + f_equal. apply IH'; auto. change (dec i ++ subst i n = dec j ++ subst j m) in E.
      assert (HD : forall k q, (match q with x :: _ => letter x | [] => false end) = true -> match subst k q with x :: _ => digit x = false | [] => True end).
      { intros k [|x q] L; [discriminate|]. unfold subst. cbn [flat_map]. destruct (Ascii.eqb_spec x colon) as [-> |_]; [discriminate|]. cbn. apply letter_digit. exact L. }
      apply (digits_prefix (dec i) (dec j) (subst i n) (subst j m)); try exact E; try (apply dec_digits); apply HD; [exact Wn1|exact Wm1].
    + exfalso. assert (X := dec_nonempty i). destruct (dec i) as [|e l] eqn:EI; [congruence|]. cbn in E. injection E as E _. assert (Y : digit e = true) by (apply (dec_digits i); rewrite EI; left; reflexivity). rewrite E, (Hm d (or_introl eq_refl)) in Y. discriminate.
    + exfalso. assert (X := dec_nonempty j). destruct (dec j) as [|e l] eqn:EJ; [congruence|]. cbn in E. injection E as E _. assert (Y : digit e = true) by (apply (dec_digits j); rewrite EJ; left; reflexivity). rewrite <- E, (Hn c (or_introl eq_refl)) in Y. discriminate.
    + cbn in E. injection E as -> E. f_equal. apply IH'; auto.
Qed.
Lemma NoDup_map_inj : forall (f : text -> text) l, NoDup l -> (forall a b, In a l -> In b l -> f a = f b -> a = b) -> NoDup (map f l).
Proof.
  intros f. induction l as [|a l IH]; intros ND H; [constructor|]. inversion ND as [|? ? NI ND']; subst. cbn. constructor.
  - intros I. apply in_map_iff in I. destruct I as (b & E & Ib). apply NI. rewrite (H a b); [exact Ib|left; reflexivity|right; exact Ib|symmetry; exact E].
  - apply IH; [exact ND'|]. intros x y Ix Iy. apply H; right; assumption.
Qed.
Lemma chosen_inj : forall exprs vars fc, (forall n, In n vars -> proper n /\ occurs n (joined exprs)) -> (forall n, In n vars -> chosen (joined exprs) n (fc n)) -> no_digits vars ->
    forall a b, In a vars -> In b vars -> fc a = fc b -> a = b.
Proof.
  intros exprs vars fc P C D a b Ia Ib E. assert (Ca := C a Ia). assert (Cb := C b Ib). unfold chosen in *. destruct (has_colon a) eqn:HA, (has_colon b) eqn:HB.
  - destruct Ca as (i & Ei & _), Cb as (j & Ej & _). apply (subst_inj i j); [intros c I; apply (D a c Ia HA I)|intros c I; apply (D b c Ib HB I)|apply (P a Ia)|apply (P b Ib)|congruence].
  - destruct Ca as (i & _ & O). exfalso. apply O. rewrite E, Cb. apply (P b Ib).
  - destruct Cb as (i & _ & O). exfalso. apply O. rewrite <- E, Ca. apply (P a Ia).
  - congruence.
Qed.
(** ** the result *)
Lemma refers : forall exprs vars cols fc, NoDup vars -> (forall n, In n vars -> proper n /\ occurs n (joined exprs)) -> (forall n, In n vars -> chosen (joined exprs) n (fc n)) -> NoDup (map fc vars) ->
    (forall n, In n cols <-> In n vars /\ has_colon n = true) -> no_overlap vars exprs ->
    let to := fold_left (fun d n => dset teqb d (fc n) n) vars [] in let from := fold_left (fun d n => dset teqb d n (fc n)) vars [] in
    forall e, In e exprs -> refers_well vars to e (compile_expr from cols e).
Proof.
  intros exprs vars cols fc ND P C NDF HC NO to from e Ie. unfold refers_well.
  destruct (wsplit_ok e) as (W1 & W2). assert (WE := words_eq e). assert (AS := wsplit_assemble e). destruct (wsplit e) as [w l]. cbn [fst snd] in *.
  assert (GF : forall n, In n vars -> dget teqb from n = Some (fc n)) by (intros n I; apply fold_from; exact I).
  assert (FW : forall n, In n vars -> forall c, In c (fc n) -> wchar c = true /\ c <> colon).
  { intros n I c Ic. assert (Cn := C n I). destruct (P n I) as ((_ & Pw & _) & _). unfold chosen in Cn. destruct (has_colon n) eqn:H; [destruct Cn as (i & Ei & _); rewrite Ei in Ic; apply (subst_wchar i n c Pw Ic)|]. rewrite Cn in Ic. split; [apply Pw; exact Ic|]. intros ->. apply has_colon_in in Ic. congruence. }
  assert (FN : forall n, In n vars -> fc n <> []).
  { intros n I. assert (Cn := C n I). destruct (P n I) as ((Pn & _) & _). unfold chosen in Cn. destruct (has_colon n) eqn:H; [|congruence]. destruct Cn as (i & Ei & _). apply has_colon_in in H. assert (X := subst_length i n H). assert (Y := dec_nonempty i). rewrite Ei. intros Z. rewrite Z in X. destruct (dec i); [congruence|cbn in X; lia]. }
  assert (INW : forall v, In v (w :: map snd l) -> v <> [] -> In v (words e)) by (intros v I NE; rewrite WE; apply in_flat_map; exists v; split; [exact I|destruct v; [congruence|left; reflexivity]]).
  assert (CW : compile_expr from cols (assemble w l) = assemble (rename from cols w) (map (fun p => (fst p, rename from cols (snd p))) l)).
  { apply compile_words; [| exact W2|exact W1|].
    - intros n I. apply HC in I. destruct I as (I & H). destruct (P n I) as ((P1 & P2 & _) & _). split; [exact P1|]. split; [exact H|]. split; [exact P2|]. exists (fc n). split; [apply GF; exact I|apply FW; exact I].
    - intros v n Iv In_ O. apply HC in In_. destruct In_ as (I & H). destruct v as [|c v].
      + exfalso. destruct O as (x & y & E). symmetry in E. apply app_eq_nil in E. destruct E as (_ & E). apply app_eq_nil in E. destruct E as (E & _). destruct (P n I) as ((P1 & _) & _). contradiction.
      + apply (NO e (c :: v) n Ie); auto. apply INW; [exact Iv|discriminate]. }
  rewrite AS in CW. rewrite CW.
  assert (RNW : forall v, (forall c, In c v -> wchar c = true) -> forall c, In c (rename from cols v) -> wchar c = true).
  { intros v Hv c. unfold rename. destruct (in_dec text_dec v cols) as [Ic|_]; [|apply Hv]. apply HC in Ic. destruct Ic as (Iv & _). rewrite (GF v Iv). intros X. apply (FW v Iv c X). }
  unfold words. rewrite (words_assemble (rename from cols w) _ []).
  2: { apply RNW. exact W1. }
  2: { intros c v I. apply in_map_iff in I. destruct I as ([c0 v0] & E & I). cbn [fst snd] in E. injection E as <- <-. destruct (W2 c0 v0 I) as (A & B). split; [exact A|apply RNW; exact B]. }
  change (words_from [] e) with (words e). rewrite WE. cbn [app]. rewrite map_map.
  replace (map (fun x : ascii * text => snd (fst x, rename from cols (snd x))) l) with (map (rename from cols) (map snd l)) by (rewrite map_map; reflexivity).
  change (rename from cols w :: map (rename from cols) (map snd l)) with (map (rename from cols) (w :: map snd l)).
  assert (LK : forall v, In v (w :: map snd l) -> map (dget teqb to) (nonempty (rename from cols v)) = map (fun w => if in_dec text_dec w vars then Some w else None) (nonempty v)).
  { intros v Iv. destruct v as [|c v].
    - replace (rename from cols []) with (@nil ascii); [reflexivity|]. unfold rename. destruct (in_dec text_dec [] cols) as [X|_]; [|reflexivity]. apply HC in X. destruct X as (X & _). destruct (P [] X) as ((Y & _) & _). congruence.
    - assert (Iw : In (c :: v) (words e)) by (apply INW; [exact Iv|discriminate]). unfold rename. destruct (in_dec text_dec (c :: v) cols) as [Ic|Nc].
      + apply HC in Ic. destruct Ic as (Ivs & _). rewrite (GF _ Ivs). cbn [nonempty map]. destruct (in_dec text_dec (c :: v) vars) as [_|X]; [|contradiction].
        assert (NE := FN _ Ivs). assert (T : dget teqb to (fc (c :: v)) = Some (c :: v)) by (apply (fold_to fc vars [] (fc (c :: v))); auto). destruct (fc (c :: v)) as [|d q]; [congruence|]. cbn [nonempty map]. rewrite T. reflexivity.
      + cbn [nonempty map]. destruct (in_dec text_dec (c :: v) vars) as [Ivs|Nvs].
        * assert (H : has_colon (c :: v) = false) by (destruct (has_colon (c :: v)) eqn:H; [exfalso; apply Nc, HC; auto|reflexivity]). assert (Cn := C _ Ivs). unfold chosen in Cn. rewrite H in Cn. f_equal. apply (fold_to fc vars [] (c :: v)); auto.
        * f_equal. unfold to. rewrite (proj2 (fold_to fc vars [] (c :: v))); [reflexivity|]. intros X. apply in_map_iff in X. destruct X as (n & E & In_). assert (Cn := C n In_). unfold chosen in Cn. destruct (has_colon n).
          -- destruct Cn as (i & Ei & O). apply O. rewrite E. apply (joined_occurs exprs e); [exact Ie|]. apply (words_occur e). exact Iw.
          -- apply Nvs. rewrite <- E, Cn. exact In_. }
  assert (GEN : forall ws, (forall v, In v ws -> In v (w :: map snd l)) -> map (dget teqb to) (flat_map nonempty (map (rename from cols) ws)) = map (fun w => if in_dec text_dec w vars then Some w else None) (flat_map nonempty ws)).
  { induction ws as [|v ws IH]; intros H; [reflexivity|]. cbn [map flat_map]. rewrite !map_app. rewrite (LK v) by (apply H; left; reflexivity). f_equal. apply IH. intros u I. apply H. right. exact I. }
  apply GEN. auto.
Qed.

(** Lemmas about file wrapping. *)
From Verif Require Import Base FileModel FileSpec.
Local Open Scope nat_scope.

(** ** lists *)
Lemma set_nth_length : forall A (l : list A) i x, length (set_nth l i x) = length l.
Proof. induction l as [|a l IH]; intros [|i] x; cbn; auto. Qed.
Lemma set_nth_same : forall A (l : list A) i x, i < length l -> nth_error (set_nth l i x) i = Some x.
Proof. induction l as [|a l IH]; intros [|i] x H; cbn in *; try lia; auto. apply IH. lia. Qed.
Lemma set_nth_other : forall A (l : list A) i j x, j <> i -> nth_error (set_nth l i x) j = nth_error l j.
Proof. induction l as [|a l IH]; intros [|i] [|j] x H; cbn; auto; try congruence. Qed.
Lemma set_nth_app : forall A (a : list A) x y b, set_nth (a ++ x :: b) (length a) y = a ++ y :: b.
Proof. induction a as [|z a IH]; intros x y b; cbn; [reflexivity|]. rewrite IH. reflexivity. Qed.

Lemma py_index_nat : forall len i, i < len -> py_index len (Z.of_nat i) = Some i.
Proof.
  intros len i H. unfold py_index. destruct (Z.leb_spec 0 (Z.of_nat i)); [|lia]. destruct (Z.ltb_spec (Z.of_nat i) (Z.of_nat len)); [|lia]. f_equal. lia.
Qed.
Lemma py_get_nat : forall A (l : list A) i x, nth_error l i = Some x -> py_get l (Z.of_nat i) = Ok x.
Proof. intros A l i x H. unfold py_get. rewrite py_index_nat by (apply nth_error_Some; congruence). rewrite H. reflexivity. Qed.
Lemma py_index_none : forall len j, (j < - Z.of_nat len \/ Z.of_nat len <= j)%Z -> py_index len j = None.
Proof.
  intros len j H. unfold py_index. destruct (Z.leb_spec 0 j); [destruct (Z.ltb_spec j (Z.of_nat len)); [lia|reflexivity]|].
  destruct (Z.leb_spec (- Z.of_nat len) j); [lia|reflexivity].
Qed.
Lemma py_index_lt : forall len j i, py_index len j = Some i -> i < len.
Proof.
  intros len j i H. unfold py_index in H. destruct (Z.leb_spec 0 j).
  - destruct (Z.ltb_spec j (Z.of_nat len)); [|discriminate]. injection H as <-. lia.
  - destruct (Z.leb_spec (- Z.of_nat len) j); [|discriminate]. injection H as <-. lia.
Qed.

(** ** fields *)
Section Fields.
  Context {T : Type}.
  Variable isd : ascii -> bool.
  Variable f : T -> text -> res (T * text).

  Fixpoint map_fields (s : T) (ws : list (text * text)) : res (T * list (text * text)) :=
    match ws with
    | [] => Ok (s, [])
    | (w, g) :: r => let! o := f s w in let! p := map_fields (fst o) r in Ok (fst p, (snd o, g) :: snd p)
    end.

  Lemma re_sub_gap : forall g rest s, is_gap isd g ->
      re_sub isd f (g ++ rest) [] s = let! o := re_sub isd f rest [] s in Ok (g ++ fst o, snd o).
  Proof.
    intros g rest s H. induction H as [|c g Hc H IH].
    - cbn. destruct (re_sub isd f rest [] s) as [[o t]|]; reflexivity.
    - cbn [app re_sub]. rewrite Hc, IH. destruct (re_sub isd f rest [] s) as [[o t]|]; reflexivity.
  Qed.
  Lemma re_sub_word : forall w rest acc s, Forall (fun c => isd c = false) w ->
      re_sub isd f (w ++ rest) acc s = re_sub isd f rest (rev w ++ acc) s.
  Proof.
    intros w rest acc s H. revert acc. induction H as [|c w Hc H IH]; intros acc; [reflexivity|].
    cbn [app re_sub rev]. rewrite Hc, IH, <- app_assoc. reflexivity.
  Qed.

  Lemma re_sub_fields : forall ws s, Forall (fun wg => is_field isd (fst wg) /\ is_gap isd (snd wg)) ws -> separated ws ->
      re_sub isd f (flat_fields ws) [] s = let! o := map_fields s ws in Ok (flat_fields (snd o), fst o).
  Proof.
    induction ws as [|[w g] ws IH]; intros s HF HS; [reflexivity|]. inversion HF as [|? ? [[Hn Hw] Hg] HF']; subst. cbn [fst snd] in *.
    destruct HS as [Hs HS]. cbn [flat_fields flat_map fst snd map_fields]. fold (flat_fields ws). rewrite <- app_assoc, re_sub_word by exact Hw. rewrite app_nil_r.
    assert (N : rev w <> []) by (intros E; apply Hn; rewrite <- (rev_involutive w), E; reflexivity).
    destruct (rev w) as [|x rw] eqn:Er; [congruence|].
    assert (Ew : rev (x :: rw) = w) by (rewrite <- Er; apply rev_involutive).
    destruct g as [|c g].
    - destruct ws as [|p ws]; [|congruence]. cbn [app flat_fields flat_map re_sub map_fields]. rewrite Ew. destruct (f s w) as [[s1 t]|]; cbn; [rewrite !app_nil_r|]; reflexivity.
    - pose proof (Forall_inv Hg) as Hc. pose proof (Forall_inv_tail Hg) as Hg'. cbn [app re_sub]. rewrite Hc, Ew. destruct (f s w) as [[s1 t]|]; cbn [bind fst snd]; [|reflexivity].
      rewrite re_sub_gap by exact Hg'. rewrite (IH s1 HF' HS). destruct (map_fields s1 ws) as [[s2 ws']|]; cbn [bind fst snd]; [|reflexivity].
      unfold flat_fields. cbn [flat_map fst snd]. rewrite <- app_assoc. reflexivity.
  Qed.

  Lemma re_sub_layout : forall l line s, laid_out isd l line ->
      re_sub isd f line [] s = let! o := map_fields s (snd l) in Ok (flat (fst l, snd o), fst o).
  Proof.
    intros [g0 ws] line s (-> & Hg & HF & HS). cbn [fst snd] in *. unfold flat. cbn [fst snd]. rewrite re_sub_gap by exact Hg.
    rewrite re_sub_fields by assumption. destruct (map_fields s ws) as [[s1 ws']|]; reflexivity.
  Qed.
End Fields.

(** every line has a layout *)
Lemma layout_exists : forall isd line, exists l, laid_out isd l line.
Proof.
  intros isd line. induction line as [|c line ([g0 ws] & E & Hg & HF & HS)].
  - exists ([], []). repeat split; constructor.
  - cbn [fst snd] in *. subst line. destruct (isd c) eqn:Ec.
    + exists (c :: g0, ws). split; [reflexivity|]. split; [constructor; assumption|]. split; assumption.
    + destruct g0 as [|x g0].
      * destruct ws as [|[w g] ws].
        -- exists ([], [([c], [])]). split; [reflexivity|]. split; [constructor|]. split; [|split; [exact I|exact I]].
           constructor; [|constructor]. cbn. split; [split; [discriminate|constructor; [exact Ec|constructor]]|constructor].
        -- exists ([], (c :: w, g) :: ws). split; [reflexivity|]. split; [constructor|]. cbn [snd] in *. inversion HF as [|? ? [[Hn Hw] Hgw] HF']; subst.
           split; [|exact HS]. constructor; [|exact HF']. split; [split; [discriminate|constructor; assumption]|exact Hgw].
      * exists ([], ([c], x :: g0) :: ws). split; [reflexivity|]. split; [constructor|]. cbn [snd] in *. split.
        -- constructor; [|exact HF]. split; [split; [discriminate|constructor; [exact Ec|constructor]]|exact Hg].
        -- split; [destruct ws; [exact I|discriminate]|exact HS].
Qed.

(** and only one *)
Lemma span_unique : forall (P : ascii -> Prop) a b x y, Forall P a -> Forall P b ->
    (match x with [] => True | c :: _ => ~ P c end) -> (match y with [] => True | c :: _ => ~ P c end) -> a ++ x = b ++ y -> a = b /\ x = y.
Proof.
  intros P a b x y HA. revert b. induction HA as [|c a Hc HA IH]; intros b HB Hx Hy E.
  - destruct HB as [|c b Hc HB]; [split; [reflexivity|exact E]|]. cbn in E. subst x. contradiction.
  - destruct HB as [|c' b Hc' HB]; cbn in E; [subst y; contradiction|]. injection E as <- E. destruct (IH b HB Hx Hy E) as [<- <-]. split; reflexivity.
Qed.
Lemma fields_unique : forall isd ws ws', Forall (fun wg => is_field isd (fst wg) /\ is_gap isd (snd wg)) ws -> separated ws ->
    Forall (fun wg => is_field isd (fst wg) /\ is_gap isd (snd wg)) ws' -> separated ws' -> flat_fields ws = flat_fields ws' -> ws = ws'.
Proof.
  intros isd. assert (ST : forall ws, Forall (fun wg => is_field isd (fst wg) /\ is_gap isd (snd wg)) ws -> match flat_fields ws with [] => True | c :: _ => isd c <> true end).
  { intros [|[w g] ws] H; [exact I|]. inversion H as [|? ? [[Hn Hw] _] _]; subst. cbn [fst] in *. destruct w as [|c w]; [congruence|]. inversion Hw; subst. cbn. congruence. }
  induction ws as [|[w g] ws IH]; intros ws' HF HS HF' HS' E.
  - destruct ws' as [|[w' g'] ws']; [reflexivity|]. inversion HF' as [|? ? [[Hn _] _] _]; subst. cbn in *. destruct w'; [congruence|discriminate].
  - inversion HF as [|? ? [[Hn Hw] Hg] HF1]; subst. destruct HS as [Hs HS]. cbn [fst snd] in *.
    destruct ws' as [|[w' g'] ws']; [cbn in E; destruct w; [congruence|discriminate]|].
    inversion HF' as [|? ? [[Hn' Hw'] Hg'] HF1']; subst. destruct HS' as [Hs' HS']. cbn [fst snd] in *.
    unfold flat_fields in E. cbn [flat_map fst snd] in E. fold (flat_fields ws) in E. fold (flat_fields ws') in E. rewrite <- !app_assoc in E.
    assert (NG : forall g (ws : list (text * text)), is_gap isd g -> match ws with [] => True | _ :: _ => g <> [] end -> match g ++ flat_fields ws with [] => True | c :: _ => isd c <> false end).
    { intros [|c g0] ws0 Hg0 Hs0; [destruct ws0; [exact I|congruence]|]. inversion Hg0; subst. cbn. congruence. }
    destruct (span_unique (fun c => isd c = false) w w' _ _ Hw Hw' (NG g ws Hg Hs) (NG g' ws' Hg' Hs') E) as [<- E2].
    destruct (span_unique (fun c => isd c = true) g g' _ _ Hg Hg' (ST ws HF1) (ST ws' HF1') E2) as [<- E3].
    f_equal. apply IH; assumption.
Qed.
Lemma layout_unique_l : forall isd l l' line, laid_out isd l line -> laid_out isd l' line -> l = l'.
Proof.
  intros isd [g ws] [g' ws'] line (E & Hg & HF & HS) (E' & Hg' & HF' & HS'). cbn [fst snd] in *. subst line. unfold flat in E'. cbn [fst snd] in E'.
  assert (ST : forall ws, Forall (fun wg => is_field isd (fst wg) /\ is_gap isd (snd wg)) ws -> match flat_fields ws with [] => True | c :: _ => isd c <> true end).
  { intros [|[w0 g0] ws0] H; [exact I|]. inversion H as [|? ? [[Hn Hw] _] _]; subst. cbn [fst] in *. destruct w0 as [|c w0]; [congruence|]. inversion Hw; subst. cbn. congruence. }
  destruct (span_unique (fun c => isd c = true) g g' _ _ Hg Hg' (ST ws HF) (ST ws' HF') E') as [<- E2]. f_equal. eapply fields_unique; eassumption.
Qed.

(** ** transfer_var *)
Lemma map_replace_past : forall t k ws s, (k <= Z.of_nat s)%Z -> map_fields (replace t k) s ws = Ok (s + length ws, ws).
Proof.
  intros t k. induction ws as [|[w g] ws IH]; intros s H; [cbn; rewrite Nat.add_0_r; reflexivity|]. cbn [map_fields replace]. unfold replace at 1.
  destruct (Z.eqb_spec (Z.of_nat (S s)) k) as [E|E]; [lia|]. cbn [bind fst snd]. rewrite IH by lia. cbn [bind fst snd length]. do 2 f_equal. lia.
Qed.
Lemma map_replace_before : forall t k a b s, (Z.of_nat (s + length a) < k)%Z ->
    map_fields (replace t k) s (a ++ b) = let! o := map_fields (replace t k) (s + length a) b in Ok (fst o, a ++ snd o).
Proof.
  intros t k. induction a as [|[w g] a IH]; intros b s H.
  - cbn [length app]. rewrite Nat.add_0_r. destruct (map_fields _ s b) as [[? ?]|]; reflexivity.
  - cbn [app map_fields length] in *. unfold replace at 1. destruct (Z.eqb_spec (Z.of_nat (S s)) k) as [E|E]; [lia|]. cbn [bind fst snd].
    rewrite IH by lia. replace (S s + length a) with (s + S (length a)) by lia. destruct (map_fields _ _ b) as [[? ?]|]; reflexivity.
Qed.
Lemma map_replace_at : forall t v a w g b, t = Ok v ->
    map_fields (replace t (Z.of_nat (length a) + 1)) 0 (a ++ (w, g) :: b) = Ok (length a + S (length b), a ++ (v, g) :: b).
Proof.
  intros t v a w g b ->. rewrite map_replace_before by lia. cbn [Nat.add map_fields]. unfold replace at 1.
  destruct (Z.eqb_spec (Z.of_nat (S (length a))) (Z.of_nat (length a) + 1)) as [E|E]; [|lia]. cbn [bind fst snd].
  rewrite map_replace_past by lia. cbn [bind fst snd]. do 2 f_equal. lia.
Qed.

Lemma transfer_var_at : forall V isd (fmt : V -> res text) g value row i line a w gp b g0 v,
    py_index (length (data g)) (Z.of_nat (current_row g) + row) = Some i -> nth_error (data g) i = Some line ->
    laid_out isd (g0, a ++ (w, gp) :: b) line -> fmt value = Ok v ->
    transfer_var isd fmt g value row (Z.of_nat (length a) + 1) =
      Ok (with_data g (set_nth (data g) i (flat (g0, a ++ (v, gp) :: b)))).
Proof.
  intros V isd fmt g value row i line a w gp b g0 v HI HL HO HF. unfold transfer_var, py_get. rewrite HI, HL. cbn [bind].
  rewrite (re_sub_layout isd _ _ _ _ HO). cbn [fst snd]. rewrite (map_replace_at _ v) by exact HF. reflexivity.
Qed.
Lemma map_replace_none : forall t k ws s, (Z.of_nat (s + length ws) < k)%Z -> map_fields (replace t k) s ws = Ok (s + length ws, ws).
Proof.
  intros t k ws s H. rewrite <- (app_nil_r ws) at 1. rewrite map_replace_before by exact H. cbn. rewrite app_nil_r. reflexivity.
Qed.
Lemma transfer_var_none : forall V isd (fmt : V -> res text) g value row i line l k,
    py_index (length (data g)) (Z.of_nat (current_row g) + row) = Some i -> nth_error (data g) i = Some line ->
    laid_out isd l line -> (k < 1 \/ Z.of_nat (length (snd l)) < k)%Z ->
    transfer_var isd fmt g value row k = Ok (with_data g (set_nth (data g) i line)).
Proof.
  intros V isd fmt g value row i line l k HI HL HO HK. unfold transfer_var, py_get. rewrite HI, HL. cbn [bind].
  rewrite (re_sub_layout isd _ _ _ _ HO). destruct HK as [HK|HK].
  - rewrite map_replace_past by lia. cbn [bind fst snd]. destruct HO as (-> & _). destruct l. reflexivity.
  - rewrite map_replace_none by (cbn; lia). cbn [bind fst snd]. destruct HO as (-> & _). destruct l. reflexivity.
Qed.
Lemma set_nth_id : forall A (l : list A) i x, nth_error l i = Some x -> set_nth l i x = l.
Proof. induction l as [|a l IH]; intros [|i] x H; cbn in *; try discriminate; [congruence|]. rewrite IH by exact H. reflexivity. Qed.

(** the new line's fields *)
Lemma laid_out_replace : forall isd g0 a w gp b line v, laid_out isd (g0, a ++ (w, gp) :: b) line -> is_field isd v ->
    laid_out isd (g0, a ++ (v, gp) :: b) (flat (g0, a ++ (v, gp) :: b)).
Proof.
  intros isd g0 a w gp b line v (_ & Hg & HF & HS) Hv. split; [reflexivity|]. split; [exact Hg|]. cbn [snd] in *. split.
  - apply Forall_app in HF. destruct HF as [F1 F2]. inversion F2 as [|? ? [_ Hgp] F3]; subst. apply Forall_app. split; [exact F1|]. constructor; [split; assumption|exact F3].
  - clear -HS. induction a as [|[w0 g1] a IH]; cbn in *; [exact HS|]. destruct HS as [H1 H2]. split; [|apply IH; exact H2]. destruct a; exact H1.
Qed.

(** ** arrays *)
Lemma fmt_all_nth : forall V (fmt : V -> res text) values vals c, Forall2 (fun v t => fmt v = Ok t) values vals ->
    match nth_error values c with
    | Some v => exists t, fmt v = Ok t /\ skipn c vals = t :: skipn (S c) vals
    | None => skipn c vals = []
    end.
Proof.
  intros V fmt values vals c H. revert c. induction H as [|v t values vals Hv H IH]; intros [|c]; cbn; auto; [exists t; auto|]. apply (IH c).
Qed.

Lemma map_array : forall V (fmt : V -> res text) values vals fs fe, Forall2 (fun v t => fmt v = Ok t) values vals ->
    forall ws n c, c <= length values -> exists c', c' <= length values /\
      map_fields (replace_array fmt values fs fe) (n, c) ws = Ok ((n + length ws, c'), fst (fill fs fe (S n) ws (skipn c vals))) /\
      snd (fill fs fe (S n) ws (skipn c vals)) = skipn c' vals.
Proof.
  intros V fmt values vals fs fe H. induction ws as [|[w g] ws IH]; intros n c Hc.
  - exists c. cbn. rewrite Nat.add_0_r. auto.
  - cbn [map_fields fill]. unfold replace_array at 1. destruct ((fs <=? Z.of_nat (S n))%Z && (Z.of_nat (S n) <=? fe)%Z).
    + pose proof (fmt_all_nth V fmt values vals c H) as K. destruct (nth_error values c) as [v|] eqn:E.
      * destruct K as (t & Ht & Hs). rewrite Ht. cbn [bind fst snd]. assert (c < length values) by (apply nth_error_Some; congruence).
        destruct (IH (S n) (S c) ltac:(lia)) as (c' & H1 & H2 & H3). exists c'. rewrite H2, Hs. cbn [bind fst snd length]. split; [exact H1|].
        replace (n + S (length ws)) with (S n + length ws) by lia. split; [reflexivity|exact H3].
      * rewrite K in *. cbn [bind fst snd]. destruct (IH (S n) c Hc) as (c' & H1 & H2 & H3). exists c'. rewrite H2. rewrite K in *. cbn [bind fst snd length]. split; [exact H1|].
        replace (n + S (length ws)) with (S n + length ws) by lia. split; [reflexivity|exact H3].
    + cbn [bind fst snd]. destruct (IH (S n) c Hc) as (c' & H1 & H2 & H3). exists c'. rewrite H2. cbn [bind fst snd length]. split; [exact H1|].
      replace (n + S (length ws)) with (S n + length ws) by lia. split; [reflexivity|exact H3].
Qed.

Lemma array_rows_spec : forall V isd (fmt : V -> res text) values vals fe cur, Forall2 (fun v t => fmt v = Ok t) values vals ->
    forall ls lines before after fs r0 c last, Forall2 (laid_out isd) ls lines -> c <= length values ->
    (Z.of_nat cur + r0 = Z.of_nat (length before))%Z ->
    exists c', c' <= length values /\ snd (fill_lines fs fe ls (skipn c vals)) = skipn c' vals /\
      array_rows isd fmt values cur (map (fun k => r0 + Z.of_nat k)%Z (seq 0 (length ls))) (r0 + Z.of_nat (length ls) - 1) fs fe (before ++ lines ++ after) c last =
      Ok (before ++ map flat (fst (fill_lines fs fe ls (skipn c vals))) ++ after, c',
          match rev (fst (fill_lines fs fe ls (skipn c vals))) with
          | [] => last
          | l :: _ => Some (length before + length ls - 1, flat l)
          end).
Proof.
  intros V isd fmt values vals fe cur HV. induction ls as [|l ls IH]; intros lines before after fs r0 c last HL Hc Hr.
  - inversion HL; subst. exists c. cbn. auto.
  - inversion HL as [|? line ? lines' Hl HL']; subst. cbn [length seq map array_rows].
    replace (Z.of_nat cur + (r0 + Z.of_nat 0))%Z with (Z.of_nat (length before)) by lia.
    assert (G : nth_error (before ++ (line :: lines') ++ after) (length before) = Some line) by (rewrite nth_error_app2, Nat.sub_diag by lia; reflexivity).
    rewrite (py_get_nat _ _ _ _ G). cbn [bind]. rewrite (re_sub_layout isd _ _ _ _ Hl).
    set (f_end := if (r0 + Z.of_nat 0 =? r0 + Z.of_nat (S (length ls)) - 1)%Z then fe else 99999%Z).
    assert (EF : f_end = match ls with [] => fe | _ :: _ => 99999%Z end).
    { unfold f_end. destruct ls as [|x ls']; cbn [length].
      - destruct (Z.eqb_spec (r0 + Z.of_nat 0) (r0 + Z.of_nat 1 - 1)); [reflexivity|lia].
      - destruct (Z.eqb_spec (r0 + Z.of_nat 0) (r0 + Z.of_nat (S (S (length ls'))) - 1)); [lia|reflexivity]. }
    rewrite EF. clear f_end EF.
    destruct (map_array V fmt values vals fs (match ls with [] => fe | _ :: _ => 99999%Z end) HV (snd l) 0 c Hc) as (c1 & C1 & M & F).
    rewrite M. cbn [bind fst snd]. rewrite py_index_nat by (rewrite app_length; cbn; lia).
    set (o := fill fs (match ls with [] => fe | _ :: _ => 99999%Z end) 1 (snd l) (skipn c vals)) in *.
    change (before ++ (line :: lines') ++ after) with (before ++ line :: (lines' ++ after)). rewrite set_nth_app.
    destruct (IH lines' (before ++ [flat (fst l, fst o)]) after 0%Z (r0 + 1)%Z c1 (Some (length before, flat (fst l, fst o))) HL' C1 ltac:(rewrite app_length; cbn [length]; lia)) as (c2 & C2 & F2 & R).
    exists c2. split; [exact C2|]. cbn [fill_lines]. fold o. rewrite F. cbn [fst snd]. split; [exact F2|].
    rewrite <- seq_shift, map_map. rewrite (map_ext _ (fun k => (r0 + 1 + Z.of_nat k)%Z)) by (intros k; lia).
    replace (r0 + Z.of_nat (S (length ls)) - 1)%Z with (r0 + 1 + Z.of_nat (length ls) - 1)%Z by lia.
    rewrite <- app_assoc in R. cbn [app] in R. rewrite R. rewrite <- app_assoc. cbn [app map]. f_equal. f_equal.
    cbn [rev]. destruct (rev (fst (fill_lines 0 fe ls (skipn c1 vals)))) as [|x r] eqn:Ex.
    + cbn [app]. assert (Ln : length ls = 0).
      { assert (FL : forall fs ls vs, length (fst (fill_lines fs fe ls vs)) = length ls) by (intros fs0 ls0; revert fs0; induction ls0 as [|y ys IHy]; intros fs0 vs; cbn; [reflexivity|]; rewrite IHy; reflexivity).
        rewrite <- (FL 0%Z ls (skipn c1 vals)), <- rev_length, Ex. reflexivity. }
      rewrite Ln. do 2 f_equal. lia.
    + cbn [app]. rewrite app_length. cbn [length]. do 2 f_equal. lia.
Qed.

(** ** occurrences *)
Lemma strip_prefix_spec : forall p s r, strip_prefix p s = Some r <-> s = p ++ r.
Proof.
  induction p as [|a p IH]; intros s r; cbn; [split; [intros H; injection H as <-; reflexivity|intros ->; reflexivity]|].
  destruct s as [|b s]; [split; [discriminate|discriminate]|]. destruct (Ascii.eqb_spec a b) as [->|Hn].
  - rewrite IH. split; [intros ->; reflexivity|]. intros H. injection H as ->. reflexivity.
  - split; [discriminate|]. intros H. injection H. congruence.
Qed.
Lemma find_first_some : forall sep s a b, find_first sep s = Some (a, b) -> s = a ++ sep ++ b.
Proof.
  intros sep. induction s as [|c s IH]; intros a b H; cbn [find_first] in H.
  - destruct (strip_prefix sep []) as [r|] eqn:E; [|discriminate]. injection H as <- <-. apply strip_prefix_spec in E. exact E.
  - destruct (strip_prefix sep (c :: s)) as [r|] eqn:E.
    + injection H as <- <-. apply strip_prefix_spec in E. exact E.
    + destruct (find_first sep s) as [[a' b']|]; [|discriminate]. injection H as <- <-. cbn. rewrite (IH a' b' eq_refl) at 1. reflexivity.
Qed.
Lemma find_first_min : forall sep s x y, s = x ++ sep ++ y -> exists a b, find_first sep s = Some (a, b) /\ length a <= length x.
Proof.
  intros sep. induction s as [|c s IH]; intros x y H; cbn [find_first].
  - symmetry in H. apply app_eq_nil in H. destruct H as [-> H]. apply app_eq_nil in H. destruct H as [-> ->]. exists [], []. split; [reflexivity|cbn; lia].
  - destruct (strip_prefix sep (c :: s)) as [r|] eqn:E; [exists [], r; split; [reflexivity|cbn; lia]|].
    destruct x as [|c' x]; [cbn in H; apply strip_prefix_spec in H; congruence|]. cbn in H. injection H as <- H.
    destruct (IH x y H) as (a & b & E' & L). rewrite E'. exists (c :: a), b. split; [reflexivity|cbn; lia].
Qed.
Lemma contains_iff : forall sep s, contains sep s = true <-> occurs sep s.
Proof.
  intros sep s. unfold contains, occurs. split.
  - destruct (find_first sep s) as [[a b]|] eqn:E; [|discriminate]. intros _. exists a, b. apply find_first_some. exact E.
  - intros (a & b & H). destruct (find_first_min sep s a b H) as (a' & b' & E & _). rewrite E. reflexivity.
Qed.
Lemma contains_not : forall sep s, contains sep s = false <-> ~ occurs sep s.
Proof. intros sep s. rewrite <- contains_iff. destruct (contains sep s); split; congruence. Qed.

Lemma split_first : forall sep s fuel, sep <> [] -> fuel <> 0 -> ~ occurs sep (hd [] (split_fuel fuel sep s)).
Proof.
  intros sep s [|fuel] Hs Hf; [congruence|]. cbn [split_fuel]. destruct (find_first sep s) as [[a b]|] eqn:E; cbn [hd].
  - intros (x & y & H). pose proof (find_first_some _ _ _ _ E) as Es. rewrite H in Es. rewrite <- !app_assoc in Es.
    destruct (find_first_min sep s x (y ++ sep ++ b) Es) as (a' & b' & E' & L). rewrite E in E'. injection E' as <- <-.
    rewrite H in L. rewrite !app_length in L. destruct sep; [congruence|cbn in L; lia].
  - apply contains_not. unfold contains. rewrite E. reflexivity.
Qed.
Lemma split_last : forall sep, sep <> [] -> forall fuel s, length s <= fuel -> ~ occurs sep (List.last (split_fuel fuel sep s) []).
Proof.
  intros sep Hs. assert (Hl : 1 <= length sep) by (destruct sep; [congruence|cbn; lia]). induction fuel as [|fuel IH]; intros s Hf.
  - destruct s; [|cbn in Hf; lia]. cbn. intros (x & y & H). symmetry in H. apply app_eq_nil in H. destruct H as [_ H]. apply app_eq_nil in H. destruct H. congruence.
  - cbn [split_fuel]. destruct (find_first sep s) as [[a b]|] eqn:E; [|cbn [List.last]; apply contains_not; unfold contains; rewrite E; reflexivity].
    pose proof (find_first_some _ _ _ _ E) as Es. assert (K : length b <= fuel) by (rewrite Es, !app_length in Hf; lia). specialize (IH b K).
    assert (N : split_fuel fuel sep b <> []) by (destruct fuel; cbn; [|destruct (find_first sep b) as [[? ?]|]]; discriminate).
    destruct (split_fuel fuel sep b) as [|x l]; [congruence|]. exact IH.
Qed.
Lemma py_split_parts : forall sep s, sep <> [] -> exists p, py_split sep s = Ok p /\ contains sep (hd [] p) = false /\ contains sep (List.last p []) = false.
Proof.
  intros sep s Hs. destruct sep as [|x sep]; [congruence|]. eexists. split; [reflexivity|]. split; apply contains_not.
  - destruct s as [|c s]; [cbn|apply split_first; discriminate]. intros (a & b & H). symmetry in H. apply app_eq_nil in H. destruct H as [_ H]. discriminate.
  - apply split_last; [discriminate|lia].
Qed.

(** ** searching *)
Lemma hit_pos : forall P n l k, nth_hit P n l k -> 1 <= n.
Proof. intros P n l k H. induction H; lia. Qed.
Lemma hit_bound : forall P n l k, nth_hit P n l k -> k < length l.
Proof. intros P n l k H. induction H; cbn; lia. Qed.
Lemma hit_unique : forall P n l k, nth_hit P n l k -> forall k', nth_hit P n l k' -> k = k'.
Proof.
  intros P n l k H. induction H as [l r Hl|n l r k Hl H IH|n l r k Hl H IH]; intros k' H'; inversion H'; subst; try contradiction.
  - reflexivity.
  - f_equal. apply IH. assumption.
  - f_equal. apply IH. assumption.
Qed.

Lemma forward_spec : forall anchor, forall lines count instance occ, instance < occ -> 0 < count \/ True ->
    (forall k, nth_hit (occurs anchor) (occ - instance) lines k -> search_forward anchor false lines count instance occ = Ok (count + k)) /\
    ((forall k, ~ nth_hit (occurs anchor) (occ - instance) lines k) -> search_forward anchor false lines count instance occ = Err RuntimeError).
Proof.
  intros anchor. induction lines as [|line lines IH]; intros count instance occ Ho _.
  - split; [intros k H; inversion H|reflexivity].
  - cbn [search_forward]. rewrite Bool.andb_false_r. cbn [bind]. destruct (contains anchor line) eqn:C.
    + apply contains_iff in C. destruct (Nat.eqb_spec (S instance) occ) as [E|E].
      * replace (occ - instance) with 1 by lia. split.
        -- intros k H. inversion H; subst; try contradiction; rewrite Nat.add_0_r; reflexivity.
        -- intros H. exfalso. apply (H 0). constructor. exact C.
      * replace (occ - instance) with (S (occ - S instance)) by lia. destruct (IH (S count) (S instance) occ ltac:(lia) (or_intror I)) as [I1 I2]. split.
        -- intros k H. inversion H; subst; try contradiction; [lia|]. match goal with K : nth_hit _ (S ?n) _ ?k0 |- _ => rewrite (I1 k0) end; [f_equal; lia|].
           match goal with K : S ?n = occ - S instance |- _ => rewrite <- K end. assumption.
        -- intros H. apply I2. intros k Hk. destruct (occ - S instance) as [|n] eqn:En; [lia|]. apply (H (S k)). constructor; assumption.
    + apply contains_not in C. destruct (IH (S count) instance occ Ho (or_intror I)) as [I1 I2]. split.
      * intros k H. inversion H; subst; try contradiction. rewrite (I1 k0) by assumption. f_equal. lia.
      * intros H. apply I2. intros k Hk. apply (H (S k)). constructor; assumption.
Qed.
Lemma forward_unanchored : forall anchor anch lines count instance occ, 0 < count -> search_forward anchor anch lines count instance occ = search_forward anchor false lines count instance occ.
Proof.
  intros anchor anch. induction lines as [|line lines IH]; intros count instance occ Hc; [reflexivity|]. cbn [search_forward].
  destruct (Nat.eqb_spec count 0); [lia|]. cbn [andb bind]. destruct (contains anchor line); [|apply IH; lia]. destruct (S instance =? occ); [reflexivity|apply IH; lia].
Qed.
Lemma forward_anchored : forall anchor line lines occ, anchor <> [] ->
    search_forward anchor true (line :: lines) 0 0 occ = search_forward anchor false lines 1 0 occ.
Proof.
  intros anchor line lines occ Ha. cbn [search_forward Nat.eqb andb]. destruct (py_split_parts anchor line Ha) as (p & E & _ & C). rewrite E. cbn [bind]. rewrite C.
  apply forward_unanchored. lia.
Qed.

Lemma backward_first : forall anchor first lines instance occ,
    search_backward anchor false first lines instance occ = search_backward anchor false false lines instance occ.
Proof. intros anchor first [|line lines] instance occ; [reflexivity|]. cbn [search_backward]. rewrite Bool.andb_false_r. reflexivity. Qed.
Lemma backward_unanchored : forall anchor anch lines instance occ, search_backward anchor anch false lines instance occ = search_backward anchor false false lines instance occ.
Proof.
  intros anchor anch. induction lines as [|line lines IH]; intros instance occ; [reflexivity|]. cbn [search_backward andb bind].
  destruct (contains anchor line); [|apply IH]. destruct (S instance =? occ); [reflexivity|apply IH].
Qed.
Lemma backward_anchored : forall anchor line lines occ, anchor <> [] ->
    search_backward anchor true true (line :: lines) 0 occ = search_backward anchor false false lines 0 occ.
Proof.
  intros anchor line lines occ Ha. cbn [search_backward andb]. destruct (py_split_parts anchor line Ha) as (p & E & C & _). rewrite E. cbn [bind]. rewrite C.
  apply backward_unanchored.
Qed.
Lemma backward_spec : forall anchor, forall lines instance occ, instance < occ ->
    (forall k, nth_hit (occurs anchor) (occ - instance) lines k -> search_backward anchor false false lines instance occ = Ok (length lines - 1 - k)) /\
    ((forall k, ~ nth_hit (occurs anchor) (occ - instance) lines k) -> search_backward anchor false false lines instance occ = Err RuntimeError).
Proof.
  intros anchor. induction lines as [|line lines IH]; intros instance occ Ho.
  - split; [intros k H; inversion H|reflexivity].
  - cbn [search_backward andb bind length]. destruct (contains anchor line) eqn:C.
    + apply contains_iff in C. destruct (Nat.eqb_spec (S instance) occ) as [E|E].
      * replace (occ - instance) with 1 by lia. split.
        -- intros k H. inversion H; subst; try contradiction. f_equal. lia.
        -- intros H. exfalso. apply (H 0). constructor. exact C.
      * replace (occ - instance) with (S (occ - S instance)) by lia. destruct (IH (S instance) occ ltac:(lia)) as [I1 I2]. split.
        -- intros k H. inversion H; subst; try contradiction; [lia|]. match goal with K : nth_hit _ (S ?n) _ ?k0 |- _ => rewrite (I1 k0) end; [f_equal; lia|].
           match goal with K : S ?n = occ - S instance |- _ => rewrite <- K end. assumption.
        -- intros H. apply I2. intros k Hk. destruct (occ - S instance) as [|n] eqn:En; [lia|]. apply (H (S k)). constructor; assumption.
    + apply contains_not in C. destruct (IH instance occ Ho) as [I1 I2]. split.
      * intros k H. inversion H; subst; try contradiction. rewrite (I1 k0) by assumption. f_equal. lia.
      * intros H. apply I2. intros k Hk. apply (H (S k)). constructor; assumption.
Qed.
Lemma hit_dec : forall anchor lines n, 1 <= n -> (exists k, nth_hit (occurs anchor) n lines k) \/ (forall k, ~ nth_hit (occurs anchor) n lines k).
Proof.
  intros anchor. induction lines as [|line lines IH]; intros n Hn; [right; intros k H; inversion H|].
  destruct (contains anchor line) eqn:C.
  - apply contains_iff in C. destruct n as [|[|n]]; [lia|left; exists 0; constructor; exact C|]. destruct (IH (S n) ltac:(lia)) as [[k H]|H].
    + left. exists (S k). constructor; assumption.
    + right. intros k Hk. inversion Hk; subst; [apply (H k0); assumption|contradiction].
  - apply contains_not in C. destruct (IH n Hn) as [[k H]|H].
    + left. exists (S k). constructor; assumption.
    + right. intros k Hk. inversion Hk; subst; try contradiction. apply (H k0). assumption.
Qed.

(** ** keys *)
Lemma key_forward_hit : forall key lines row instance occ k, instance < occ -> nth_hit (occurs key) (occ - instance) lines k ->
    key_forward key lines row instance occ = (row + Z.of_nat k)%Z.
Proof.
  intros key. induction lines as [|line lines IH]; intros row instance occ k Ho H; [inversion H|]. cbn [key_forward]. destruct (contains key line) eqn:C.
  - apply contains_iff in C. destruct (Nat.eqb_spec (S instance) occ) as [E|E].
    + replace (occ - instance) with 1 in H by lia. inversion H; subst; try contradiction. lia.
    + inversion H; subst; try contradiction; [lia|]. rewrite (IH (row + 1)%Z (S instance) occ k0); [lia|lia|].
      match goal with K : S (S ?n) = occ - instance |- _ => replace (occ - S instance) with (S n) by lia end. assumption.
  - apply contains_not in C. inversion H; subst; try contradiction. rewrite (IH (row + 1)%Z instance occ k0); [lia|lia|assumption].
Qed.
Lemma key_forward_none : forall key lines row instance occ, instance < occ -> (forall k, ~ nth_hit (occurs key) (occ - instance) lines k) ->
    key_forward key lines row instance occ = (row + Z.of_nat (length lines))%Z.
Proof.
  intros key. induction lines as [|line lines IH]; intros row instance occ Ho H; [cbn; lia|]. cbn [key_forward length]. destruct (contains key line) eqn:C.
  - apply contains_iff in C. destruct (Nat.eqb_spec (S instance) occ) as [E|E].
    + exfalso. apply (H 0). replace (occ - instance) with 1 by lia. constructor. exact C.
    + rewrite IH; [lia|lia|]. intros k Hk. apply (H (S k)). destruct (occ - S instance) as [|n] eqn:En; [lia|]. replace (occ - instance) with (S (S n)) by lia. constructor; assumption.
  - apply contains_not in C. rewrite IH; [lia|lia|]. intros k Hk. apply (H (S k)). constructor; assumption.
Qed.
Lemma key_backward_hit : forall key lines row instance occ k, instance < occ -> nth_hit (occurs key) (occ - instance) lines k ->
    key_backward key lines row instance occ = (row - Z.of_nat k)%Z.
Proof.
  intros key. induction lines as [|line lines IH]; intros row instance occ k Ho H; [inversion H|]. cbn [key_backward]. destruct (contains key line) eqn:C.
  - apply contains_iff in C. destruct (Nat.eqb_spec (S instance) occ) as [E|E].
    + replace (occ - instance) with 1 in H by lia. inversion H; subst; try contradiction. lia.
    + inversion H; subst; try contradiction; [lia|]. rewrite (IH (row - 1)%Z (S instance) occ k0); [lia|lia|].
      match goal with K : S (S ?n) = occ - instance |- _ => replace (occ - S instance) with (S n) by lia end. assumption.
  - apply contains_not in C. inversion H; subst; try contradiction. rewrite (IH (row - 1)%Z instance occ k0); [lia|lia|assumption].
Qed.
Lemma key_backward_none : forall key lines row instance occ, instance < occ -> (forall k, ~ nth_hit (occurs key) (occ - instance) lines k) ->
    key_backward key lines row instance occ = (row - Z.of_nat (length lines))%Z.
Proof.
  intros key. induction lines as [|line lines IH]; intros row instance occ Ho H; [cbn; lia|]. cbn [key_backward length]. destruct (contains key line) eqn:C.
  - apply contains_iff in C. destruct (Nat.eqb_spec (S instance) occ) as [E|E].
    + exfalso. apply (H 0). replace (occ - instance) with 1 by lia. constructor. exact C.
    + rewrite IH; [lia|lia|]. intros k Hk. apply (H (S k)). destruct (occ - S instance) as [|n] eqn:En; [lia|]. replace (occ - instance) with (S (S n)) by lia. constructor; assumption.
  - apply contains_not in C. rewrite IH; [lia|lia|]. intros k Hk. apply (H (S k)). constructor; assumption.
Qed.

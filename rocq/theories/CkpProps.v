(** C128: the checks of co-kriging's arguments. *)
From Verif Require Import Base BaseFacts CkpModel CkpSpec.
Local Open Scope list_scope.
Local Open Scope nat_scope.

Lemma nonpos_iff : forall a, any_nonpos a = false <-> positive a.
Proof.
  intros a. unfold any_nonpos, positive. split.
  - intros H i x E. destruct (Qlt_le_dec 0 x) as [L|L]; [exact L|]. apply nth_error_In in E. assert (existsb (fun x => Qle_bool x 0) a = true); [|congruence]. apply existsb_exists. exists x. split; [exact E|apply Qle_bool_iff; exact L].
  - intros H. apply not_true_iff_false. intros E. apply existsb_exists in E. destruct E as (x & I & L). apply Qle_bool_iff in L. apply In_nth_error in I. destruct I as (i & I). specialize (H i x I). exact (Qlt_not_le _ _ H L).
Qed.
Lemma entry_in : forall a i x, entry a i x -> In x a.
Proof. intros a i x [E|[_ E]]; exact (nth_error_In _ _ E). Qed.
Lemma entry_one : forall x i y, entry [x] i y -> y = x.
Proof. intros x i y E. apply entry_in in E. destruct E as [<-|[]]. reflexivity. Qed.
Lemma none_true : forall A (f : A -> bool) l, existsb (fun x => x) (map f l) = false <-> forall x, In x l -> f x = false.
Proof.
  intros A f l. induction l as [|a l IH]; cbn; [split; [intros _ x []|reflexivity]|]. rewrite orb_false_iff, IH. split; [intros [H K] x [<-|I]; [exact H|exact (K x I)]|intros H; split; [apply H; left; reflexivity|intros x I; apply H; right; exact I]].
Qed.
Lemma not_lt : forall x y, negb (Qle_bool y x) = false <-> (y <= x)%Q.
Proof. intros x y. rewrite negb_false_iff. apply Qle_bool_iff. Qed.
Lemma lts_one_l : forall x lo, lts [x] lo = Ok (map (fun y => negb (Qle_bool y x)) lo).
Proof. reflexivity. Qed.
Lemma lts_one_r : forall up y, lts up [y] = Ok (map (fun x => negb (Qle_bool y x)) up).
Proof. intros [|x [|x' up]] y; reflexivity. Qed.
Lemma lts_many : forall up lo, length up <> 1 -> length lo <> 1 -> lts up lo = if length up =? length lo then Ok (map (fun e => negb (Qle_bool (snd e) (fst e))) (combine up lo)) else Err ValueError.
Proof. intros [|x [|x' up]] [|y [|y' lo]] U L; try reflexivity; exfalso; first [apply U; reflexivity|apply L; reflexivity]. Qed.
Lemma length_one : forall (a : row), length a = 1 -> exists x, a = [x].
Proof. intros [|x [|y a]] L; try discriminate L. exists x. reflexivity. Qed.
Lemma lts_iff : forall up lo, (exists b, lts up lo = Ok b /\ existsb (fun x => x) b = false) <-> fits lo up /\ ordered lo up.
Proof.
  intros up lo. destruct (Nat.eq_dec (length up) 1) as [U|U].
  { destruct (length_one up U) as (x & ->). rewrite lts_one_l. split.
    - intros (b & E & H). injection E as <-. rewrite none_true in H. split; [right; right; reflexivity|]. intros i y x' A B. apply entry_one in B. subst x'. apply entry_in in A. apply not_lt. exact (H y A).
    - intros (_ & O). eexists. split; [reflexivity|]. apply none_true. intros y I. apply not_lt. apply In_nth_error in I. destruct I as (i & I). apply (O i y x); [left; exact I|right; split; reflexivity]. }
  destruct (Nat.eq_dec (length lo) 1) as [L|L].
  { destruct (length_one lo L) as (y & ->). rewrite lts_one_r. split.
    - intros (b & E & H). injection E as <-. rewrite none_true in H. split; [right; left; reflexivity|]. intros i y' x A B. apply entry_one in A. subst y'. apply entry_in in B. apply (not_lt x y). exact (H x B).
    - intros (_ & O). eexists. split; [reflexivity|]. apply none_true. intros x I. apply (not_lt x y). apply In_nth_error in I. destruct I as (i & I). apply (O i y x); [right; split; reflexivity|left; exact I]. }
  rewrite (lts_many up lo U L). destruct (Nat.eqb_spec (length up) (length lo)) as [E|Ne].
  - split.
    + intros (b & Eb & H). injection Eb as <-. rewrite none_true in H. split; [left; symmetry; exact E|]. intros i y x [A|[A _]] [B|[B _]]; try contradiction. apply (not_lt x y). apply (H (x, y)). clear - A B. revert lo i A B. induction up as [|a up IH]; intros lo [|i] A B; try discriminate B; destruct lo as [|c lo]; try discriminate A; cbn in A, B; [left; congruence|right; exact (IH lo i A B)].
    + intros (_ & O). eexists. split; [reflexivity|]. apply none_true. intros [x y] I. apply (not_lt x y). assert (exists i, nth_error up i = Some x /\ nth_error lo i = Some y) as (i & A & B). { clear - I. revert lo I. induction up as [|a up IH]; intros lo I; [contradiction|]. destruct lo as [|c lo]; [contradiction|]. destruct I as [I|I]; [injection I as -> ->; exists 0; split; reflexivity|]. destruct (IH lo I) as (i & A & B). exists (S i). split; assumption. }
      apply (O i y x); left; assumption.
  - split; [intros (b & Eb & _); discriminate Eb|]. intros ([F|[F|F]] & _); congruence.
Qed.
(** A level is accepted exactly if it satisfies the specification; then what was not given is
    filled in, and nothing else changes. *)
Theorem C128_level : forall nf l r, check_level nf l = Ok r <-> acceptable nf l /\ r = completed nf l.
Proof.
  intros nf [th t0 lo up] r. unfold check_level, acceptable, completed, start, lower, upper, default. cbn [l_theta l_theta0 l_L l_U].
  assert (A : forall (v : option row) q lth x, fill nf q lth v = Ok x <-> (forall a, v = Some a -> length a = lth) /\ x = given v (repeat q nf)).
  { intros [a|] q lth x; cbn.
    - destruct (Nat.eqb_spec (length a) lth) as [E|Ne]; cbn; split.
      + intros H. injection H as <-. split; [intros b B; injection B as <-; exact E|reflexivity].
      + intros [_ ->]. reflexivity.
      + discriminate.
      + intros [H _]. exfalso. apply Ne. apply H. reflexivity.
    - split; [intros H; injection H as <-; split; [discriminate|reflexivity]|intros [_ ->]; reflexivity]. }
  assert (B : (match th with Some a => if any_nonpos a then Err ValueError else Ok tt | None => Ok tt end) = Ok tt <-> (forall a, th = Some a -> positive a)).
  { destruct th as [a|]; [|split; [discriminate|reflexivity]]. destruct (any_nonpos a) eqn:E; split; try discriminate.
    - intros H. exfalso. specialize (H a eq_refl). apply nonpos_iff in H. congruence.
    - intros _ b Eb. injection Eb as <-. apply nonpos_iff. exact E.
    - reflexivity. }
  assert (C : forall x, (match t0 with Some a => if any_nonpos a then Err ValueError else Ok a | None => Ok (repeat (1 # 2)%Q nf) end) = Ok x <-> positive (given t0 (repeat (1 # 2)%Q nf)) /\ x = given t0 (repeat (1 # 2)%Q nf)).
  { intros x. destruct t0 as [a|]; cbn [given].
    - destruct (any_nonpos a) eqn:E; split; try discriminate.
      + intros [H _]. exfalso. apply nonpos_iff in H. congruence.
      + intros H. injection H as <-. split; [apply nonpos_iff; exact E|reflexivity].
      + intros [_ ->]. reflexivity.
    - split; [intros H; injection H as <-; split; [|reflexivity]|intros [_ ->]; reflexivity]. intros i x' E. apply nth_error_In, repeat_spec in E. subst x'. reflexivity. }
  set (s := given t0 (repeat (1 # 2)%Q nf)) in *. set (lw := given lo (repeat (1 # 100000)%Q nf)). set (u := given up (repeat (50 # 1)%Q nf)). split.
  - intros H. destruct (match th with Some a => _ | None => _ end) as [[]|e] eqn:E1; [|discriminate H]. cbn [bind] in H. pose proof (proj1 B eq_refl) as H1. destruct (match t0 with Some a => _ | None => _ end) as [x|e] eqn:E2; [|discriminate H]. cbn [bind] in H. destruct (proj1 (C x) eq_refl) as [P Ex]. subst x. destruct (fill nf (1 # 100000)%Q (length s) lo) as [x|e] eqn:E3; [|discriminate H]. cbn [bind] in H. apply A in E3. destruct E3 as [L1 ->]. destruct (fill nf (50 # 1)%Q (length s) up) as [x|e] eqn:E4; [|discriminate H]. cbn [bind] in H. apply A in E4. destruct E4 as [L2 ->]. fold lw in H. fold u in H. destruct (any_nonpos lw) eqn:E5; [discriminate H|]. apply nonpos_iff in E5. destruct (lts u lw) as [b|e] eqn:E6; [|discriminate H]. cbn [bind] in H. destruct (existsb (fun x => x) b) eqn:E7; [discriminate H|]. injection H as <-. destruct (proj1 (lts_iff u lw) (ex_intro _ b (conj E6 E7))) as [F O]. split; [|reflexivity]. repeat (split; [assumption|]). assumption.
  - intros ((H1 & H2 & H3 & H4 & H5 & H6 & H7) & ->). rewrite (proj2 B H1). cbn [bind]. rewrite (proj2 (C s) (conj H2 eq_refl)). cbn [bind]. rewrite (proj2 (A lo _ _ lw) (conj H3 eq_refl)). cbn [bind]. rewrite (proj2 (A up _ _ u) (conj H4 eq_refl)). cbn [bind]. rewrite (proj2 (nonpos_iff lw) H5). destruct (proj2 (lts_iff u lw) (conj H6 H7)) as (b & -> & E). cbn [bind]. rewrite E. reflexivity.
Qed.
Print Assumptions C128_level.

Lemma data_iff : forall X y i prev, length X = length y -> (data_loop i prev X y = Ok tt <->
  (forall k r c, nth_error X k = Some (r, c) -> nth_error y k = Some r) /\
  (forall k r c r' c', nth_error X k = Some (r, c) -> nth_error X (S k) = Some (r', c') -> 1 <= i + k -> c' = c) /\
  (forall r c, nth_error X 0 = Some (r, c) -> 1 < i -> c = prev)).
Proof.
  induction X as [|[r c] X IH]; intros [|ny y] i prev L; try discriminate L; [cbn; split; [intros _; split; [intros [|k] ? ? E; discriminate E|split; [intros [|k] ? ? ? ? E; discriminate E|intros ? ? E; discriminate E]]|reflexivity]|]. cbn [length] in L. apply eq_add_S in L. cbn [data_loop]. split.
  - intros H. destruct ((1 <? i) && negb (c =? prev)) eqn:B; [discriminate H|]. destruct (Nat.eqb_spec r ny) as [->|]; [|discriminate H]. cbn [negb] in H. apply (IH y (S i) c L) in H. destruct H as (H1 & H2 & H3). split; [|split].
    + intros [|k] r' c' E; cbn in E |- *; [congruence|exact (H1 k r' c' E)].
    + intros [|k] r' c' r'' c'' E E' Le; cbn in E, E'; [injection E as <- <-; apply (H3 r'' c'' E'); lia|apply (H2 k r' c' r'' c'' E E'); lia].
    + intros r' c' E Li. cbn in E. injection E as <- <-. apply Nat.ltb_lt in Li. rewrite Li in B. cbn in B. apply negb_false_iff, Nat.eqb_eq in B. exact B.
  - intros (H1 & H2 & H3). assert ((1 <? i) && negb (c =? prev) = false) as ->. { destruct (Nat.ltb_spec 1 i) as [Li|]; [|reflexivity]. rewrite (H3 r c eq_refl Li), Nat.eqb_refl. reflexivity. }
    specialize (H1 0 r c eq_refl) as E. cbn in E. injection E as ->. rewrite Nat.eqb_refl. cbn [negb]. apply (IH y (S i) c L). split; [|split].
    + intros k r' c' E. exact (H1 (S k) r' c' E).
    + intros k r' c' r'' c'' E E' Le. apply (H2 (S k) r' c' r'' c'' E E'). lia.
    + intros r' c' E Li. apply (H2 0 r c r' c' eq_refl E). lia.
Qed.
Lemma levels_iff : forall nf ls rs, check_levels nf ls = Ok rs <-> Forall2 (fun l r => check_level nf l = Ok r) ls rs.
Proof.
  intros nf. induction ls as [|l ls IH]; intros rs; cbn; [split; [intros H; injection H as <-; constructor|intros H; inversion H; reflexivity]|]. split.
  - intros H. destruct (check_level nf l) as [r|e] eqn:E; [|discriminate H]. cbn in H. destruct (check_levels nf ls) as [r'|e]; [|discriminate H]. cbn in H. injection H as <-. constructor; [exact E|apply IH; reflexivity].
  - intros H. inversion H as [|? ? ? rs' E F]; subst. rewrite E. cbn. rewrite (proj2 (IH rs') F). reflexivity.
Qed.
Lemma per_level_iff : forall s n l, per_level s n = Ok l <-> right_length s n /\ length l = n /\ forall i v, nth_error l i = Some v -> at_level s i v.
Proof.
  intros [v|m] n l; cbn.
  - split.
    + intros H. injection H as <-. split; [exact Logic.I|]. split; [apply repeat_length|]. intros i w E. apply nth_error_In, repeat_spec in E. exact E.
    + intros (_ & L & H). f_equal. symmetry. subst n. clear - H. induction l as [|a l IH]; [reflexivity|]. cbn. rewrite (H 0 a eq_refl). f_equal. apply IH. intros i w E. exact (H (S i) w E).
  - destruct (Nat.eqb_spec (length m) n) as [E|Ne]; split.
    + intros H. injection H as <-. split; [exact E|]. split; [exact E|]. intros i w Ew. exact Ew.
    + intros (_ & L & H). f_equal. assert (L' : length m = length l) by congruence. clear - L' H. revert m L' H. induction l as [|a l IH]; intros [|b m] L' H; try discriminate L'; [reflexivity|]. f_equal; [specialize (H 0 a eq_refl); cbn in H; congruence|]. apply IH; [cbn in L'; lia|]. intros i w E. exact (H (S i) w E).
    + discriminate.
    + intros (R & _). contradiction.
Qed.
Lemma zip_nth : forall a b c d i l, nth_error (zip_levels a b c d) i = Some l <-> nth_error a i = Some (l_theta l) /\ nth_error b i = Some (l_theta0 l) /\ nth_error c i = Some (l_L l) /\ nth_error d i = Some (l_U l).
Proof.
  induction a as [|x a IH]; intros b c d i l; [split; [destruct i; discriminate|intros (H & _); destruct i; discriminate H]|]. destruct b as [|y b], c as [|z c], d as [|w d]; cbn [zip_levels]; try (split; [destruct i; discriminate|intros (_ & H & K & J); destruct i; discriminate]). destruct i as [|i]; cbn; [|apply IH]. split; [intros E; injection E as <-; repeat split|]. intros (E1 & E2 & E3 & E4). destruct l. cbn in *. congruence.
Qed.
Lemma zip_length : forall a b c d n, length a = n -> length b = n -> length c = n -> length d = n -> length (zip_levels a b c d) = n.
Proof. induction a as [|x a IH]; intros [|y b] [|z c] [|w d] n A B C D; cbn in *; try congruence. destruct n; [discriminate|]. f_equal. apply IH; congruence. Qed.
(** The checks of fit accept exactly: as many X as y and at least one, each with as many rows;
    from the third X on, as many columns as the one before; lists of settings with an entry per
    level; and acceptable settings at each level. *)
Theorem C128_accepts : forall X y th t0 lo up rs, check X y th t0 lo up = Ok rs <->
  exists r nf X', X = (r, nf) :: X' /\ length X = length y /\
    (forall k r c, nth_error X k = Some (r, c) -> nth_error y k = Some r) /\
    (forall k r c r' c', 1 <= k -> nth_error X k = Some (r, c) -> nth_error X (S k) = Some (r', c') -> c' = c) /\
    right_length th (length X) /\ right_length t0 (length X) /\ right_length lo (length X) /\ right_length up (length X) /\
    length rs = length X /\
    (forall i r, nth_error rs i = Some r -> exists l, at_level th i (l_theta l) /\ at_level t0 i (l_theta0 l) /\ at_level lo i (l_L l) /\ at_level up i (l_U l) /\ acceptable nf l /\ r = completed nf l).
Proof.
  intros X y th t0 lo up rs. unfold check, check_data. split.
  - intros H. destruct (Nat.eqb_spec (length X) (length y)) as [L|]; [|discriminate H]. cbn [negb bind] in H. destruct (data_loop 0 0 X y) as [[]|e] eqn:D; [|discriminate H]. cbn [bind] in H. apply (data_iff X y 0 0 L) in D. destruct D as (D1 & D2 & _). destruct X as [|[r nf] X']; [discriminate H|]. cbn [bind] in H. exists r, nf, X'.
    destruct (per_level th _) as [a|e] eqn:Ea; [|discriminate H]. cbn [bind] in H. destruct (per_level t0 _) as [b|e] eqn:Eb; [|discriminate H]. cbn [bind] in H. destruct (per_level lo _) as [c|e] eqn:Ec; [|discriminate H]. cbn [bind] in H. destruct (per_level up _) as [d|e] eqn:Ed; [|discriminate H]. cbn [bind] in H.
    apply per_level_iff in Ea, Eb, Ec, Ed. destruct Ea as (R1 & La & Aa), Eb as (R2 & Lb & Ab), Ec as (R3 & Lc & Ac), Ed as (R4 & Ld & Ad). apply levels_iff in H.
    split; [reflexivity|]. split; [exact L|]. split; [exact D1|]. split; [intros k r1 c1 r2 c2 Lk E1 E2; apply (D2 k r1 c1 r2 c2 E1 E2); lia|]. repeat (split; [assumption|]).
    assert (Ln : length (zip_levels a b c d) = length rs) by (clear - H; induction H; cbn; congruence). split; [rewrite <- Ln; apply zip_length; assumption|].
    intros i rr Er. assert (exists l, nth_error (zip_levels a b c d) i = Some l /\ check_level nf l = Ok rr) as (l & Zl & Cl). { clear - H Er. revert i Er. induction H as [|l r ls rs E F IH]; intros [|i] Er; try discriminate Er; [exists l; cbn in *; split; [reflexivity|congruence]|]. exact (IH i Er). }
    apply zip_nth in Zl. destruct Zl as (Z1 & Z2 & Z3 & Z4). exists l. apply C128_level in Cl. repeat (split; [first [apply Aa|apply Ab|apply Ac|apply Ad]; assumption|]). exact Cl.
  - intros (r & nf & X' & -> & L & D1 & D2 & R1 & R2 & R3 & R4 & Lr & Hr). rewrite L, Nat.eqb_refl. cbn [negb]. rewrite (proj2 (data_iff ((r, nf) :: X') y 0 0 L)); [|split; [exact D1|split; [intros k r1 c1 r2 c2 E1 E2 Lk; apply (D2 k r1 c1 r2 c2); [lia|exact E1|exact E2]|intros; lia]]]. cbn [bind]. rewrite <- L.
    set (n := length ((r, nf) :: X')) in *. clearbody n.
    assert (P : forall s, right_length s n -> exists l, per_level s n = Ok l /\ length l = n /\ forall i v, i < n -> at_level s i v -> nth_error l i = Some v).
    { intros [v|m] Rs; cbn in *; [exists (repeat v n); split; [reflexivity|split; [apply repeat_length|]]|exists m; split; [rewrite Rs, Nat.eqb_refl; reflexivity|split; [exact Rs|intros i w _ E; exact E]]]. intros i w Li ->. clear - Li. revert i Li. induction n as [|n IH]; intros [|i] Li; try lia; [reflexivity|]. cbn. apply IH. lia. }
    destruct (P th R1) as (a & -> & La & Pa). destruct (P t0 R2) as (b & -> & Lb & Pb). destruct (P lo R3) as (c & -> & Lc & Pc). destruct (P up R4) as (d & -> & Ld & Pd). cbn [bind]. apply levels_iff.
    assert (Z : forall i rr, nth_error rs i = Some rr -> exists l, nth_error (zip_levels a b c d) i = Some l /\ check_level nf l = Ok rr).
    { intros i rr Er. destruct (Hr i rr Er) as (l & A1 & A2 & A3 & A4 & Acc). exists l. assert (Li : i < n) by (rewrite <- Lr; apply nth_error_Some; congruence). split; [apply zip_nth; repeat split; [apply Pa|apply Pb|apply Pc|apply Pd]; assumption|apply C128_level; exact Acc]. }
    pose proof (zip_length a b c d n La Lb Lc Ld) as Lz. rewrite <- Lr in Lz. clear - Z Lz. revert Lz Z. generalize (zip_levels a b c d). intros zs. revert rs. induction zs as [|z zs IH]; intros [|q rs] Lz Z; try discriminate Lz; constructor.
    + destruct (Z 0 q eq_refl) as (l & E & C). cbn in E. congruence.
    + apply IH; [cbn in Lz; lia|]. intros i rr E. exact (Z (S i) rr E).
Qed.
Print Assumptions C128_accepts.

(** For the optimizer there is a positive lower bound, and an upper bound not below it, for
    each entry of theta0, exactly if both bounds were given or theta0 has at most one entry per
    feature. *)
Theorem C128_bounds : forall nf l r, check_level nf l = Ok r ->
  ((exists bs, bounds r = Some bs) <-> (l_L l <> None /\ l_U l <> None) \/ length (start nf l) <= nf) /\
  (forall bs, bounds r = Some bs -> length bs = length (start nf l) /\ forall i a b, nth_error bs i = Some (a, b) -> (0 < a)%Q /\ (a <= b)%Q).
Proof.
  intros nf l r H. apply C128_level in H. destruct H as ((_ & _ & L1 & L2 & P & F & O) & ->). unfold bounds, completed. cbn [l_theta0 l_L l_U].
  assert (Ll : (exists a, l_L l = Some a) \/ (l_L l = None /\ length (lower nf l) = nf)). { unfold lower, default. destruct (l_L l) as [a|]; [left; exists a; reflexivity|right; split; [reflexivity|apply repeat_length]]. }
  assert (Lu : (exists a, l_U l = Some a) \/ (l_U l = None /\ length (upper nf l) = nf)). { unfold upper, default. destruct (l_U l) as [a|]; [left; exists a; reflexivity|right; split; [reflexivity|apply repeat_length]]. }
  assert (Ll' : forall a, l_L l = Some a -> length (lower nf l) = length (start nf l)) by (intros a E; unfold lower, default; rewrite E; apply (L1 a E)).
  assert (Lu' : forall a, l_U l = Some a -> length (upper nf l) = length (start nf l)) by (intros a E; unfold upper, default; rewrite E; apply (L2 a E)).
  split.
  - split.
    + intros (bs & E). destruct (Nat.ltb_spec (length (lower nf l)) (length (start nf l))) as [|A]; [discriminate E|]. destruct (Nat.ltb_spec (length (upper nf l)) (length (start nf l))) as [|B]; [discriminate E|].
      destruct Ll as [(a & Ea)|(Ea & La)]; [|right; lia]. destruct Lu as [(b & Eb)|(Eb & Lb)]; [|right; lia]. left. rewrite Ea, Eb. split; discriminate.
    + intros H. assert (A : length (start nf l) <= length (lower nf l)) by (destruct Ll as [(a & Ea)|(Ea & La)]; [rewrite (Ll' a Ea); lia|]; destruct H as [[H _]|H]; [contradiction|lia]).
      assert (B : length (start nf l) <= length (upper nf l)) by (destruct Lu as [(a & Ea)|(Ea & La)]; [rewrite (Lu' a Ea); lia|]; destruct H as [[_ H]|H]; [contradiction|lia]).
      destruct (Nat.ltb_spec (length (lower nf l)) (length (start nf l))); [lia|]. destruct (Nat.ltb_spec (length (upper nf l)) (length (start nf l))); [lia|]. eexists. reflexivity.
  - intros bs E. destruct (Nat.ltb_spec (length (lower nf l)) (length (start nf l))) as [|A]; [discriminate E|]. destruct (Nat.ltb_spec (length (upper nf l)) (length (start nf l))) as [|B]; [discriminate E|]. injection E as <-. split; [rewrite firstn_length, combine_length; lia|]. intros i a b E.
    assert (nth_error (combine (lower nf l) (upper nf l)) i = Some (a, b)) as E'. { revert E. generalize (combine (lower nf l) (upper nf l)) (length (start nf l)). intros m n. revert m i. induction n as [|n IH]; intros [|e m] [|i] E; try discriminate E; [exact E|exact (IH m i E)]. }
    assert (nth_error (lower nf l) i = Some a /\ nth_error (upper nf l) i = Some b) as [Ea Eb]. { revert E'. generalize (lower nf l) (upper nf l). clear. intros p. revert i. induction p as [|x p IH]; intros [|i] [|y q] E; try discriminate E; cbn in E; [injection E as -> ->; split; reflexivity|exact (IH i q E)]. }
    split; [exact (P i a Ea)|apply (O i a b); left; assumption].
Qed.
Print Assumptions C128_bounds.

(** A second fit with the settings that the first left: the same, if every bound was given or
    theta0 has one entry per feature; *)
Theorem C128_again : forall nf l r, check_level nf l = Ok r ->
  (length (start nf l) = nf \/ (l_L l <> None /\ l_U l <> None)) -> check_level nf r = Ok r.
Proof.
  intros nf l r H D. apply C128_level in H. destruct H as ((T & S0 & L1 & L2 & P & F & O) & ->). apply C128_level. split; [|reflexivity]. unfold acceptable, completed, start, lower, upper, default. cbn [l_theta l_theta0 l_L l_U given]. fold (start nf l) (lower nf l) (upper nf l).
  assert (A : length (given (l_L l) (repeat (1 # 100000)%Q nf)) = length (start nf l)). { destruct (l_L l) as [a|]; cbn [given]; [exact (L1 a eq_refl)|]. rewrite repeat_length. destruct D as [D|[D _]]; [symmetry; exact D|contradiction]. }
  assert (B : length (given (l_U l) (repeat (50 # 1)%Q nf)) = length (start nf l)). { destruct (l_U l) as [a|]; cbn [given]; [exact (L2 a eq_refl)|]. rewrite repeat_length. destruct D as [D|[_ D]]; [symmetry; exact D|contradiction]. }
  repeat split; try assumption; intros a E; injection E as <-; assumption.
Qed.
Print Assumptions C128_again.
(** but not if theta0 is, for instance, one number for several features: then the second fit
    raises an error *)
Theorem C128_refit_refuted : forall nf l r, check_level nf l = Ok r -> (l_L l = None \/ l_U l = None) -> length (start nf l) <> nf ->
  forall r', check_level nf r <> Ok r'.
Proof.
  intros nf l r H D Ne r' H'. apply C128_level in H. destruct H as (_ & ->). apply C128_level in H'. destruct H' as ((_ & _ & L1 & L2 & _) & _). unfold completed, start, lower, upper, default in L1, L2. cbn [l_theta0 l_L l_U given] in L1, L2. specialize (L1 _ eq_refl). specialize (L2 _ eq_refl). apply Ne. unfold start, default. destruct D as [D|D]; rewrite D in *; cbn [given] in *; rewrite repeat_length in *; congruence.
Qed.
Print Assumptions C128_refit_refuted.
(** "if double: value is replicated for all features" *)
Theorem C128_replicated_refuted : forall nf th q up r, nf <> 1 -> check_level nf (mkLevel th None (Some [q]) up) <> Ok r.
Proof. intros nf th q up r Ne H. apply C128_level in H. destruct H as ((_ & _ & L & _) & _). specialize (L [q] eq_refl). unfold start, default in L. cbn [l_theta0 given length] in L. rewrite repeat_length in L. congruence. Qed.
Print Assumptions C128_replicated_refuted.
(** the starting point is not compared with the bounds *)
Theorem C128_start_refuted : forall nf q, (50 < q)%Q -> exists r, check_level nf (mkLevel None (Some [q]) None None) = Ok r /\ l_theta0 r = Some [q] /\ l_U r = Some (repeat (50 # 1)%Q nf).
Proof.
  intros nf q Lq. exists (completed nf (mkLevel None (Some [q]) None None)). split; [|split; reflexivity]. apply C128_level. split; [|reflexivity]. unfold acceptable, start, lower, upper, default. cbn [l_theta l_theta0 l_L l_U given].
  split; [discriminate|]. split; [intros i x E; apply nth_error_In in E; destruct E as [<-|[]]; apply (Qlt_trans 0 50); [reflexivity|exact Lq]|]. split; [discriminate|]. split; [discriminate|].
  split; [intros i x E; apply nth_error_In, repeat_spec in E; subst; reflexivity|]. split; [left; rewrite !repeat_length; reflexivity|]. intros i x y A B. apply entry_in, repeat_spec in A. apply entry_in, repeat_spec in B. subst. discriminate.
Qed.
Print Assumptions C128_start_refuted.
(** nor are the columns of the second X with those of the first *)
Theorem C128_columns_refuted : forall r0 c0 r1 c1, exists ls, check [(r0, c0); (r1, c1)] [r0; r1] (One None) (One None) (One None) (One None) = Ok ls.
Proof.
  intros r0 c0 r1 c1. unfold check, check_data. cbn [length Nat.eqb negb data_loop Nat.ltb Nat.leb andb]. rewrite !Nat.eqb_refl. cbn [negb bind per_level length repeat zip_levels check_levels].
  assert (E : check_level c0 (mkLevel None None None None) = Ok (completed c0 (mkLevel None None None None))).
  { apply C128_level. split; [|reflexivity]. unfold acceptable, start, lower, upper, default. cbn [l_theta l_theta0 l_L l_U given]. split; [discriminate|]. split; [intros i x E; apply nth_error_In, repeat_spec in E; subst; reflexivity|]. split; [discriminate|]. split; [discriminate|]. split; [intros i x E; apply nth_error_In, repeat_spec in E; subst; reflexivity|]. split; [left; rewrite !repeat_length; reflexivity|]. intros i x y A B. apply entry_in, repeat_spec in A. apply entry_in, repeat_spec in B. subst. discriminate. }
  rewrite !E. cbn [bind]. eexists. reflexivity.
Qed.
Print Assumptions C128_columns_refuted.

(** two levels with two features, theta0 a number: accepted, and refused the second time *)
Example C128_ex :
  check [(5, 2); (3, 2)] [5; 3] (One None) (One (Some [1 # 1])) (One None) (Many [Some [2 # 1]; None])
    = Ok [mkLevel None (Some [1 # 1]) (Some [1 # 100000; 1 # 100000]) (Some [2 # 1]); mkLevel None (Some [1 # 1]) (Some [1 # 100000; 1 # 100000]) (Some [50 # 1; 50 # 1])]%Q
  /\ check [(5, 2); (3, 2)] [5; 3] (One None) (Many [Some [1 # 1]; Some [1 # 1]]) (Many [Some [1 # 100000; 1 # 100000]; Some [1 # 100000; 1 # 100000]]) (Many [Some [2 # 1]; Some [50 # 1; 50 # 1]]) = Err ValueError
  /\ check [(5, 2); (3, 2)] [5; 3] (One None) (One None) (One (Some [1 # 10; 3 # 1])) (One (Some [1 # 1; 2 # 1])) = Err ValueError
  /\ bounds (mkLevel None (Some [1 # 1]) (Some [1 # 100000; 1 # 100000]) (Some [2 # 1])) = Some [(1 # 100000, 2 # 1)]%Q.
Proof. vm_compute. repeat split. Qed.

(** C123: variables under complex step. *)
From Coq Require Import Ring.
From Verif Require Import Base BaseFacts CpxModel CpxSpec.
Local Open Scope list_scope.
Local Open Scope nat_scope.

(** * Slices *)
Lemma nth_error_firstn_lt : forall A n k (l : list A), k < n -> nth_error (firstn n l) k = nth_error l k.
Proof. induction n as [|n IH]; intros [|k] [|a l] H; try lia; try reflexivity. cbn. apply IH. lia. Qed.
Lemma update_length : forall A (l x : list A) lo, lo + length x <= length l -> length (update l lo x) = length l.
Proof. intros A l x lo H. unfold update. rewrite !app_length, firstn_length, skipn_length. lia. Qed.
Lemma slice_nth : forall A (l : list A) lo n k, k < n -> nth_error (slice l lo n) k = nth_error l (lo + k).
Proof.
  intros A l lo n k H. unfold slice. rewrite nth_error_firstn_lt by exact H. revert l. induction lo as [|lo IH]; intros l; [reflexivity|]. destruct l as [|a l]; [cbn; destruct k; reflexivity|]. cbn. apply IH.
Qed.
Lemma slice_length : forall A (l : list A) lo n, lo + n <= length l -> length (slice l lo n) = n.
Proof. intros A l lo n H. unfold slice. rewrite firstn_length, skipn_length. lia. Qed.
Lemma update_nth : forall A (l x : list A) lo k, lo + length x <= length l ->
  nth_error (update l lo x) k = if (lo <=? k) && (k <? lo + length x) then nth_error x (k - lo) else nth_error l k.
Proof.
  intros A l x lo k H. unfold update. destruct (Nat.leb_spec lo k) as [L|L]; cbn [andb].
  - rewrite nth_error_app2 by (rewrite firstn_length; lia). rewrite firstn_length, Nat.min_l by lia. destruct (Nat.ltb_spec k (lo + length x)) as [U|U].
    + apply nth_error_app1. lia.
    + rewrite nth_error_app2 by lia. rewrite <- (firstn_skipn (lo + length x) l) at 2. rewrite nth_error_app2 by (rewrite firstn_length; lia). rewrite firstn_length, Nat.min_l by lia. f_equal. lia.
  - rewrite nth_error_app1 by (rewrite firstn_length; lia). rewrite nth_error_firstn_lt by lia. reflexivity.
Qed.
Lemma nth_ext_error : forall A (l m : list A), length l = length m -> (forall k, k < length l -> nth_error l k = nth_error m k) -> l = m.
Proof.
  induction l as [|a l IH]; intros [|b m] L H; try discriminate L; [reflexivity|]. pose proof (H 0 ltac:(cbn; lia)) as E. injection E as ->. f_equal. apply IH; [cbn in L; lia|]. intros k Hk. apply (H (S k)). cbn. lia.
Qed.
Lemma slice_same : forall A (l x : list A) lo, lo + length x <= length l -> slice (update l lo x) lo (length x) = x.
Proof.
  intros A l x lo H. apply nth_ext_error; [apply slice_length; rewrite update_length; lia|]. intros k Hk. rewrite slice_length in Hk by (rewrite update_length; lia). rewrite slice_nth by exact Hk. rewrite update_nth by exact H. destruct (Nat.leb_spec lo (lo + k)); [|lia]. destruct (Nat.ltb_spec (lo + k) (lo + length x)); [|lia]. cbn. f_equal. lia.
Qed.
Lemma slice_other : forall A (l x : list A) lo lo' n, lo + length x <= length l -> lo' + n <= length l -> lo + length x <= lo' \/ lo' + n <= lo -> slice (update l lo x) lo' n = slice l lo' n.
Proof.
  intros A l x lo lo' n H H' D. apply nth_ext_error; [rewrite !slice_length; [reflexivity|lia|rewrite update_length; lia]|]. intros k Hk. rewrite slice_length in Hk by (rewrite update_length; lia). rewrite !slice_nth by exact Hk. rewrite update_nth by exact H. destruct (Nat.leb_spec lo (lo' + k)); [|reflexivity]. destruct (Nat.ltb_spec (lo' + k) (lo + length x)); [lia|reflexivity].
Qed.
Lemma combine_nth_error : forall A B (l : list A) (m : list B) k, nth_error (combine l m) k = match nth_error l k, nth_error m k with Some a, Some b => Some (a, b) | _, _ => None end.
Proof.
  induction l as [|a l IH]; intros [|b m] [|k]; cbn; try reflexivity; [destruct (nth_error l k); reflexivity|apply IH].
Qed.

(** * Shapes *)
Lemma is_scalar_iff : forall s, is_scalar s = true <-> s = Int 1.
Proof. intros [[|[|n]]|d]; cbn; split; congruence. Qed.
Lemma shape_inj : forall A s (v w : value A), of_shape s v -> of_shape s w -> entries v = entries w -> v = w.
Proof.
  intros A s [x|d l] [y|e m] V W E; cbn in *.
  - congruence.
  - destruct W as [N _]. contradiction.
  - destruct V as [N _]. contradiction.
  - destruct V as (_ & -> & _), W as (_ & -> & _). congruence.
Qed.
Lemma shape_count : forall A s (v : value A), of_shape s v -> length (entries v) = fold_right Nat.mul 1 (shape_dims s).
Proof. intros A s [x|d l] V; cbn in *; [rewrite V; reflexivity|]. destruct V as (_ & -> & H). exact H. Qed.
Section Props.
  Context {R : Type} (rO rI : R) (radd rmul rsub : R -> R -> R) (ropp : R -> R) (RT : ring_theory rO rI radd rmul rsub ropp eq).
  Add Ring Rr : RT.
  Notation acc := (@acc R).
  Notation state := (@state R).
  Notation get := (get radd rmul).
  Notation get_complex := (get_complex rO rI radd rmul rsub).
  Lemma shaped_ok : forall A (a : acc) (mk : value A -> got) l, a_size a = fold_right Nat.mul 1 (shape_dims (a_shape a)) -> length l = a_size a ->
    exists v, shaped a mk l = mk v /\ of_shape (a_shape a) v /\ entries v = l.
  Proof.
    intros A a mk l H L. unfold shaped. destruct (is_scalar (a_shape a)) eqn:S.
    - apply is_scalar_iff in S. rewrite S in H. cbn in H. rewrite H in L. destruct l as [|x [|y l]]; try discriminate L. exists (Scal x). cbn. auto.
    - assert (N : a_shape a <> Int 1) by (intros E; apply is_scalar_iff in E; congruence). destruct (shapes_same a) eqn:E.
      + exists (Arr [length l] l). split; [reflexivity|]. split; [|reflexivity]. split; [exact N|]. split; [|cbn; lia]. unfold shapes_same in E. destruct (a_shape a) as [n|[|n [|m d]]]; try discriminate; apply Nat.eqb_eq in E; cbn; f_equal; lia.
      + assert (C : size (dims (a_shape a)) =? length l = true) by (apply Nat.eqb_eq; rewrite L, H; destruct (a_shape a); reflexivity). rewrite C. exists (Arr (dims (a_shape a)) l). split; [reflexivity|]. split; [|reflexivity]. split; [exact N|]. split; [destruct (a_shape a); reflexivity|]. apply Nat.eqb_eq in C. rewrite <- C. reflexivity.
  Qed.
  Lemma both_nth : forall (a : acc) s k, within a s -> k < a_size a -> exists x y, nth_error (s_vec s) (a_lo a + k) = Some x /\ nth_error (s_imag s) (a_lo a + k) = Some y /\ nth_error (both_parts rO rI radd rmul rsub a s) k = Some (x, y).
  Proof.
    intros a s k (E & H & _) K. destruct (nth_error (s_vec s) (a_lo a + k)) as [x|] eqn:X; [|apply nth_error_None in X; lia]. destruct (nth_error (s_imag s) (a_lo a + k)) as [y|] eqn:Y; [|apply nth_error_None in Y; lia]. exists x, y. split; [reflexivity|]. split; [reflexivity|]. unfold both_parts, real_part. rewrite nth_error_map, combine_nth_error, !slice_nth by exact K. rewrite X, Y. cbn. unfold cadd, cmul, of_real, j. cbn. f_equal. f_equal; ring.
  Qed.
  Lemma both_length : forall (a : acc) s, within a s -> length (both_parts rO rI radd rmul rsub a s) = a_size a.
  Proof. intros a s (E & H & _). unfold both_parts, real_part. rewrite map_length, combine_length, !slice_length by lia. lia. Qed.

  (** * Getting *)
  (** In a complex step a variable is the complex array of its shape with its two slices as
      parts; a conversion of units applies to the number: the offset to the real part only. *)
  Theorem C123_get : forall (a : acc) s, within a s -> s_complex s = true ->
    exists v : value (R * R), get_complex a s = Complex v /\ of_shape (a_shape a) v /\ length (entries v) = a_size a /\
    forall k, k < a_size a -> exists x y, nth_error (s_vec s) (a_lo a + k) = Some x /\ nth_error (s_imag s) (a_lo a + k) = Some y /\
      (plain a -> nth_error (entries v) k = Some (x, y)) /\
      (forall scale offset, a_conv a = Some (scale, offset) -> a_deriv a = false -> nth_error (entries v) k = Some (rmul scale (radd x offset), rmul scale y)).
  Proof.
    intros a s W C. unfold CpxModel.get_complex. rewrite C. destruct (shaped_ok _ a Complex (map (conv_cpx rO radd rmul rsub a) (both_parts rO rI radd rmul rsub a s))) as (v & E & S & En); [apply W|rewrite map_length; apply both_length; exact W|]. exists v. split; [exact E|]. split; [exact S|]. rewrite En. split; [rewrite map_length; apply both_length; exact W|].
    intros k K. destruct (both_nth a s k W K) as (x & y & X & Y & B). exists x, y. split; [exact X|]. split; [exact Y|]. rewrite nth_error_map, B. cbn [option_map]. split.
    - intros P. unfold conv_cpx. destruct P as [P|P]; rewrite P; [reflexivity|]. destruct (a_conv a) as [[sc of]|]; reflexivity.
    - intros sc of Ec D. unfold conv_cpx. rewrite Ec, D. cbn. f_equal. unfold cmul, cadd, of_real. cbn. f_equal; ring.
  Qed.
  (** Otherwise it is the real array. *)
  Theorem C123_get_real : forall (a : acc) s, within a s -> s_complex s = false ->
    exists v, get_complex a s = Real v /\ of_shape (a_shape a) v /\ length (entries v) = a_size a /\
    forall k, k < a_size a -> exists x, nth_error (s_vec s) (a_lo a + k) = Some x /\
      (plain a -> nth_error (entries v) k = Some x) /\
      (forall scale offset, a_conv a = Some (scale, offset) -> a_deriv a = false -> nth_error (entries v) k = Some (rmul scale (radd x offset))).
  Proof.
    intros a s W C. unfold CpxModel.get_complex. rewrite C. unfold CpxModel.get. pose proof W as (Ev & H & Hs). assert (Lr : length (real_part a s) = a_size a) by (apply slice_length; exact H).
    destruct (shaped_ok _ a Real (map (conv_real radd rmul a) (real_part a s))) as (v & E & S & En); [exact Hs|rewrite map_length; exact Lr|]. exists v. split; [exact E|]. split; [exact S|]. rewrite En. split; [rewrite map_length; exact Lr|].
    intros k K. destruct (nth_error (s_vec s) (a_lo a + k)) as [x|] eqn:X; [|apply nth_error_None in X; lia]. exists x. split; [reflexivity|]. rewrite nth_error_map. unfold real_part. rewrite slice_nth by exact K. rewrite X. cbn [option_map]. split.
    - intros P. unfold conv_real. destruct P as [P|P]; rewrite P; [reflexivity|]. destruct (a_conv a) as [[sc of]|]; reflexivity.
    - intros sc of Ec D. unfold conv_real. rewrite Ec, D. f_equal. ring.
  Qed.

  (** * Setting *)
  Lemma fill_ok : forall A n (l : list A), length l = n -> fill n l = Ok l.
  Proof. intros A n l <-. destruct l as [|x [|y l]]; [reflexivity|reflexivity|]. unfold fill. rewrite Nat.eqb_refl. reflexivity. Qed.
  Lemma set_complex_ok : forall (a : acc) s (v : value (R * R)), of_shape (a_shape a) v -> length (entries v) = a_size a ->
    set_complex a s v = Ok (mkS (update (s_vec s) (a_lo a) (map fst (entries v))) (update (s_imag s) (a_lo a) (map snd (entries v))) (s_complex s)).
  Proof.
    intros a s [z|d l] V L; cbn [set_complex entries] in *.
    - cbn in V. rewrite V. reflexivity.
    - destruct V as (N & _). destruct (is_scalar (a_shape a)) eqn:S; [apply is_scalar_iff in S; contradiction|]. rewrite !fill_ok by (rewrite map_length; exact L). reflexivity.
  Qed.
  Lemma set_real_ok : forall (a : acc) s (v : value R), of_shape (a_shape a) v -> length (entries v) = a_size a ->
    set_real a s v = Ok (mkS (update (s_vec s) (a_lo a) (entries v)) (s_imag s) (s_complex s)).
  Proof.
    intros a s [z|d l] V L; cbn [set_real entries] in *.
    - cbn in V. rewrite V. reflexivity.
    - destruct V as (N & _). destruct (is_scalar (a_shape a)) eqn:S; [apply is_scalar_iff in S; contradiction|]. rewrite fill_ok by exact L. reflexivity.
  Qed.
  (** A complex value that is set is what is read back, its real parts once the step is over,
      and the other variables stay as they are. *)
  Theorem C123_set : forall (a : acc) s (v : value (R * R)), within a s -> plain a -> s_complex s = true -> of_shape (a_shape a) v ->
    exists s', set_complex a s v = Ok s' /\ get_complex a s' = Complex v /\
    (exists w, get_complex a (mkS (s_vec s') (s_imag s') false) = Real w /\ of_shape (a_shape a) w /\ entries w = map fst (entries v)) /\
    (forall b, within b s -> disjoint a b -> get_complex b s' = get_complex b s).
  Proof.
    intros a s v W P C V. pose proof W as (Ev & H & Hs). pose proof (shape_count _ _ _ V) as Lv. rewrite <- Hs in Lv. rewrite (set_complex_ok a s v V Lv). eexists. split; [reflexivity|].
    set (s' := mkS _ _ _). assert (W' : within a s') by (split; [|split; [|exact Hs]]; cbn; rewrite !update_length; rewrite ?map_length; lia).
    assert (Re : slice (s_vec s') (a_lo a) (a_size a) = map fst (entries v)) by (cbn; rewrite <- Lv, <- (map_length fst); apply slice_same; rewrite map_length; lia).
    assert (Im : slice (s_imag s') (a_lo a) (a_size a) = map snd (entries v)) by (cbn; rewrite <- Lv, <- (map_length snd); apply slice_same; rewrite map_length; lia).
    split; [|split].
    - destruct (C123_get a s' W' C) as (w & E & Sw & Lw & G). rewrite E. f_equal. apply (shape_inj _ (a_shape a)); [exact Sw|exact V|]. apply nth_ext_error; [lia|]. intros k K. rewrite Lw in K. destruct (G k K) as (x & y & X & Y & Pl & _). rewrite (Pl P). rewrite <- slice_nth with (n := a_size a) in X, Y by exact K. rewrite Re in X. rewrite Im in Y. rewrite nth_error_map in X, Y. destruct (nth_error (entries v) k) as [[p q]|]; [|discriminate]. cbn in X, Y. congruence.
    - assert (Wr : within a (mkS (s_vec s') (s_imag s') false)) by exact W'. destruct (C123_get_real a _ Wr eq_refl) as (w & E & Sw & Lw & G). exists w. split; [exact E|]. split; [exact Sw|]. apply nth_ext_error; [rewrite map_length; lia|]. intros k K. rewrite Lw in K. destruct (G k K) as (x & X & Pl & _). rewrite (Pl P). cbn [s_vec] in X. rewrite <- slice_nth with (n := a_size a) in X by exact K. rewrite Re in X. symmetry. exact X.
    - intros b (_ & Hb & _) D. unfold CpxModel.get_complex, CpxModel.get, both_parts, real_part. change (s_complex s') with (s_complex s). rewrite C. cbn [s' s_vec s_imag]. rewrite !slice_other; [reflexivity| | | | | |]; rewrite ?map_length; unfold disjoint in D; lia.
  Qed.
  (** Outside of a complex step the imaginary parts are not touched. *)
  Theorem C123_set_real : forall (a : acc) s v, within a s -> plain a -> s_complex s = false -> of_shape (a_shape a) v ->
    exists s', set_real a s v = Ok s' /\ get_complex a s' = Real v /\ s_imag s' = s_imag s /\
    (forall b, within b s -> disjoint a b -> get_complex b s' = get_complex b s).
  Proof.
    intros a s v W P C V. pose proof W as (Ev & H & Hs). pose proof (shape_count _ _ _ V) as Lv. rewrite <- Hs in Lv. rewrite (set_real_ok a s v V Lv). eexists. split; [reflexivity|].
    set (s' := mkS _ _ _). assert (W' : within a s') by (split; [|split; [|exact Hs]]; cbn; rewrite !update_length; lia).
    assert (Re : slice (s_vec s') (a_lo a) (a_size a) = entries v) by (cbn; rewrite <- Lv; apply slice_same; lia).
    split; [|split; [reflexivity|]].
    - destruct (C123_get_real a s' W' C) as (w & E & Sw & Lw & G). rewrite E. f_equal. apply (shape_inj _ (a_shape a)); [exact Sw|exact V|]. apply nth_ext_error; [lia|]. intros k K. rewrite Lw in K. destruct (G k K) as (x & X & Pl & _). rewrite (Pl P). rewrite <- slice_nth with (n := a_size a) in X by exact K. rewrite Re in X. symmetry. exact X.
    - intros b (_ & Hb & _) D. unfold CpxModel.get_complex, CpxModel.get, both_parts, real_part. change (s_complex s') with (s_complex s). rewrite C. cbn [s' s_vec]. rewrite slice_other; [reflexivity| | |]; unfold disjoint in D; lia.
  Qed.

  (** * Filling by index *)
  (** An unknown that is an array can be filled by index outside of a complex step ... *)
  Theorem C123_index : forall (a : acc) s i x, within a s -> plain a -> s_complex s = false -> a_shape a <> Int 1 -> i < a_size a ->
    exists v, get_complex a (poke a s i x) = Real v /\ nth_error (entries v) i = Some x /\
    (forall w k, get_complex a s = Real w -> k <> i -> nth_error (entries v) k = nth_error (entries w) k).
  Proof.
    intros a s i x W P C N I. pose proof W as (Ev & H & Hs). assert (V : is_view a s = true).
    { unfold is_view. rewrite C. destruct (is_scalar (a_shape a)) eqn:S; [apply is_scalar_iff in S; contradiction|]. cbn. destruct P as [->| ->]; [reflexivity|]. destruct (a_conv a); reflexivity. }
    unfold poke. rewrite V. set (s' := mkS _ _ _). assert (W' : within a s') by (split; [|split; [|exact Hs]]; cbn; rewrite !update_length; cbn; lia).
    destruct (C123_get_real a s' W' C) as (v & E & Sv & Lv & G). exists v. split; [exact E|]. split.
    - destruct (G i I) as (y & Y & Pl & _). rewrite (Pl P). rewrite <- Y. cbn [s' s_vec]. rewrite update_nth by (cbn; lia). destruct (Nat.leb_spec (a_lo a + i) (a_lo a + i)); [|lia]. cbn [length]. destruct (Nat.ltb_spec (a_lo a + i) (a_lo a + i + 1)); [|lia]. rewrite Nat.sub_diag. reflexivity.
    - intros w k Ew K. destruct (C123_get_real a s W C) as (w' & Ew' & Sw & Lw & Gw). rewrite Ew' in Ew. injection Ew as ->. destruct (Nat.lt_ge_cases k (a_size a)) as [Hk|Hk].
      + destruct (G k Hk) as (y & Y & Pl & _). destruct (Gw k Hk) as (z & Z & Plz & _). rewrite (Pl P), (Plz P), <- Y, <- Z. cbn [s' s_vec]. rewrite update_nth by (cbn; lia). destruct (Nat.leb_spec (a_lo a + i) (a_lo a + k)); [|reflexivity]. cbn [length]. destruct (Nat.ltb_spec (a_lo a + k) (a_lo a + i + 1)); [lia|reflexivity].
      + transitivity (@None R); [|symmetry]; apply nth_error_None; lia.
  Qed.
  (** ... but in one what is filled in is lost. *)
  Theorem C123_index_refuted : forall (a : acc) s i x, s_complex s = true -> poke a s i x = s.
  Proof. intros a s i x C. unfold poke, is_view. rewrite C, andb_false_r. reflexivity. Qed.
End Props.
Print Assumptions C123_get.
Print Assumptions C123_get_real.
Print Assumptions C123_set.
Print Assumptions C123_set_real.
Print Assumptions C123_index.
Print Assumptions C123_index_refuted.

(** a 2 by 2 array after a scalar *)
Definition cpx_a : acc := @mkAcc Z 1 4 (Dims [2; 2]) None false.
Definition cpx_b : acc := @mkAcc Z 0 1 (Int 1) (Some (3, 10)%Z) false.
Definition cpx_s : state := @mkS Z [5; 1; 2; 3; 4]%Z [7; 0; 0; 0; 0]%Z true.
Notation zget := (get_complex 0%Z 1%Z Z.add Z.mul Z.sub).
Example C123_ex : zget cpx_b cpx_s = Complex (Scal (45, 21)%Z)
  /\ zget cpx_a cpx_s = Complex (Arr [2; 2] [(1, 0); (2, 0); (3, 0); (4, 0)]%Z)
  /\ (exists s', set_complex cpx_a cpx_s (Arr [2; 2] [(1, 9); (8, 0); (7, 2); (6, 5)]%Z) = Ok s' /\ s_vec s' = [5; 1; 8; 7; 6]%Z /\ s_imag s' = [7; 9; 0; 2; 5]%Z)
  /\ within cpx_a cpx_s /\ disjoint cpx_a cpx_b.
Proof. repeat split; try (eexists; repeat split); unfold disjoint; cbn; lia. Qed.

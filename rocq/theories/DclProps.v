(** C116 Declaration of the variables of a component. *)
From Verif Require Import Base OrderModel ExprModel ExprProofs LcnModel LcnProofs DclModel DclSpec.
Local Open Scope list_scope.

(** ** Names *)
Lemma letter_in : forall c, letter c = true <-> In c letters.
Proof.
  intros c. assert (E : letter c = existsb (Ascii.eqb c) letters) by (destruct c as [[|] [|] [|] [|] [|] [|] [|] [|]]; vm_compute; reflexivity).
  rewrite E, existsb_exists. split; [intros (x & H & F); apply Ascii.eqb_eq in F; subst; exact H|intros H; exists c; split; [exact H|apply Ascii.eqb_refl]].
Qed.
Lemma digit_in : forall c, digit c = true <-> In c digits.
Proof.
  intros c. assert (E : digit c = existsb (Ascii.eqb c) digits) by (destruct c as [[|] [|] [|] [|] [|] [|] [|] [|]]; vm_compute; reflexivity).
  rewrite E, existsb_exists. split; [intros (x & H & F); apply Ascii.eqb_eq in F; subst; exact H|intros H; exists c; split; [exact H|apply Ascii.eqb_refl]].
Qed.
Lemma wordc_in : forall c, wordc c = true <-> In c letters \/ In c digits.
Proof. intros c. unfold wordc. rewrite orb_true_iff, letter_in, digit_in. reflexivity. Qed.
Lemma span_stop : forall (p : ascii -> bool) a b, (forall c, In c a -> p c = true) -> (match b with c :: _ => p c = false | [] => True end) -> span p (a ++ b) = (a, b).
Proof.
  intros p a b Ha Hb. induction a as [|c a IH]; [destruct b as [|d b]; [reflexivity|cbn; rewrite Hb; reflexivity]|]. cbn. rewrite (Ha c (or_introl eq_refl)). rewrite IH by (intros d H; apply Ha; right; exact H). reflexivity.
Qed.
Lemma ident_some : forall s w rest, ident_match s = Some (w, rest) -> s = w ++ rest /\ identifier w /\ (length rest < length s)%nat.
Proof.
  intros [|c s] w rest E; [discriminate|]. cbn in E. destruct (letter c) eqn:Ec; [|discriminate]. destruct (span wordc s) as [a b] eqn:Es. injection E as <- <-. destruct (span_ok _ _ _ _ Es) as (-> & H). split; [reflexivity|]. split.
  - exists c, a. split; [reflexivity|]. split; [apply letter_in; exact Ec|]. intros d Hd. apply wordc_in. apply H. exact Hd.
  - cbn. rewrite app_length. lia.
Qed.
Lemma ident_this : forall w rest, identifier w -> (match rest with c :: _ => wordc c = false | [] => True end) -> ident_match (w ++ rest) = Some (w, rest).
Proof.
  intros w rest (c & r & -> & Hc & Hr) H. cbn [app ident_match]. apply letter_in in Hc. rewrite Hc. rewrite (span_stop wordc r rest); [reflexivity|intros d Hd; apply wordc_in; apply Hr; exact Hd|exact H].
Qed.
Lemma colons_cons : forall w ws, ws <> [] -> colons (w :: ws) = w ++ ":"%char :: colons ws.
Proof. intros w [|x ws] H; [contradiction|reflexivity]. Qed.
Lemma colon_prefix : forall fuel s, exists ws b, (forall w, In w ws -> identifier w) /\ s = colon_match fuel s ++ b /\ colon_match fuel s = flat_map (cons ":"%char) ws.
Proof.
  induction fuel as [|fuel IH]; intros s; [exists [], s; repeat split; intros w []|]. cbn [colon_match]. destruct s as [|c r]; [exists [], []; repeat split; intros w []|]. destruct (Ascii.eqb_spec c ":"%char) as [Ec|]; [|exists [], (c :: r); repeat split; intros w []]. destruct (ident_match r) as [[w rest]|] eqn:Ei; [|exists [], (c :: r); repeat split; intros w []].
  destruct (ident_some _ _ _ Ei) as (-> & Hw & _). destruct (IH rest) as (ws & b & H1 & H2 & H3). exists (w :: ws), b. split; [intros x [<-|Hx]; [exact Hw|apply H1; exact Hx]|]. split; [cbn; rewrite <- app_assoc; rewrite <- H2; reflexivity|]. cbn [flat_map]. rewrite H3, Ec. reflexivity.
Qed.
Lemma colon_all : forall ws fuel, (forall w, In w ws -> identifier w) -> (length (flat_map (cons ":"%char) ws) <= fuel)%nat -> colon_match fuel (flat_map (cons ":"%char) ws) = flat_map (cons ":"%char) ws.
Proof.
  induction ws as [|w ws IH]; intros fuel H L; [destruct fuel; reflexivity|]. cbn [flat_map] in *. destruct fuel as [|fuel]; [cbn in L; lia|]. change ((":"%char :: w) ++ flat_map (cons ":"%char) ws) with (":"%char :: (w ++ flat_map (cons ":"%char) ws)) in *. cbn [colon_match]. rewrite Ascii.eqb_refl.
  rewrite (ident_this w (flat_map (cons ":"%char) ws)); [|apply H; left; reflexivity|destruct ws; [exact I|reflexivity]]. rewrite IH; [reflexivity|intros x Hx; apply H; right; exact Hx|]. cbn in L. rewrite app_length in L. lia.
Qed.
Lemma colons_flat : forall w ws, colons (w :: ws) = w ++ flat_map (cons ":"%char) ws.
Proof. intros w ws. revert w. induction ws as [|x ws IH]; intros w; [symmetry; apply app_nil_r|]. rewrite colons_cons by discriminate. rewrite IH. reflexivity. Qed.
(** A name is accepted if and only if it consists of identifiers separated by colons. *)
Theorem C116_valid : forall s, name_valid s = true <-> is_name s.
Proof.
  intros s. unfold name_valid, rgx_match. split.
  - destruct (ident_match s) as [[w rest]|] eqn:E; [|discriminate]. destruct (ident_some _ _ _ E) as (-> & Hw & _). destruct (teqb_spec (w ++ colon_match (length rest) rest) (w ++ rest)) as [F|]; [|discriminate]. intros _. apply app_inv_head in F. destruct (colon_prefix (length rest) rest) as (ws & b & H1 & _ & H3).
    exists (w :: ws). split; [discriminate|]. split; [intros x [<-|Hx]; [exact Hw|apply H1; exact Hx]|]. rewrite colons_flat. rewrite <- H3. rewrite F. reflexivity.
  - intros (ws & NE & H & ->). destruct ws as [|w ws]; [contradiction|]. rewrite colons_flat. rewrite (ident_this w (flat_map (cons ":"%char) ws)); [|apply H; left; reflexivity|destruct ws; [exact I|reflexivity]]. rewrite colon_all; [apply teqb_refl|intros x Hx; apply H; right; exact Hx|apply Nat.le_refl].
Qed.
Print Assumptions C116_valid.

Lemma psize_positions : forall l, psize l = length (positions l).
Proof.
  induction l as [|n l IH]; [reflexivity|]. cbn [positions psize fold_right]. fold (psize l). rewrite IH. generalize 0%nat at 1. induction n as [|n IHn]; intros a; [reflexivity|]. cbn [seq flat_map]. rewrite app_length, map_length. rewrite <- (IHn (S a)). reflexivity.
Qed.

Section C116.
  Variable unit_ok : txt -> bool.
  Variable zeros_none : value.
  Notation add_variable := (add_variable unit_ok zeros_none).
  Notation step := (step unit_ok zeros_none).
  Notation run := (run unit_ok zeros_none).
  Definition dicts (c : comp) := (c_post c, c_params c, c_unknowns c).

  (** what add_variable gives *)
  Lemma add_variable_ok : forall c name val k c' r, add_variable c name val k = (c', r) ->
    dicts c' = dicts c /\ match r with
    | inr _ => True
    | inl m => c_post c = false /\ haskey (c_params c) name = false /\ haskey (c_unknowns c) name = false /\ name_valid name = true /\
        m_val m = initial_val zeros_none val (k_shape k) /\ m_pbo m = negb (v_diff (m_val m) && negb (k_pbo k)) /\ m_size m = (if m_pbo m then 0%nat else vsize (m_val m)) /\
        m_shape m = (match k_shape k with Some (SInt n) => if Nat.ltb 1 n then Some (STup [n]) else if m_pbo m then k_shape k else Some (shape_of (m_val m)) | _ => if m_pbo m then k_shape k else Some (shape_of (m_val m)) end) /\
        m_state m = false /\ m_idx m = k_idx k
    end.
  Proof.
    intros c name val k c' r E. unfold DclModel.add_variable in E. destruct (check_varname c name) as [e|] eqn:Ec; [injection E as <- <-; split; [reflexivity|exact I]|]. unfold check_varname in Ec. destruct (c_post c) eqn:Ep; [discriminate|]. destruct (haskey (c_params c) name) eqn:E1; [discriminate|]. destruct (haskey (c_unknowns c) name) eqn:E2; [discriminate|]. cbn [orb] in Ec. destruct (name_valid name) eqn:E3; [|discriminate].
    destruct (match k_unit k with Some (_ :: _ as u) => negb (unit_ok u) | _ => false end); [injection E as <- <-; split; [reflexivity|exact I]|]. set (v := initial_val zeros_none val (k_shape k)) in *.
    assert (T : forall A (c0 : comp) (sz : nat) (sh : option shp) (pb : bool) (f : comp -> nat -> option shp -> bool -> A), (let '(c, size, shape, pbo) := (c0, sz, sh, pb) in f c size shape pbo) = f c0 sz sh pb) by reflexivity.
    destruct (v_diff v) eqn:Ed; destruct (k_pbo k) eqn:Ek; cbn [andb negb] in E; try (destruct (v_arr v) as [l|] eqn:Ea); cbn in E; destruct (k_low k); try (injection E as <- <-; split; [reflexivity|exact I]); destruct (k_high k); try (injection E as <- <-; split; [reflexivity|exact I]); injection E as <- <-; (split; [reflexivity|]); cbn [m_val m_pbo m_size m_shape m_state m_idx]; unfold shape_of, vsize; rewrite ?Ed, ?Ea; cbn [andb negb]; repeat (split; [reflexivity || assumption|]); try reflexivity; try (split; [destruct (k_shape k) as [[n|l']|]; reflexivity|split; reflexivity]).
  Qed.

  (** each call: nothing, a new variable at the end, or new metadata for one *)
  Lemma step_cases : forall c a c' e, step c a = (c', e) ->
    (dicts c' = dicts c /\ e <> None) \/
    (e = None /\ c_post c' = c_post c /\ adds a /\ exists m, c_post c = false /\ haskey (c_params c) (about a) = false /\ haskey (c_unknowns c) (about a) = false /\ name_valid (about a) = true /\
       (m_pbo m = false -> v_diff (m_val m) = true) /\ (m_size m = if m_pbo m then 0%nat else vsize (m_val m)) /\
       ((exists v k, a = AddParam (about a) v k /\ c_params c' = c_params c ++ [(about a, m)] /\ c_unknowns c' = c_unknowns c) \/ (c_params c' = c_params c /\ c_unknowns c' = c_unknowns c ++ [(about a, m)] /\ forall v k, a <> AddParam (about a) v k))) \/
    (e = None /\ c_post c' = c_post c /\ exists v s i m m' l, a = SetIdx (about a) v s (Some i) /\ v_arr (m_val m') = Some l /\ length i = psize l /\ m_size m' = psize l /\ m_shape m' = Some (STup l) /\ m_idx m' = Some i /\ m_pbo m' = m_pbo m /\ m_state m' = m_state m /\
       ((mget (c_params c) (about a) = Some m /\ c_params c' = mupd (c_params c) (about a) m' /\ c_unknowns c' = c_unknowns c) \/ (mget (c_params c) (about a) = None /\ mget (c_unknowns c) (about a) = Some m /\ c_params c' = c_params c /\ c_unknowns c' = mupd (c_unknowns c) (about a) m'))).
  Proof.
    intros c a c' e E. destruct a as [n v k|n v k|n v k|n v s i]; cbn [DclModel.step about] in *.
    - unfold add_param in E. destruct (k_scaler k); [injection E as <- <-; left; split; [reflexivity|discriminate]|]. destruct (add_variable c n v k) as [c1 r] eqn:Ea. pose proof (add_variable_ok _ _ _ _ _ _ Ea) as [D R]. destruct r as [m|x]; injection E as <- <-; [|left; split; [exact D|discriminate]]. right. left. destruct R as (R0 & R1 & R2 & R3 & R4 & R5 & R6 & R7 & R8 & R9). injection D as D1 D2 D3. cbn [c_post c_params c_unknowns].
      split; [reflexivity|]. split; [exact D1|]. split; [exact I|]. exists m. repeat (split; [assumption|]). split; [intros F; rewrite F in R5; destruct (v_diff (m_val m)); [reflexivity|discriminate]|]. split; [exact R6|]. left. exists v, k. split; [reflexivity|]. split; [rewrite D2; reflexivity|exact D3].
    - unfold add_output in E. destruct (k_scaler k); [injection E as <- <-; left; split; [reflexivity|discriminate]|]. destruct (unset v k); [injection E as <- <-; left; split; [reflexivity|discriminate]|]. destruct (add_variable c n v k) as [c1 r] eqn:Ea. pose proof (add_variable_ok _ _ _ _ _ _ Ea) as [D R]. destruct r as [m|x]; injection E as <- <-; [|left; split; [exact D|discriminate]]. right. left. destruct R as (R0 & R1 & R2 & R3 & R4 & R5 & R6 & R7 & R8 & R9). injection D as D1 D2 D3. cbn [c_post c_params c_unknowns].
      split; [reflexivity|]. split; [exact D1|]. split; [exact I|]. exists m. repeat (split; [assumption|]). split; [intros F; rewrite F in R5; destruct (v_diff (m_val m)); [reflexivity|discriminate]|]. split; [exact R6|]. right. split; [exact D2|]. split; [rewrite D3; reflexivity|discriminate].
    - unfold add_state in E. destruct (match k_scaler k with Some q => Qeq_bool q 0 | None => false end); [injection E as <- <-; left; split; [reflexivity|discriminate]|]. destruct (unset v k); [injection E as <- <-; left; split; [reflexivity|discriminate]|]. destruct (add_variable c n v k) as [c1 r] eqn:Ea. pose proof (add_variable_ok _ _ _ _ _ _ Ea) as [D R]. destruct r as [m|x]; injection E as <- <-; [|left; split; [exact D|discriminate]]. right. left. destruct R as (R0 & R1 & R2 & R3 & R4 & R5 & R6 & R7 & R8 & R9). injection D as D1 D2 D3. cbn [c_post c_params c_unknowns].
      split; [reflexivity|]. split; [exact D1|]. split; [exact I|]. exists (mkM (m_val m) (m_size m) (m_shape m) (m_pbo m) true (m_units m) (m_idx m)). repeat (split; [assumption|]). cbn [m_pbo m_val m_size]. split; [intros F; rewrite F in R5; destruct (v_diff (m_val m)); [reflexivity|discriminate]|]. split; [exact R6|]. right. split; [exact D2|]. split; [rewrite D3; reflexivity|discriminate].
    - unfold set_var_indices in E. destruct (mget (c_params c) n) as [m|] eqn:Em; [|destruct (mget (c_unknowns c) n) as [m|] eqn:Eu; [|injection E as <- <-; left; split; [reflexivity|discriminate]]].
      + destruct i as [i|]; [|injection E as <- <-; left; split; [reflexivity|discriminate]]. destruct (v_arr (m_val m)); [|injection E as <- <-; left; split; [reflexivity|discriminate]]. match type of E with (match v_arr ?x with _ => _ end) = _ => set (v' := x) in E end. destruct (v_arr v') as [l'|] eqn:Ev; [|injection E as <- <-; left; split; [reflexivity|discriminate]]. destruct (Nat.eqb_spec (psize l') (length i)) as [El|]; cbn [negb] in E; injection E as <- <-; [|left; split; [reflexivity|discriminate]].
        right. right. split; [reflexivity|]. split; [reflexivity|]. eexists v, s, i, m, _, l'. split; [reflexivity|]. split; [|split; [symmetry; exact El|]]; [|split; [|split; [|split; [|split; [|split; [|left; split; [reflexivity|split; reflexivity]]]]]]]; try reflexivity. exact Ev.
      + destruct i as [i|]; [|injection E as <- <-; left; split; [reflexivity|discriminate]]. destruct (v_arr (m_val m)); [|injection E as <- <-; left; split; [reflexivity|discriminate]]. match type of E with (match v_arr ?x with _ => _ end) = _ => set (v' := x) in E end. destruct (v_arr v') as [l'|] eqn:Ev; [|injection E as <- <-; left; split; [reflexivity|discriminate]]. destruct (Nat.eqb_spec (psize l') (length i)) as [El|]; cbn [negb] in E; injection E as <- <-; [|left; split; [reflexivity|discriminate]].
        right. right. split; [reflexivity|]. split; [reflexivity|]. eexists v, s, i, m, _, l'. split; [reflexivity|]. split; [|split; [symmetry; exact El|]]; [|split; [|split; [|split; [|split; [|split; [|right; split; [reflexivity|split; [reflexivity|split; reflexivity]]]]]]]]; try reflexivity. exact Ev.
  Qed.

  Lemma mupd_keys : forall d n m, map fst (mupd d n m) = map fst d.
  Proof. intros d n m. unfold mupd. rewrite map_map. apply map_ext. intros [k x]. cbn. destruct (teqb k n); reflexivity. Qed.
  Lemma mupd_in : forall d n m k x, In (k, x) (mupd d n m) -> (k = n /\ x = m /\ In n (map fst d)) \/ (k <> n /\ In (k, x) d).
  Proof.
    intros d n m k x H. apply in_map_iff in H. destruct H as ([k' x'] & E & H). cbn in E. destruct (teqb_spec k' n) as [->|F]; injection E as <- <-; [left; split; [reflexivity|]; split; [reflexivity|]; apply (in_map fst) in H; exact H|right; split; assumption].
  Qed.
  Lemma haskey_false : forall (d : list (txt * meta)) n, haskey d n = false <-> ~ In n (map fst d).
  Proof. intros d n. rewrite <- haskey_iff. destruct (haskey d n); split; intros H; [discriminate|exfalso; apply H; reflexivity|discriminate|reflexivity]. Qed.
  (** The state after any calls: names declared once, valid, sizes those of the values. *)
  Definition fine_meta (m : meta) : Prop := m_pbo m = false -> m_size m = vsize (m_val m).
  Definition inv (c : comp) : Prop :=
    NoDup (map fst (c_params c) ++ map fst (c_unknowns c)) /\ (forall n, In n (map fst (c_params c) ++ map fst (c_unknowns c)) -> name_valid n = true) /\ (forall n m, In (n, m) (c_params c ++ c_unknowns c) -> fine_meta m).
  Lemma step_inv : forall c a, inv c -> inv (fst (step c a)).
  Proof.
    intros c a (N & V & F). destruct (step c a) as [c' e] eqn:E. cbn [fst]. unfold inv. destruct (step_cases c a c' e E) as [[D _]|[(_ & _ & _ & m & _ & R1 & R2 & R3 & _ & R5 & R6)|(_ & _ & v & s & i & m & m' & l & _ & A1 & A2 & A3 & A4 & A5 & A6 & A7 & R)]].
    - injection D as D1 D2 D3. rewrite D2, D3. split; [exact N|]. split; [exact V|exact F].
    - apply haskey_false in R1. apply haskey_false in R2. assert (Fm : fine_meta m) by (intros Hp; rewrite Hp in R5; exact R5). assert (New : ~ In (about a) (map fst (c_params c) ++ map fst (c_unknowns c))) by (rewrite in_app_iff; tauto).
      destruct R6 as [(v & k & _ & -> & ->)|(-> & -> & _)]; rewrite ?map_app; cbn [map fst].
      + rewrite <- app_assoc. split; [apply NoDup_Add with (a := about a) (l := map fst (c_params c) ++ map fst (c_unknowns c)); [apply Add_app|split; assumption]|]. split; [intros n H; rewrite in_app_iff in H; destruct H as [H|[<-|H]]; [apply V; apply in_or_app; left; exact H|exact R3|apply V; apply in_or_app; right; exact H]|].
        intros n x H. rewrite <- app_assoc in H. rewrite in_app_iff in H. destruct H as [H|[H|H]]; [apply (F n); apply in_or_app; left; exact H|injection H as _ <-; exact Fm|apply (F n); apply in_or_app; right; exact H].
      + rewrite app_assoc. split; [apply NoDup_Add with (a := about a) (l := map fst (c_params c) ++ map fst (c_unknowns c)); [rewrite <- (app_nil_r (map fst (c_params c) ++ map fst (c_unknowns c))) at 1; apply Add_app|split; assumption]|]. split; [intros n H; rewrite in_app_iff in H; destruct H as [H|[<-|[]]]; [apply V; exact H|exact R3]|].
        intros n x H. rewrite app_assoc in H. rewrite in_app_iff in H. destruct H as [H|[H|[]]]; [apply (F n); exact H|injection H as _ <-; exact Fm].
    - assert (Fm : fine_meta m') by (intros _; unfold vsize; rewrite A1; exact A3). destruct R as [(_ & -> & ->)|(_ & _ & -> & ->)]; rewrite mupd_keys; (split; [exact N|]); (split; [exact V|]); intros n x H; apply in_app_or in H; destruct H as [H|H];
        try (apply mupd_in in H; destruct H as [(_ & -> & _)|[_ H]]; [exact Fm|]); apply (F n); apply in_or_app; tauto.
  Qed.
  Lemma run_inv : forall l, inv (run l).
  Proof.
    intros l. unfold DclModel.run. assert (I0 : inv (mkC false [] [] [])) by (split; [constructor|split; [intros n []|intros n m []]]). revert I0. generalize (mkC false [] [] []). induction l as [|a l IH]; intros c Hc; [exact Hc|]. cbn. apply IH. apply step_inv. exact Hc.
  Qed.
  Lemma nodup_split : forall (A : Type) (a b : list A), NoDup (a ++ b) -> NoDup a /\ NoDup b /\ forall x, In x a -> ~ In x b.
  Proof.
    intros A a b. induction a as [|x a IH]; intros N; [split; [constructor|split; [exact N|intros x []]]|]. cbn in N. inversion N as [|? ? N1 N2]; subst. destruct (IH N2) as (I1 & I2 & I3). split; [constructor; [intros F; apply N1; apply in_or_app; left; exact F|exact I1]|]. split; [exact I2|].
    intros y [<-|H]; [intros F; apply N1; apply in_or_app; right; exact F|apply I3; exact H].
  Qed.
  Theorem C116_names : forall l,
    NoDup (map fst (c_params (run l))) /\ NoDup (map fst (c_unknowns (run l))) /\
    (forall n m m', ~ (param (run l) n m /\ unknown (run l) n m')) /\ (forall n, declared (run l) n -> is_name n).
  Proof.
    intros l. destruct (run_inv l) as (N & V & _). destruct (nodup_split _ _ _ N) as (N1 & N2 & N3). split; [exact N1|]. split; [exact N2|]. split.
    - intros n m m' [H1 H2]. apply (in_map fst) in H1. apply (in_map fst) in H2. exact (N3 n H1 H2).
    - intros n (m & [H|H]); apply C116_valid; apply V; apply in_or_app; apply (in_map fst) in H; [left|right]; exact H.
  Qed.
  Theorem C116_sizes : forall l n m, param (run l) n m \/ unknown (run l) n m -> m_pbo m = false -> m_size m = entries (m_val m).
  Proof.
    intros l n m H P. destruct (run_inv l) as (_ & _ & F). assert (G : fine_meta m) by (apply (F n); apply in_or_app; exact H). rewrite (G P). unfold vsize, entries. destruct (v_arr (m_val m)); [apply psize_positions|reflexivity].
  Qed.

  (** A call that raises an exception leaves the variables as they were; every call leaves
      the other variables as they were, and a call of add_* those declared before. *)
  Lemma mget_app : forall d e n, mget (d ++ e) n = match mget d n with Some m => Some m | None => mget e n end.
  Proof. induction d as [|[k m] d IH]; intros e n; [reflexivity|]. cbn. destruct (teqb k n); [reflexivity|apply IH]. Qed.
  Lemma mget_upd : forall d n m n', n' <> n -> mget (mupd d n m) n' = mget d n'.
  Proof. induction d as [|[k x] d IH]; intros n m n' H; [reflexivity|]. cbn. destruct (teqb_spec k n) as [->|F]; cbn; [destruct (teqb_spec n n'); [congruence|apply IH; exact H]|destruct (teqb k n'); [reflexivity|apply IH; exact H]]. Qed.
  Lemma mget_key : forall d n, mget d n <> None -> In n (map fst d).
  Proof. induction d as [|[k x] d IH]; intros n H; [contradiction|]. cbn in *. destruct (teqb_spec k n) as [->|F]; [left; reflexivity|right; apply IH; exact H]. Qed.
  Theorem C116_kept : forall c a c' e, step c a = (c', e) ->
    (e <> None -> c_params c' = c_params c /\ c_unknowns c' = c_unknowns c) /\
    (forall n, n <> about a -> mget (c_params c') n = mget (c_params c) n /\ mget (c_unknowns c') n = mget (c_unknowns c) n) /\
    (adds a -> declared c (about a) -> e = Some RuntimeError \/ e = Some ValueError).
  Proof.
    intros c a c' e E. split; [|split].
    - intros He. destruct (step_cases c a c' e E) as [[D _]|[(F & _)|(F & _)]]; [injection D as _ D2 D3; split; assumption|contradiction|contradiction].
    - intros n Hn. destruct (step_cases c a c' e E) as [[D _]|[(_ & _ & _ & m & _ & _ & _ & _ & _ & _ & R)|(_ & _ & v & s & i & m & m' & l & _ & _ & _ & _ & _ & _ & _ & _ & R)]].
      + injection D as _ D2 D3. rewrite D2, D3. split; reflexivity.
      + assert (Z : forall d, mget (d ++ [(about a, m)]) n = mget d n) by (intros d; rewrite mget_app; destruct (mget d n); [reflexivity|]; cbn; destruct (teqb_spec (about a) n); [congruence|reflexivity]). destruct R as [(v & k & _ & -> & ->)|(-> & -> & _)]; rewrite Z; split; reflexivity.
      + destruct R as [(_ & -> & ->)|(_ & _ & -> & ->)]; rewrite mget_upd by exact Hn; split; reflexivity.
    - intros Ha (m & Hm). assert (K : haskey (c_params c) (about a) || haskey (c_unknowns c) (about a) = true) by (rewrite orb_true_iff, !haskey_iff; destruct Hm as [H|H]; apply (in_map fst) in H; [left|right]; exact H).
      assert (A : forall v k, add_variable c (about a) v k = (c, inr RuntimeError)) by (intros v k; unfold DclModel.add_variable, check_varname; rewrite K; destruct (c_post c); reflexivity).
      destruct a as [n v k|n v k|n v k|n v s i]; [| | |destruct Ha]; cbn [DclModel.step about] in *.
      + unfold add_param in E. destruct (k_scaler k); [injection E as _ <-; right; reflexivity|]. rewrite A in E. injection E as _ <-. left. reflexivity.
      + unfold add_output in E. destruct (k_scaler k); [injection E as _ <-; right; reflexivity|]. destruct (unset v k); [injection E as _ <-; right; reflexivity|]. rewrite A in E. injection E as _ <-. left. reflexivity.
      + unfold add_state in E. destruct (match k_scaler k with Some q => Qeq_bool q 0 | None => false end); [injection E as _ <-; right; reflexivity|]. destruct (unset v k); [injection E as _ <-; right; reflexivity|]. rewrite A in E. injection E as _ <-. left. reflexivity.
  Qed.

  (** The shape of a new variable that is not passed by object is that of its value, unless a
      value is given together with an integer shape. *)
  Theorem C116_shape : forall c name val k c' m, add_variable c name val k = (c', inl m) -> m_pbo m = false ->
    (forall n v, k_shape k = Some (SInt n) -> val = Some v -> (n <= 1)%nat) -> m_shape m = Some (shape_of (m_val m)).
  Proof.
    intros c name val k c' m E P H. destruct (add_variable_ok _ _ _ _ _ _ E) as [_ (_ & _ & _ & _ & R4 & _ & _ & R7 & _)]. rewrite R7, P, R4. destruct (k_shape k) as [[n|l]|] eqn:Ek; try reflexivity. destruct (Nat.ltb_spec 1 n) as [L|L]; [|reflexivity]. destruct val as [v|]; [specialize (H n v eq_refl eq_refl); lia|]. cbn [initial_val]. destruct n as [|[|n]]; [lia|lia|reflexivity].
  Qed.
  Theorem C116_shape_refuted : forall c name v k n c' m, add_variable c name (Some v) k = (c', inl m) -> k_shape k = Some (SInt n) -> (1 < n)%nat -> m_shape m = Some (STup [n]) /\ m_val m = v.
  Proof.
    intros c name v k n c' m E Ek L. destruct (add_variable_ok _ _ _ _ _ _ E) as [_ (_ & _ & _ & _ & R4 & _ & _ & R7 & _)]. rewrite R7, Ek, R4. destruct (Nat.ltb_spec 1 n); [split; reflexivity|lia].
  Qed.
  (** 'units' is never checked: only 'unit' is. *)
  Theorem C116_units_refuted : forall c name v k u, name_valid name = true -> c_post c = false -> ~ declared c name -> k_unit k = None -> k_low k = false -> k_high k = false -> k_scaler k = None -> k_units k = Some u ->
    exists m, mget (c_params (fst (step c (AddParam name (Some v) k)))) name = Some m /\ m_units m = Some u.
  Proof.
    intros c name v k u V P D U L H S Ku. cbn [DclModel.step]. unfold add_param. rewrite S. unfold DclModel.add_variable, check_varname. rewrite P.
    assert (K1 : haskey (c_params c) name = false) by (apply haskey_false; intros F; apply in_map_iff in F; destruct F as ([n m] & E & F); cbn in E; subst n; apply D; exists m; left; exact F). assert (K2 : haskey (c_unknowns c) name = false) by (apply haskey_false; intros F; apply in_map_iff in F; destruct F as ([n m] & E & F); cbn in E; subst n; apply D; exists m; right; exact F).
    rewrite K1, K2, V, U, L, H. cbn [orb negb]. assert (G : forall d m, mget d name = None -> mget (d ++ [(name, m)]) name = Some m) by (intros d m E; rewrite mget_app, E; cbn; rewrite teqb_refl; reflexivity).
    assert (Gn : mget (c_params c) name = None) by (destruct (mget (c_params c) name) eqn:E; [|reflexivity]; apply haskey_false in K1; contradiction K1; apply mget_key; congruence).
    destruct (v_diff (initial_val zeros_none (Some v) (k_shape k)) && negb (k_pbo k)); [destruct (v_arr (initial_val zeros_none (Some v) (k_shape k)))|destruct (k_pbo k)]; cbn [fst c_params warn]; rewrite (G _ _ Gn); eexists; (split; [reflexivity|exact Ku]).
  Qed.
  (** A refused variable may stay in the list of those not marked as passed by object. *)
  Theorem C116_warn_refuted : forall c name v k, name_valid name = true -> c_post c = false -> ~ declared c name -> k_unit k = None -> k_low k = true -> k_scaler k = None -> k_pbo k = false -> v_diff v = false ->
    step c (AddParam name (Some v) k) = (warn c name v, Some TypeError) /\ ~ declared (fst (step c (AddParam name (Some v) k))) name.
  Proof.
    intros c name v k V P D U L S Kp Vd. assert (E : step c (AddParam name (Some v) k) = (warn c name v, Some TypeError)); [|split; [exact E|rewrite E; exact D]]. cbn [DclModel.step]. unfold add_param. rewrite S. unfold DclModel.add_variable, check_varname. rewrite P.
    assert (K1 : haskey (c_params c) name = false) by (apply haskey_false; intros F; apply in_map_iff in F; destruct F as ([n m] & E & F); cbn in E; subst n; apply D; exists m; left; exact F). assert (K2 : haskey (c_unknowns c) name = false) by (apply haskey_false; intros F; apply in_map_iff in F; destruct F as ([n m] & E & F); cbn in E; subst n; apply D; exists m; right; exact F).
    rewrite K1, K2, V, U, L. cbn [orb negb initial_val]. rewrite Vd, Kp. reflexivity.
  Qed.
  (** set_var_indices: size and shape are those of the indices and of the value. *)
  Theorem C116_indices : forall c n v s i c', step c (SetIdx n v s i) = (c', None) ->
    exists idx m l, i = Some idx /\ (mget (c_params c') n = Some m \/ (mget (c_params c') n = None /\ mget (c_unknowns c') n = Some m)) /\ v_arr (m_val m) = Some l /\ m_shape m = Some (STup l) /\ m_size m = length (positions l) /\ length idx = length (positions l) /\ m_idx m = Some idx.
  Proof.
    intros c n v s i c' E. assert (U : forall d m m', mget d n = Some m -> mget (mupd d n m') n = Some m').
    { intros d m m'. induction d as [|[k x] d IH]; [discriminate|]. cbn. destruct (teqb_spec k n) as [->|F]; cbn; [rewrite teqb_refl; reflexivity|]. destruct (teqb_spec k n); [contradiction|exact IH]. }
    destruct (step_cases _ _ _ _ E) as [[_ F]|[(_ & _ & F & _)|(_ & _ & v' & s' & i' & m & m' & l & Ea & A1 & A2 & A3 & A4 & A5 & _ & _ & R)]]; [contradiction F; reflexivity|destruct F|]. injection Ea as _ _ Ei. cbn [about] in *. exists i', m', l. split; [exact Ei|]. rewrite <- psize_positions. split; [|repeat split; assumption]. destruct R as [(R1 & -> & _)|(R1 & R2 & -> & ->)]; [left; apply (U _ m); exact R1|right; split; [exact R1|apply (U _ m); exact R2]].
  Qed.
End C116.
Print Assumptions C116_names.
Print Assumptions C116_sizes.
Print Assumptions C116_kept.
Print Assumptions C116_shape.
Print Assumptions C116_shape_refuted.
Print Assumptions C116_units_refuted.
Print Assumptions C116_warn_refuted.
Print Assumptions C116_indices.

(** A variable passed by object gets a size, one that is not gets whole numbers. *)
Definition kw (s : option shp) (pbo : bool) : kwargs := mkK s pbo None None false false None None.
Theorem C116_object_refuted : exists l n m, param (run (fun _ => true) (mkV (Some []) true) l) n m /\ m_pbo m = true /\ m_size m <> 0%nat.
Proof. exists [AddParam (t_ "x") (Some (mkV (Some [3]%nat) false)) (kw None true); SetIdx (t_ "x") None None (Some [0; 4]%Z)]. eexists. eexists. vm_compute. split; [left; reflexivity|]. split; [reflexivity|discriminate]. Qed.
Print Assumptions C116_object_refuted.
Theorem C116_type_refuted : exists l n m, param (run (fun _ => true) (mkV (Some []) true) l) n m /\ m_pbo m = false /\ v_diff (m_val m) = false.
Proof. exists [AddParam (t_ "x") (Some (mkV (Some [3]%nat) true)) (kw None false); SetIdx (t_ "x") (Some (mkV (Some [2]%nat) false)) None (Some [0; 4]%Z)]. eexists. eexists. vm_compute. split; [left; reflexivity|]. split; reflexivity. Qed.
Print Assumptions C116_type_refuted.
Example C116_ex :
  let c := run (fun _ => true) (mkV (Some []) true) [AddParam (t_ "x:y") None (kw (Some (SInt 3)) false); AddOutput (t_ "x:y") (Some (mkV None true)) (kw None false); AddOutput (t_ "1z") (Some (mkV None true)) (kw None false);
    AddState (t_ "z") (Some (mkV (Some [2; 2]%nat) true)) (kw (Some (SInt 4)) false); SetIdx (t_ "x:y") None None (Some [1; 2; 5; 6]%Z)] in
  c_params c = [(t_ "x:y", mkM (mkV (Some [4]%nat) true) 4 (Some (STup [4]%nat)) false false None (Some [1; 2; 5; 6]%Z))] /\
  c_unknowns c = [(t_ "z", mkM (mkV (Some [2; 2]%nat) true) 4 (Some (STup [4]%nat)) false true None None)].
Proof. split; vm_compute; reflexivity. Qed.

(** Proofs about CheckModel.v: the Jacobians of a component. *)
From Verif Require Import Base LinModel LinSpec LinProofs CheckModel CheckSpec.
From Coq Require Import Ring_theory Ring.
Local Open Scope nat_scope.
Local Open Scope list_scope.

Lemma for_each_app : forall A S (f : A -> S -> res S) a b s,
    for_each f (a ++ b) s = let! s := for_each f a s in for_each f b s.
Proof. induction a as [|x a IH]; intros b s; simpl; auto. destruct (f x s); simpl; auto. Qed.

Section P.
  Context {F : Type} (F0 F1 : F) (fadd fmul fsub : F -> F -> F) (fopp : F -> F).
  Context (R : ring_theory F0 F1 fadd fmul fsub fopp (@eq F)).
  Add Ring Fr : R.
  Infix "+!" := fadd (at level 50, left associativity).
  Infix "*!" := fmul (at level 40, left associativity).
  Notation state := (state (F:=F)).
  Notation comp := (comp (F:=F)).
  Notation entry := (entry (F:=F)).
  Notation total := (total F0 fadd).
  Notation row_of := (row_of F0 fadd fmul).
  Notation col_of := (col_of F0 fadd fmul).
  Notation coef := (coef F0 fadd).
  Notation jacs := (jacs (F:=F)).

  (** *** a product with a single column or row *)
  Lemma row_single : forall m (x : col -> F) q v k,
      x q = v -> (forall e, In e m -> e_col e <> q -> x (e_col e) = F0) -> row_of m x k = coef m k q *! v.
  Proof.
    intros m x q v k Hq H. unfold LinSpec.row_of, CheckSpec.coef. rewrite <- (total_mul_r _ _ _ _ _ _ R).
    apply total_ext. intros e He. destruct (e_row e =? k); cbn [andb]; [|ring].
    destruct (col_eqb (e_col e) q) eqn:E.
    - apply col_eqb_eq in E. rewrite E, Hq. ring.
    - rewrite H; auto; [ring|]. intro Hc. rewrite Hc, col_eqb_refl in E. discriminate.
  Qed.
  Lemma col_single : forall m (y : nat -> F) k v q,
      y k = v -> (forall e, In e m -> e_row e <> k -> y (e_row e) = F0) -> col_of m y q = v *! coef m k q.
  Proof.
    intros m y k v q Hk H. unfold LinSpec.col_of, CheckSpec.coef. rewrite <- (total_mul_l _ _ _ _ _ _ R).
    apply total_ext. intros e He. destruct (col_eqb (e_col e) q); [|rewrite Bool.andb_false_r; ring].
    rewrite Bool.andb_true_r. destruct (e_row e =? k) eqn:E.
    - apply Nat.eqb_eq in E. rewrite E, Hk. ring.
    - rewrite H; auto; [ring|]. now apply Nat.eqb_neq.
  Qed.

  (** *** dictionaries *)
  Lemma jset_same : forall (J : jacs) u p m, jset J u p m u p = Some m.
  Proof. intros. unfold jset. now rewrite !String.eqb_refl. Qed.
  Lemma jset_other : forall (J : jacs) u p m a b, (a, b) <> (u, p) -> jset J u p m a b = J a b.
  Proof.
    intros J u p m a b H. unfold jset. destruct (String.eqb_spec a u), (String.eqb_spec b p); simpl; auto. subst. congruence.
  Qed.

  (** a result in which exactly the blocks of ks have the shapes of sh *)
  Definition shaped (ks : list (string * string)) (sh : string -> string -> nat * nat) (J : jacs) : Prop :=
    forall u p, match J u p with
                | Some m => In (u, p) ks /\ (m_rows m, m_cols m) = sh u p
                | None => ~ In (u, p) ks
                end.

  Definition upd_row (u p : string) (i : nat) (v : nat -> F) (J : jacs) : jacs :=
    match J u p with None => J | Some m => jset J u p (mkM (m_rows m) (m_cols m) (fun k j => if k =? i then v j else m_at m k j)) end.
  Definition upd_col (u p : string) (j : nat) (v : nat -> F) (J : jacs) : jacs :=
    match J u p with None => J | Some m => jset J u p (mkM (m_rows m) (m_cols m) (fun i k => if k =? j then v i else m_at m i k)) end.
  Lemma upd_row_shaped : forall ks sh u p i v J, shaped ks sh J -> shaped ks sh (upd_row u p i v J).
  Proof.
    intros ks sh u p i v J H a b. unfold upd_row. destruct (J u p) as [m|] eqn:E; [|apply H].
    unfold jset. destruct (String.eqb_spec a u), (String.eqb_spec b p); cbn [andb]; try apply H.
    subst. specialize (H u p). rewrite E in H. exact H.
  Qed.
  Lemma upd_col_shaped : forall ks sh u p i v J, shaped ks sh J -> shaped ks sh (upd_col u p i v J).
  Proof.
    intros ks sh u p i v J H a b. unfold upd_col. destruct (J u p) as [m|] eqn:E; [|apply H].
    unfold jset. destruct (String.eqb_spec a u), (String.eqb_spec b p); cbn [andb]; try apply H.
    subst. specialize (H u p). rewrite E in H. exact H.
  Qed.
  Lemma put_row_ok : forall ks sh u p i v J, shaped ks sh J -> In (u, p) ks -> put_row u p i v J = Ok (upd_row u p i v J).
  Proof.
    intros ks sh u p i v J H Hk. unfold put_row, upd_row. specialize (H u p). destruct (J u p); [reflexivity|contradiction].
  Qed.
  Lemma put_col_ok : forall ks sh u p i v J, shaped ks sh J -> In (u, p) ks -> put_col u p i v J = Ok (upd_col u p i v J).
  Proof.
    intros ks sh u p i v J H Hk. unfold put_col, upd_col. specialize (H u p). destruct (J u p); [reflexivity|contradiction].
  Qed.

  (** the entry of a result *)
  Definition entry_at (J : jacs) (u p : string) (i j : nat) : option F := option_map (fun m => m_at m i j) (J u p).
  Lemma entry_row : forall J u p i v a b k j, entry_at (upd_row u p i v J) a b k j =
      if String.eqb a u && String.eqb b p && (k =? i) then option_map (fun _ => v j) (J u p) else entry_at J a b k j.
  Proof.
    intros. unfold entry_at, upd_row. destruct (String.eqb_spec a u) as [->|Ha]; cbn [andb].
    - destruct (String.eqb_spec b p) as [->|Hb]; cbn [andb].
      + destruct (J u p) as [m|] eqn:E.
        * rewrite jset_same. cbn. destruct (k =? i); reflexivity.
        * rewrite E. cbn. destruct (k =? i); reflexivity.
      + destruct (J u p); [rewrite jset_other by congruence|]; reflexivity.
    - destruct (J u p); [rewrite jset_other by congruence|]; reflexivity.
  Qed.
  Lemma entry_col : forall J u p i v a b k j, entry_at (upd_col u p i v J) a b k j =
      if String.eqb a u && String.eqb b p && (j =? i) then option_map (fun _ => v k) (J u p) else entry_at J a b k j.
  Proof.
    intros. unfold entry_at, upd_col. destruct (String.eqb_spec a u) as [->|Ha]; cbn [andb].
    - destruct (String.eqb_spec b p) as [->|Hb]; cbn [andb].
      + destruct (J u p) as [m|] eqn:E.
        * rewrite jset_same. cbn. destruct (j =? i); reflexivity.
        * rewrite E. cbn. destruct (j =? i); reflexivity.
      + destruct (J u p); [rewrite jset_other by congruence|]; reflexivity.
    - destruct (J u p); [rewrite jset_other by congruence|]; reflexivity.
  Qed.

  (** *** loops *)
  Definition place4 : Type := string * string * nat * nat.
  Definition at4 (J : jacs) (x : place4) : option F := let '(a, b, i, j) := x in entry_at J a b i j.
  Lemma loop_covers : forall A T (f : A -> T -> res T) (pi : T -> jacs) (P : jacs -> Prop) (V : place4 -> Prop) (cov : A -> place4 -> bool) (g : place4 -> F) l t,
      (forall a t, In a l -> P (pi t) -> exists t', f a t = Ok t' /\ P (pi t') /\
           forall x, V x -> at4 (pi t') x = if cov a x then Some (g x) else at4 (pi t) x) ->
      P (pi t) ->
      exists t', for_each f l t = Ok t' /\ P (pi t') /\
           forall x, V x -> at4 (pi t') x = if existsb (fun a => cov a x) l then Some (g x) else at4 (pi t) x.
  Proof.
    induction l as [|a l IH]; intros t H Ht; simpl; [eauto|].
    destruct (H a t (or_introl eq_refl) Ht) as [t1 [E1 [P1 V1]]]. rewrite E1. cbn [bind].
    destruct (IH t1) as [t2 [E2 [P2 V2]]]; auto.
    - intros a0 t0 Ha. apply H. now right.
    - exists t2. repeat split; auto. intros x Hx. rewrite (V2 x Hx), (V1 x Hx).
      destruct (cov a x); cbn [orb]; auto. destruct (existsb _ l); reflexivity.
  Qed.

  (** *** the places of the inputs *)
  Variable c : comp.
  Hypothesis Hc : tidy c.
  Definition colof (st : bool) (off j : nat) : col := if st then CU (off + j) else CP (off + j).
  Definition fac_of (n : string) : F :=
    match find (fun x => String.eqb (u_name x) n && u_state x) (c_unks c) with
    | Some _ => F1
    | None => match find_p c n with Some p => factor F1 (p_unit p) | None => F1 end
    end.

  Lemma names_unique : forall u v, In u (c_unks c) -> In v (c_unks c) -> u_name u = u_name v -> u = v.
  Proof.
    destruct Hc as [_ [_ [Hn _]]]. revert Hn. generalize (c_unks c). induction l as [|a l IH]; intros Hn u v Hu Hv E; [destruct Hu|].
    cbn in Hn. apply NoDup_cons_iff in Hn. destruct Hn as [Ha Hn]. destruct Hu as [->|Hu], Hv as [->|Hv]; auto.
    - exfalso. apply Ha. rewrite E. now apply in_map.
    - exfalso. apply Ha. rewrite <- E. now apply in_map.
  Qed.
  Lemma pnames_unique : forall u v, In u (c_params c) -> In v (c_params c) -> p_name u = p_name v -> u = v.
  Proof.
    destruct Hc as [_ [_ [_ Hn]]]. revert Hn. generalize (c_params c). induction l as [|a l IH]; intros Hn u v Hu Hv E; [destruct Hu|].
    cbn in Hn. apply NoDup_cons_iff in Hn. destruct Hn as [Ha Hn]. destruct Hu as [->|Hu], Hv as [->|Hv]; auto.
    - exfalso. apply Ha. rewrite E. now apply in_map.
    - exfalso. apply Ha. rewrite <- E. now apply in_map.
  Qed.
  Lemma find_name : forall u, In u (c_unks c) -> find_u c (u_name u) = Some u.
  Proof.
    intros u Hu. unfold find_u. destruct (find _ (c_unks c)) as [v|] eqn:E.
    - apply find_some in E. destruct E as [Hv E]. apply String.eqb_eq in E. f_equal. apply names_unique; auto.
    - exfalso. apply (find_none _ _ E) in Hu. cbn in Hu. now rewrite String.eqb_refl in Hu.
  Qed.

  (** an input is found at its place *)
  Lemma input_where : forall n size q fac, input F1 c n size q fac ->
      exists st off, where_is c n = Some (st, off, size) /\ (forall j, q j = colof st off j) /\ fac = fac_of n.
  Proof.
    intros n size q fac [[x [Hx [Hn [Hs [Hz [Hq Hf]]]]]] | [Hno [p [Hp [Hn [Hz [Hq Hf]]]]]]].
    - exists true, (u_off x). unfold where_is, fac_of. destruct (find _ (c_unks c)) as [v|] eqn:E.
      + apply find_some in E. destruct E as [Hv E]. apply andb_prop in E. destruct E as [E _]. apply String.eqb_eq in E.
        assert (v = x) by (apply names_unique; auto; congruence). subst. repeat split; auto.
      + exfalso. apply (find_none _ _ E) in Hx. cbn in Hx. rewrite Hn, String.eqb_refl, Hs in Hx. discriminate.
    - exists false, (p_off p). unfold where_is, fac_of. destruct (find (fun x => String.eqb (u_name x) n && u_state x) (c_unks c)) as [v|] eqn:E.
      + exfalso. apply find_some in E. destruct E as [Hv E]. apply andb_prop in E. destruct E as [E Es]. apply String.eqb_eq in E.
        rewrite (Hno v Hv E) in Es. discriminate.
      + unfold find_p. destruct (find (fun p0 => String.eqb (p_name p0) n) (c_params c)) as [v|] eqn:E'.
        * apply find_some in E'. destruct E' as [Hv E']. apply String.eqb_eq in E'.
          assert (v = p) by (apply pnames_unique; auto; congruence). subst. repeat split; auto.
        * exfalso. apply (find_none _ _ E') in Hp. cbn in Hp. rewrite Hn, String.eqb_refl in Hp. discriminate.
  Qed.
  Lemma where_input : forall n, In n (input_names c) -> exists st off size,
      where_is c n = Some (st, off, size) /\ input F1 c n size (colof st off) (fac_of n).
  Proof.
    intros n Hn. unfold where_is, fac_of. destruct (find _ (c_unks c)) as [v|] eqn:E.
    - apply find_some in E. destruct E as [Hv E]. apply andb_prop in E. destruct E as [E Es]. apply String.eqb_eq in E.
      do 3 eexists. split; [reflexivity|]. left. exists v. repeat split; auto.
    - assert (Hno : forall x, In x (c_unks c) -> u_name x = n -> u_state x = false).
      { intros x Hx Hxn. apply (find_none _ _ E) in Hx. cbn in Hx. rewrite Hxn, String.eqb_refl in Hx. exact Hx. }
      unfold find_p. destruct (find _ (c_params c)) as [p|] eqn:E'.
      + apply find_some in E'. destruct E' as [Hv E']. apply String.eqb_eq in E'.
        do 3 eexists. split; [reflexivity|]. right. split; auto. exists p. repeat split; auto.
      + exfalso. unfold input_names in Hn. apply in_app_iff in Hn. destruct Hn as [Hn|Hn]; apply in_map_iff in Hn; destruct Hn as [x [Ex Hx]].
        * apply (find_none _ _ E') in Hx. cbn in Hx. rewrite Ex, String.eqb_refl in Hx. discriminate.
        * apply filter_In in Hx. destruct Hx as [Hx Hs]. rewrite (Hno x Hx Ex) in Hs. discriminate.
  Qed.
  Lemma input_listed : forall n size q fac, input F1 c n size q fac -> In n (input_names c).
  Proof.
    intros n size q fac [[x [Hx [Hn [Hs _]]]] | [_ [p [Hp [Hn _]]]]]; unfold input_names; apply in_app_iff; [right|left]; apply in_map_iff.
    - exists x. split; auto. apply filter_In. auto.
    - exists p. auto.
  Qed.
  Lemma in_cells_u : forall u i, In u (c_unks c) -> i < u_size u -> In (u_off u + i) (ucells (c_unks c)).
  Proof. intros u i Hu Hi. apply in_flat_map. exists u. split; auto. apply in_seq. lia. Qed.
  Lemma in_cells_p : forall u i, In u (c_params c) -> i < p_size u -> In (p_off u + i) (pcells (c_params c)).
  Proof. intros u i Hu Hi. apply in_flat_map. exists u. split; auto. apply in_seq. lia. Qed.
  Lemma where_cell : forall n st off size j, where_is c n = Some (st, off, size) -> j < size ->
      match colof st off j with CU k => In k (ucells (c_unks c)) | CP t => In t (pcells (c_params c)) end.
  Proof.
    intros n st off size j E Hj. unfold where_is in E. destruct (find _ (c_unks c)) as [v|] eqn:Ev.
    - inversion E; subst. apply find_some in Ev. apply in_cells_u; tauto.
    - destruct (find_p c n) as [p|] eqn:Ep; [|discriminate]. inversion E; subst. apply find_some in Ep. apply in_cells_p; tauto.
  Qed.
  Lemma where_false : forall n off size, where_is c n = Some (false, off, size) ->
      exists p, In p (c_params c) /\ p_off p = off /\ p_size p = size /\ fac_of n = factor F1 (p_unit p).
  Proof.
    intros n off size E. unfold where_is in E. unfold fac_of. destruct (find _ (c_unks c)) as [v|] eqn:Ev; [discriminate|].
    destruct (find_p c n) as [p|] eqn:Ep; [|discriminate]. inversion E; subst. apply find_some in Ep. exists p. tauto.
  Qed.
  Lemma where_true : forall n off size, where_is c n = Some (true, off, size) -> fac_of n = F1.
  Proof.
    intros n off size E. unfold where_is in E. unfold fac_of. destruct (find _ (c_unks c)) as [v|] eqn:Ev; [reflexivity|].
    destruct (find_p c n) as [p|] eqn:Ep; discriminate.
  Qed.

  (** *** allocation *)
  Definition size_of (n : string) : nat := match where_is c n with Some (_, _, k) => k | None => 0 end.
  Definition usize_of (n : string) : nat := match find_u c n with Some u => u_size u | None => 0 end.
  Definition keys : list (string * string) := flat_map (fun n => map (fun u => (u_name u, n)) (c_unks c)) (input_names c).
  Definition sh (a b : string) : nat * nat := (usize_of a, size_of b).
  Lemma in_keys : forall u n, In u (c_unks c) -> In n (input_names c) -> In (u_name u, n) keys.
  Proof. intros u n Hu Hn. apply in_flat_map. exists n. split; auto. apply in_map_iff. eauto. Qed.
  Lemma keys_in : forall a n, In (a, n) keys -> In n (input_names c) /\ exists u, In u (c_unks c) /\ u_name u = a.
  Proof.
    intros a n H. apply in_flat_map in H. destruct H as [m [Hm H]]. apply in_map_iff in H. destruct H as [u [E Hu]].
    inversion E; subst. eauto.
  Qed.
  Definition good (u : uvar (F:=F)) (n : string) : bool :=
    match cached c (u_name u) n with
    | Some m => (m_rows m =? u_size u) && (m_cols m =? size_of n)
    | None => true
    end.
  Lemma alloc_some : forall l J ks, (forall n u, In (n, u) l -> In n (input_names c) /\ In u (c_unks c)) ->
      shaped ks sh J ->
      (forallb (fun nu => good (snd nu) (fst nu)) l = true ->
       exists J', for_each (alloc_one F0 c) l J = Ok J' /\ shaped (ks ++ map (fun nu => (u_name (snd nu), fst nu)) l) sh J') /\
      (forallb (fun nu => good (snd nu) (fst nu)) l = false -> for_each (alloc_one F0 c) l J = Err ValueError).
  Proof.
    induction l as [|[n u] l IH]; intros J ks H HJ.
    - split; [|discriminate]. intros _. exists J. rewrite app_nil_r. split; auto. 
    - destruct (H n u (or_introl eq_refl)) as [Hn Hu]. destruct (where_input n Hn) as [st [off [size [Ew _]]]].
      cbn [for_each alloc_one forallb fst snd map]. rewrite Ew.
      assert (Ez : size_of n = size) by (unfold size_of; now rewrite Ew).
      set (J1 := jset J (u_name u) n (mkM (u_size u) size (fun _ _ => F0))).
      assert (H1 : shaped (ks ++ [(u_name u, n)]) sh J1).
      { intros a b. unfold J1, jset. destruct (String.eqb_spec a (u_name u)) as [->|Ha]; cbn [andb].
        - destruct (String.eqb_spec b n) as [->|Hb].
          + cbn [m_rows m_cols]. split; [apply in_app_iff; right; now left|]. unfold sh, usize_of. rewrite find_name by auto. now rewrite Ez.
          + specialize (HJ (u_name u) b). destruct (J (u_name u) b).
            * split; [apply in_app_iff; left|]; tauto.
            * rewrite in_app_iff. cbn. intros [K|[K|[]]]; [tauto|]. inversion K. congruence.
        - specialize (HJ a b). destruct (J a b).
          + split; [apply in_app_iff; left|]; tauto.
          + rewrite in_app_iff. cbn. intros [K|[K|[]]]; [tauto|]. inversion K. congruence. }
      destruct (IH J1 (ks ++ [(u_name u, n)]) (fun n' u' Hin => H n' u' (or_intror Hin)) H1) as [I1 I2].
      unfold good at 1 3. destruct (cached c (u_name u) n) as [m|] eqn:Em; cbn [bind].
      + rewrite Ez. destruct ((m_rows m =? u_size u) && (m_cols m =? size)); cbn [bind andb].
        * fold J1. split; auto. intro K. destruct (I1 K) as [J' [E' S']]. exists J'. split; auto. now rewrite <- app_assoc in S'.
        * split; [discriminate|auto].
      + cbn [andb]. fold J1. split; auto. intro K. destruct (I1 K) as [J' [E' S']]. exists J'. split; auto. now rewrite <- app_assoc in S'.
  Qed.
  Definition pairs : list (string * uvar (F:=F)) := flat_map (fun n => map (pair n) (c_unks c)) (input_names c).
  Definition all_good : bool := forallb (fun nu => good (snd nu) (fst nu)) pairs.
  Lemma pairs_keys : map (fun nu => (u_name (snd nu), fst nu)) pairs = keys.
  Proof.
    unfold pairs, keys. induction (input_names c) as [|n l IH]; simpl; auto. rewrite map_app, IH. f_equal.
    rewrite map_map. reflexivity.
  Qed.
  Lemma allocate_spec : (all_good = true -> exists J, allocate F0 c = Ok J /\ shaped keys sh J) /\
                        (all_good = false -> allocate F0 c = Err ValueError).
  Proof.
    destruct (alloc_some pairs (fun _ _ => None) []) as [A B].
    - intros n u H. apply in_flat_map in H. destruct H as [m [Hm H]]. apply in_map_iff in H. destruct H as [v [E Hv]].
      inversion E; subst. auto.
    - intros a b. cbn. auto.
    - rewrite pairs_keys in A. split; auto.
  Qed.
  Definition valid (x : place4) : Prop := let '(a, b, i, j) := x in In (a, b) keys /\ i < usize_of a /\ j < size_of b.

  (** *** the two passes *)
  Variable op : bool -> state -> res state.
  Variables A B : list entry.
  Hypothesis Hop : acts F0 fadd fmul c op A B.
  Hypothesis HA : local c A.
  Hypothesis HB : local c B.
  Definition value (m : list entry) (x : place4) : F :=
    let '(a, n, i, j) := x in
    match find_u c a, where_is c n with
    | Some u, Some (st, off, _) => factor F1 (u_scale u) *! coef m (u_off u + i) (colof st off j) *! fac_of n
    | _, _ => F0
    end.

  Lemma cleared_u : forall s k, In k (ucells (c_unks c)) -> du (cleared F0 c s) k = F0 /\ dr (cleared F0 c s) k = F0.
  Proof. destruct Hc as [Hu [Hp _]]. intros s k Hk. unfold cleared. cbn. split; now apply zero_us_in. Qed.
  Lemma cleared_p : forall s k, In k (pcells (c_params c)) -> dp (cleared F0 c s) k = F0.
  Proof. destruct Hc as [Hu [Hp _]]. intros s k Hk. unfold cleared. cbn. now apply zero_ps_in. Qed.
  Lemma cell_owner : forall k, In k (ucells (c_unks c)) -> exists u, In u (c_unks c) /\ inr (u_off u) (u_size u) k = true.
  Proof. intros k H. exact (owner u_off u_size _ k H). Qed.
  Lemma cell_owner_p : forall k, In k (pcells (c_params c)) -> exists u, In u (c_params c) /\ inr (p_off u) (p_size u) k = true.
  Proof. intros k H. exact (owner p_off p_size _ k H). Qed.

  Lemma rev_row_ok : forall u idx s J, In u (c_unks c) -> idx < u_size u -> shaped keys sh J ->
      exists s' J', rev_row F0 F1 fmul op c (u, idx) (s, J) = Ok (s', J') /\ shaped keys sh J' /\
        forall x, valid x -> at4 J' x = if (let '(a, _, i, _) := x in String.eqb a (u_name u) && (i =? idx)) then Some (value B x) else at4 J x.
  Proof.
    intros u idx s J Hu Hi HJ. destruct Hc as [Nu [Np [Nn Npn]]]. unfold rev_row. cbn [fst snd].
    set (s1 := scale_derivs fmul c _).
    assert (D1 : du s1 = du (cleared F0 c s)) by reflexivity.
    assert (P1 : dp s1 = dp (cleared F0 c s)) by reflexivity.
    assert (K0 : dr s1 (u_off u + idx) = factor F1 (u_scale u)).
    { unfold s1. rewrite (scale_in _ _ _ _ _ _ R c _ u); auto.
      - cbn [dr]. rewrite set_eq, Nat.eqb_refl. ring.
      - apply inr_spec. lia. }
    assert (K1 : forall k, In k (ucells (c_unks c)) -> k <> u_off u + idx -> dr s1 k = F0).
    { intros k Hk Hne. destruct (cell_owner k Hk) as [v [Hv Hr]]. unfold s1. rewrite (scale_in _ _ _ _ _ _ R c _ v); auto.
      cbn [dr]. rewrite set_eq. apply Nat.eqb_neq in Hne. rewrite Hne, (proj2 (cleared_u s k Hk)). ring. }
    destruct (Hop s1) as [_ [s2 [E2 [U2 P2]]]]. rewrite E2. cbn [bind].
    set (s3 := unit_derivs fmul c s2).
    assert (Q : forall n st off size j, where_is c n = Some (st, off, size) -> j < size ->
              (if st then du s3 else dp s3) (off + j) = factor F1 (u_scale u) *! coef B (u_off u + idx) (colof st off j) *! fac_of n).
    { intros n st off size j Ew Hj. pose proof (where_cell n st off size j Ew Hj) as Hcell. destruct st; cbn [colof] in Hcell |- *.
      - unfold s3. cbn [du unit_derivs]. rewrite (U2 _ Hcell), D1, (proj1 (cleared_u s _ Hcell)).
        rewrite (col_single B _ (u_off u + idx) (factor F1 (u_scale u))); auto.
        + rewrite (where_true _ _ _ Ew). ring.
        + intros e He Hne. apply K1; auto. apply (HB e He).
      - destruct (where_false _ _ _ Ew) as [p [Hp [<- [<- Hf]]]]. unfold s3. rewrite (unit_in _ _ _ _ _ _ R c _ p); auto.
        + rewrite (P2 _ Hcell), P1, (cleared_p s _ Hcell), Hf.
          rewrite (col_single B _ (u_off u + idx) (factor F1 (u_scale u))); auto.
          * ring.
          * intros e He Hne. apply K1; auto. apply (HB e He).
        + apply inr_spec. lia. }
    destruct (loop_covers string jacs (fun n J0 => match where_is c n with
                                   | None => Err KeyError
                                   | Some (st, off, _) => put_row (u_name u) n idx (fun j => (if st then du s3 else dp s3) (off + j)) J0
                                   end) (fun J => J) (shaped keys sh) valid
                (fun n x => let '(a, b, i, _) := x in String.eqb a (u_name u) && String.eqb b n && (i =? idx)) (value B)
                (input_names c) J) as [J' [E' [S' V']]]; auto.
    - intros n J0 Hn S0. destruct (where_input n Hn) as [st [off [size [Ew _]]]]. rewrite Ew.
      rewrite (put_row_ok keys sh) by (auto using in_keys). eexists. split; [reflexivity|]. split; [now apply upd_row_shaped|].
      intros [[[a b] i] j] [Hk [Hi' Hj]]. cbn [at4]. rewrite entry_row.
      destruct (String.eqb_spec a (u_name u)) as [->|]; cbn [andb]; auto.
      destruct (String.eqb_spec b n) as [->|]; cbn [andb]; auto.
      destruct (Nat.eqb_spec i idx) as [->|]; auto.
      pose proof (S0 (u_name u) n) as S1. destruct (J0 (u_name u) n); [|contradiction]. cbn [option_map]. f_equal.
      unfold value. rewrite find_name, Ew by auto. apply (Q n st off size); auto. unfold size_of in Hj. now rewrite Ew in Hj.
    - rewrite E'. cbn [bind]. exists s3, J'. repeat split; auto. intros x Hx. rewrite (V' x Hx).
      destruct x as [[[a b] i] j]. destruct Hx as [Hk _].
      replace (existsb _ (input_names c)) with (String.eqb a (u_name u) && (i =? idx)); auto.
      symmetry. destruct (String.eqb a (u_name u)); cbn [andb].
      + destruct (i =? idx).
        * apply existsb_exists. exists b. split; [now apply (keys_in a)|]. now rewrite String.eqb_refl.
        * apply Bool.not_true_iff_false. rewrite existsb_exists. intros [n [_ E]]. rewrite Bool.andb_false_r in E. discriminate.
      + apply Bool.not_true_iff_false. rewrite existsb_exists. intros [n [_ E]]. discriminate.
  Qed.

  Lemma fwd_col_ok : forall n idx s J, In n (input_names c) -> idx < size_of n -> shaped keys sh J ->
      exists s' J', fwd_col F0 F1 fmul op c (n, idx) (s, J) = Ok (s', J') /\ shaped keys sh J' /\
        forall x, valid x -> at4 J' x = if (let '(_, b, _, j) := x in String.eqb b n && (j =? idx)) then Some (value A x) else at4 J x.
  Proof.
    intros n idx s J Hn Hi HJ. destruct Hc as [Nu [Np [Nn Npn]]]. unfold fwd_col. cbn [fst snd].
    destruct (where_input n Hn) as [st [off [size [Ew _]]]]. rewrite Ew. unfold size_of in Hi. rewrite Ew in Hi.
    pose proof (where_cell n st off size idx Ew Hi) as Hcell.
    set (s0 := if st then _ else _). set (s1 := unit_derivs fmul c s0).
    assert (R1 : forall k, In k (ucells (c_unks c)) -> dr s1 k = F0).
    { intros k Hk. unfold s1, s0. destruct st; cbn [dr unit_derivs]; apply (proj2 (cleared_u s k Hk)). }
    assert (X0 : over (du s1) (dp s1) (colof st off idx) = fac_of n).
    { destruct st; cbn [colof over].
      - unfold s1, s0. cbn [du unit_derivs]. rewrite set_eq, Nat.eqb_refl. now rewrite (where_true _ _ _ Ew).
      - destruct (where_false _ _ _ Ew) as [p [Hp [<- [<- Hf]]]]. unfold s1. rewrite (unit_in _ _ _ _ _ _ R c _ p); auto.
        + unfold s0. cbn [dp]. rewrite set_eq, Nat.eqb_refl, Hf. ring.
        + apply inr_spec. lia. }
    assert (X1 : forall e, In e A -> e_col e <> colof st off idx -> over (du s1) (dp s1) (e_col e) = F0).
    { intros e He Hne. destruct (HA e He) as [_ Hin]. destruct (e_col e) as [k|t]; cbn [over].
      - unfold s1, s0. destruct st; cbn [du unit_derivs].
        + rewrite set_eq. cbn [colof] in Hne. destruct (Nat.eqb_spec k (off + idx)); [congruence|]. apply (proj1 (cleared_u s k Hin)).
        + apply (proj1 (cleared_u s k Hin)).
      - destruct (cell_owner_p t Hin) as [p [Hp Hr]]. unfold s1. rewrite (unit_in _ _ _ _ _ _ R c _ p); auto.
        unfold s0. destruct st; cbn [dp].
        + rewrite (cleared_p s t Hin). ring.
        + rewrite set_eq. cbn [colof] in Hne. destruct (Nat.eqb_spec t (off + idx)); [congruence|]. rewrite (cleared_p s t Hin). ring. }
    destruct (Hop s1) as [[s2 [E2 U2]] _]. rewrite E2. cbn [bind].
    set (s3 := scale_derivs fmul c s2).
    assert (Q : forall u i, In u (c_unks c) -> i < u_size u ->
              dr s3 (u_off u + i) = factor F1 (u_scale u) *! coef A (u_off u + i) (colof st off idx) *! fac_of n).
    { intros u i Hu Hi'. unfold s3. rewrite (scale_in _ _ _ _ _ _ R c _ u); auto; [|apply inr_spec; lia].
      pose proof (in_cells_u u i Hu Hi') as Hk. rewrite (U2 _ Hk), (R1 _ Hk), (row_single A _ (colof st off idx) (fac_of n)); auto. ring. }
    destruct (loop_covers (uvar (F:=F)) jacs (fun u J0 => put_col (u_name u) n idx (fun i => dr s3 (u_off u + i)) J0) (fun J => J) (shaped keys sh) valid
                (fun u x => let '(a, b, _, j) := x in String.eqb a (u_name u) && String.eqb b n && (j =? idx)) (value A)
                (c_unks c) J) as [J' [E' [S' V']]]; auto.
    - intros u J0 Hu S0. rewrite (put_col_ok keys sh) by (auto using in_keys). eexists. split; [reflexivity|]. split; [now apply upd_col_shaped|].
      intros [[[a b] i] j] [Hk [Hi' Hj]]. cbn [at4]. rewrite entry_col.
      destruct (String.eqb_spec a (u_name u)) as [->|]; cbn [andb]; auto.
      destruct (String.eqb_spec b n) as [->|]; cbn [andb]; auto.
      destruct (Nat.eqb_spec j idx) as [->|]; auto.
      pose proof (S0 (u_name u) n) as S1. destruct (J0 (u_name u) n); [|contradiction]. cbn [option_map]. f_equal.
      unfold value. rewrite find_name, Ew by auto. apply Q; auto. unfold usize_of in Hi'. now rewrite find_name in Hi'.
    - rewrite E'. cbn [bind]. exists s3, J'. repeat split; auto. intros x Hx. rewrite (V' x Hx).
      destruct x as [[[a b] i] j]. destruct Hx as [Hk _]. destruct (keys_in _ _ Hk) as [_ [u [Hu Eu]]].
      replace (existsb _ (c_unks c)) with (String.eqb b n && (j =? idx)); auto.
      symmetry. destruct (String.eqb b n); cbn [andb].
      + destruct (j =? idx).
        * apply existsb_exists. exists u. split; auto. now rewrite Eu, String.eqb_refl.
        * apply Bool.not_true_iff_false. rewrite existsb_exists. intros [v [_ E]]. rewrite Bool.andb_false_r in E. discriminate.
      + apply Bool.not_true_iff_false. rewrite existsb_exists. intros [v [_ E]]. rewrite Bool.andb_false_r in E. discriminate.
  Qed.

  Lemma check_comp_good : forall s, all_good = true -> exists Jf Jr, check_comp F0 F1 fmul op c s = Ok (Jf, Jr) /\
      shaped keys sh Jf /\ shaped keys sh Jr /\
      (forall x, valid x -> at4 Jf x = Some (value A x)) /\ (forall x, valid x -> at4 Jr x = Some (value B x)).
  Proof.
    intros s Hg. destruct (proj1 allocate_spec Hg) as [J0 [E0 S0]]. unfold check_comp. rewrite E0. cbn [bind].
    destruct (loop_covers _ (state * jacs) (rev_row F0 F1 fmul op c) snd (shaped keys sh) valid
                (fun ui x => let '(a, _, i, _) := x in String.eqb a (u_name (fst ui)) && (i =? snd ui)) (value B)
                (flat_map (fun u => map (pair u) (seq 0 (u_size u))) (c_unks c)) (s, J0)) as [[s1 Jr] [E1 [S1 V1]]]; auto.
    - intros [u idx] [s' J] Hin HJ. apply in_flat_map in Hin. destruct Hin as [v [Hv Hin]]. apply in_map_iff in Hin.
      destruct Hin as [i [E Hin]]. inversion E; subst. apply in_seq in Hin.
      destruct (rev_row_ok u idx s' J) as [s2 [J2 [E2 [S2 V2]]]]; auto; [lia|].
      exists (s2, J2). cbn [fst snd]. auto.
    - rewrite E1. cbn [bind fst snd].
      destruct (loop_covers _ (state * jacs) (fwd_col F0 F1 fmul op c) snd (shaped keys sh) valid
                (fun ni x => let '(_, b, _, j) := x in String.eqb b (fst ni) && (j =? snd ni)) (value A)
                (flat_map (fun n => map (pair n) (seq 0 (match where_is c n with Some (_, _, k) => k | None => 0 end))) (input_names c)) (s1, J0)) as [[s2 Jf] [E2 [S2 V2]]]; auto.
      + intros [n idx] [s' J] Hin HJ. apply in_flat_map in Hin. destruct Hin as [v [Hv Hin]]. apply in_map_iff in Hin.
        destruct Hin as [i [E Hin]]. inversion E; subst. apply in_seq in Hin. fold (size_of n) in Hin.
        destruct (fwd_col_ok n idx s' J) as [s3 [J3 [E3 [S3 V3]]]]; auto; [lia|].
        exists (s3, J3). cbn [fst snd]. auto.
      + rewrite E2. cbn [bind snd]. exists Jf, Jr. repeat split; auto; intros x Hx.
        * cbn [snd] in V2. rewrite (V2 x Hx). destruct x as [[[a b] i] j]. destruct Hx as [Hk [Hi Hj]].
          replace (existsb _ _) with true; auto. symmetry. apply existsb_exists. exists (b, j). cbn [fst snd].
          rewrite String.eqb_refl, Nat.eqb_refl. split; auto. apply in_flat_map. exists b. split; [now apply (keys_in a)|].
          apply in_map. apply in_seq. fold (size_of b). lia.
        * cbn [snd] in V1. rewrite (V1 x Hx). destruct x as [[[a b] i] j]. destruct Hx as [Hk [Hi Hj]].
          destruct (keys_in _ _ Hk) as [_ [u [Hu Eu]]].
          replace (existsb _ _) with true; auto. symmetry. apply existsb_exists. exists (u, i). cbn [fst snd].
          rewrite Eu, String.eqb_refl, Nat.eqb_refl. split; auto. apply in_flat_map. exists u. split; auto.
          apply in_map. apply in_seq. unfold usize_of in Hi. rewrite <- Eu, find_name in Hi by auto. lia.
  Qed.
End P.

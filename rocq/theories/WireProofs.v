(** Lemmas for connection checks, parameter storage and delivery. *)
From Coq Require Import Permutation.
From Verif Require Import Base BaseFacts TransferModel TransferSpec TransferProofs PathModel VecModel
  WireModel WireSpec.
Local Open Scope string_scope.
Local Open Scope nat_scope.
Local Open Scope list_scope.

Lemma sget_in : forall V (d : list (string * V)) k v, sget d k = Some v -> In (k, v) d.
Proof. intros V d k v H. apply (dget_in String.eqb String.eqb_eq) in H. exact H. Qed.
Lemma in_sget : forall V (d : list (string * V)) k v, NoDup (map fst d) -> In (k, v) d -> sget d k = Some v.
Proof. intros V d k v N H. apply (in_dget String.eqb String.eqb_eq); auto. Qed.

(** ** storage *)

(** the slices of the parameters follow each other; by-object variables take no
    room *)
Fixpoint tpacked (start : nat) (d : list (string * tacc)) (stop : nat) : Prop :=
  match d with
  | [] => start = stop
  | (_, a) :: rest =>
      if t_pbo a then t_slice a = None /\ m_size (t_meta a) = 0 /\ tpacked start rest stop
      else t_slice a = Some (start, start + m_size (t_meta a)) /\ tpacked (start + m_size (t_meta a)) rest stop
  end.

Lemma tpacked_le : forall d a b, tpacked a d b -> a <= b.
Proof.
  induction d as [|[p t] d IH]; intros a b H; simpl in H; [lia|].
  destruct (t_pbo t).
  - destruct H as (_ & _ & H). eauto.
  - destruct H as (_ & H). apply IH in H. lia.
Qed.

Lemma setup_var_by_object : forall t s k, by_object s t ->
    t_pbo (setup_var t s k) = true /\ t_slice (setup_var t s k) = None /\ m_size (t_meta (setup_var t s k)) = 0.
Proof.
  intros t s k (P & Z & I & J). unfold setup_var, t_pbo. simpl. rewrite P, I, J. simpl. auto.
Qed.

(** what a by-vector parameter looks like once stored *)
Definition vec_size_of (s t : meta) : nat := match m_idx t with Some l => length l | None => m_size s end.

Lemma setup_var_by_vector : forall t s k, by_vector s t ->
    t_pbo (setup_var t s k) = false /\ m_size (t_meta (setup_var t s k)) = vec_size_of s t /\
    t_slice (setup_var t s k) = Some (k, k + vec_size_of s t) /\ m_idx (t_meta (setup_var t s k)) = m_idx t.
Proof.
  intros t s k (P & Q & I & J). unfold setup_var, t_pbo, vec_size_of. simpl. rewrite P, Q, I.
  destruct (m_idx t) as [l|].
  - destruct J as (_ & E & _). rewrite <- E. auto.
  - auto.
Qed.

Lemma vec_size_pos : forall s t, by_vector s t -> 0 < vec_size_of s t.
Proof.
  intros s t (_ & _ & _ & J). unfold vec_size_of. destruct (m_idx t) as [l|]; [|exact J].
  destruct J as (J & _ & _). destruct l; [contradiction|simpl; lia].
Qed.

Section Group.
  Variables (rel mine : string -> bool) (conns : list conn) (params unknowns : list (string * meta)).
  Hypothesis legal : legal_group rel mine conns params unknowns.

  Lemma nd_conns : NoDup (map fst conns). Proof. apply legal. Qed.
  Lemma nd_params : NoDup (map fst params). Proof. apply legal. Qed.
  Lemma nd_unknowns : NoDup (map fst unknowns). Proof. apply legal. Qed.

  (** what is known about a stored parameter *)
  Definition stored_ok (p : string) (a : tacc) : Prop :=
    exists t src s k, In (p, t) params /\ mine p = true /\ rel p = true /\ In (p, src) conns /\
      In (src, s) unknowns /\ a = setup_var t s k /\ (by_object s t \/ by_vector s t).

  Lemma layout_ok : forall ps k, incl ps params ->
    exists d n, tgt_layout rel mine conns unknowns k ps = Ok (d, n) /\ tpacked k d n /\
      map fst d = map fst (filter (fun x => (rel (fst x) && mine (fst x))%bool) ps) /\
      Forall (fun x => stored_ok (fst x) (snd x)) d.
  Proof.
    induction ps as [|[p t] ps IH]; intros k S; cbn [tgt_layout filter fst]; cbv zeta.
    - exists [], k. repeat split; auto.
    - destruct (rel p && mine p)%bool eqn:RM.
      + apply andb_true_iff in RM. destruct RM as [R M].
        destruct legal as (N1 & N2 & N3 & _ & L).
        destruct (L p t (S _ (or_introl eq_refl)) M R) as (src & s & C & U & B).
        rewrite (in_sget _ _ _ _ N1 C), (in_sget _ _ _ _ N3 U).
        destruct (IH (k + m_size (t_meta (setup_var t s k)))) as (d & n & E & P & F & A).
        { intros x X. apply S. right; exact X. }
        rewrite E. cbn [bind].
        exists ((p, setup_var t s k) :: d), n. split; [reflexivity|]. split; [|split].
        * cbn [tpacked]. destruct B as [B|B].
          -- destruct (setup_var_by_object t s k B) as (E1 & E2 & E3). rewrite E1. rewrite E3 in P.
             rewrite Nat.add_0_r in P. auto.
          -- destruct (setup_var_by_vector t s k B) as (E1 & E2 & E3 & _). rewrite E1.
             rewrite E2 in *. split; [exact E3|exact P].
        * cbn [map fst]. f_equal. exact F.
        * constructor; [|exact A]. exists t, src, s, k. simpl. repeat split; auto. apply S. left; reflexivity.
      + destruct (IH k) as (d & n & E & P & F & A).
        { intros x X. apply S. right; exact X. }
        exists d, n. auto.
  Qed.

  (** offsets of the table are the starts of the slices *)
  Lemma p_offset : forall d k n p a, tpacked k d n -> NoDup (map fst d) -> In (p, a) d -> t_pbo a = false ->
    exists o, offset_of (p_sizes d) p = Ok o /\ t_slice a = Some (k + o, k + o + m_size (t_meta a)) /\
              k + o + m_size (t_meta a) <= n.
  Proof.
    induction d as [|[q b] d IH]; intros k n p a P N I F; [destruct I|].
    simpl in N. inversion N as [|x l N1 N2]; subst. unfold p_sizes in *. simpl in P |- *. destruct I as [I|I].
    - inversion I; subst q b. rewrite F in P |- *. simpl. destruct P as [P1 P2]. rewrite String.eqb_refl.
      exists 0. rewrite Nat.add_0_r. split; [reflexivity|]. split; [exact P1|]. apply tpacked_le in P2. exact P2.
    - destruct (t_pbo b) eqn:B; simpl.
      + destruct P as (_ & Z & P). eapply IH; eauto.
      + destruct P as [_ P]. destruct (IH _ _ _ _ P N2 I F) as (o & E & S & L).
        assert (X : String.eqb p q = false).
        { apply String.eqb_neq. intros ->. apply N1. apply (in_map fst) in I. exact I. }
        rewrite X, E. cbn [bind]. exists (m_size (t_meta b) + o). split; [reflexivity|].
        rewrite S. split; [f_equal; f_equal; lia|lia].
  Qed.

  (** slices of different parameters do not overlap *)
  Lemma tpacked_disjoint : forall d k n p q a b s1 e1 s2 e2, tpacked k d n -> NoDup (map fst d) ->
    In (p, a) d -> In (q, b) d -> p <> q -> t_slice a = Some (s1, e1) -> t_slice b = Some (s2, e2) ->
    e1 <= s2 \/ e2 <= s1.
  Proof.
    assert (Low : forall d k n p a s e, tpacked k d n -> In (p, a) d -> t_slice a = Some (s, e) -> k <= s).
    { induction d as [|[q b] d IH]; intros k n p a s e P I S; [destruct I|]. simpl in P. destruct I as [I|I].
      - inversion I; subst. destruct (t_pbo a).
        + destruct P as (P & _). congruence.
        + destruct P as (P & _). rewrite P in S. inversion S. lia.
      - destruct (t_pbo b).
        + destruct P as (_ & _ & P). eauto.
        + destruct P as (_ & P). specialize (IH _ _ _ _ _ _ P I S). lia. }
    induction d as [|[r c] d IH]; intros k n p q a b s1 e1 s2 e2 P N I J D S T; [destruct I|].
    simpl in N. inversion N as [|x l N1 N2]; subst. simpl in P.
    destruct I as [I|I]; destruct J as [J|J].
    - congruence.
    - inversion I; subst. destruct (t_pbo a).
      + destruct P as (P & _). congruence.
      + destruct P as (P & P'). rewrite P in S. inversion S; subst. left. eapply Low; eauto.
    - inversion J; subst. destruct (t_pbo b).
      + destruct P as (P & _). congruence.
      + destruct P as (P & P'). rewrite P in T. inversion T; subst. right. eapply Low; eauto.
    - destruct (t_pbo c).
      + destruct P as (_ & _ & P). eapply (IH k n p q a b); eauto.
      + destruct P as (_ & P). eapply (IH _ n p q a b); eauto.
  Qed.

  Lemma u_offset : forall us udat k u s, stores rel us udat -> packed k udat -> NoDup (map fst us) ->
    In (u, s) us -> rel u = true -> truthy (m_pbo s) = false ->
    exists x o, sget udat u = Some x /\ offset_of (u_sizes rel us) u = Ok o /\
      sget (u_sizes rel us) u = Some (m_size s) /\
      a_slice x = Some (k + o, k + o + m_size s) /\ k + o + m_size s <= total k udat.
  Proof.
    assert (Tot : forall d k, packed k d -> k <= total k d).
    { induction d as [|[n x] d IH]; intros k P; simpl in *; [lia|].
      destruct (a_slice x) as [[a b]|]; [|auto]. destruct P as (-> & -> & P). apply IH in P. lia. }
    unfold stores, u_sizes.
    induction us as [|[v m] us IH]; intros udat k u s H P N I R V; [destruct I|].
    simpl in N. inversion N as [|x0 l0 N1 N2]; subst. simpl in H |- *.
    destruct I as [I|I].
    - inversion I; subst v m. rewrite R, V in *. simpl in H |- *.
      inversion H as [|? y ? ud (E1 & E2 & E3) H']; subst. destruct y as [n x]. simpl in E1, E2, E3. subst n.
      cbv [sget] in *. simpl. rewrite String.eqb_refl.
      exists x, 0. split; [reflexivity|]. split; [reflexivity|]. split; [reflexivity|].
      simpl in P. destruct (a_slice x) as [[a b]|] eqn:S.
      + destruct P as (-> & -> & P). rewrite E2, Nat.add_0_r. split; [reflexivity|]. rewrite E2 in P.
        apply Tot. exact P.
      + rewrite (proj1 E3 eq_refl) in V. discriminate.
    - assert (X : String.eqb u v = false).
      { apply String.eqb_neq. intros ->. apply N1. apply (in_map fst) in I. exact I. }
      destruct (rel v) eqn:Rv; simpl in H |- *.
      + inversion H as [|? y ? ud (E1 & E2 & E3) H']; subst. destruct y as [n x]. simpl in E1, E2, E3. subst n.
        cbv [sget] in *. simpl in P |- *. rewrite X. destruct (truthy (m_pbo m)) eqn:Tm; simpl.
        * rewrite (proj2 E3 eq_refl) in P |- *. destruct (IH _ _ _ _ H' P N2 I R V) as (y & o & A1 & A2 & A3 & A4 & A5).
          exists y, o. auto.
        * destruct (a_slice x) as [[a b]|] eqn:S.
          2:{ pose proof (proj1 E3 eq_refl) as Y. discriminate Y. }
          destruct P as (-> & -> & P). destruct (IH _ _ _ _ H' P N2 I R V) as (y & o & A1 & A2 & A3 & A4 & A5).
          exists y, (a_size x + o). rewrite X, A2. cbn [bind]. rewrite E2 in *. split; [exact A1|].
          split; [reflexivity|]. split; [exact A3|]. rewrite A4. split; [f_equal; f_equal; lia|lia].
      + destruct (IH _ _ _ _ H P N2 I R V) as (y & o & A). exists y, o. exact A.
  Qed.

  (** ** indices *)

  Definition args (s t : meta) : list Z := match m_idx t with Some l => l | None => iota (m_size s) end.

  Lemma iota_length : forall n, length (iota n) = n.
  Proof. intros n. unfold iota. rewrite map_length, seq_length. reflexivity. Qed.
  Lemma iota_nth : forall n k, k < n -> nth_error (iota n) k = Some (Z.of_nat k).
  Proof.
    intros n k H. unfold iota. rewrite nth_error_map.
    assert (E : nth_error (seq 0 n) k = Some k).
    { rewrite (nth_error_nth' _ 0) by (rewrite seq_length; exact H). rewrite seq_nth by exact H. reflexivity. }
    rewrite E. reflexivity.
  Qed.
  Lemma in_iota : forall n i, In i (iota n) -> (0 <= i < Z.of_nat n)%Z.
  Proof. intros n i H. unfold iota in H. apply in_map_iff in H. destruct H as (k & <- & H). apply in_seq in H. lia. Qed.

  Lemma args_length : forall s t, length (args s t) = vec_size_of s t.
  Proof. intros s t. unfold args, vec_size_of. destruct (m_idx t); [reflexivity|apply iota_length]. Qed.
  Lemma args_ok : forall s t, by_vector s t -> Forall (idx_ok (m_size s)) (args s t).
  Proof.
    intros s t (_ & _ & _ & J). unfold args. destruct (m_idx t) as [l|]; [apply J|].
    apply Forall_forall. intros i H. apply in_iota in H. exact H.
  Qed.

  Definition shift (o : nat) (l : list Z) : list Z := map (fun i => (i + Z.of_nat o)%Z) l.

  Lemma place_ok : forall junk l k size off, Forall (idx_ok size) l -> place junk k size off l = shift off l.
  Proof.
    induction l as [|i l IH]; intros k size off H; simpl; [reflexivity|].
    inversion H as [|? ? I H']; subst. unfold idx_ok in I.
    assert (E : ((0 <=? i) && (i <? Z.of_nat size))%Z = true).
    { apply andb_true_iff. split; [apply Z.leb_le|apply Z.ltb_lt]; lia. }
    rewrite E, IH by exact H'. reflexivity.
  Qed.

  Lemma global_ok : forall junk us ps u p s t k uo po, by_vector s t ->
    offset_of us u = Ok uo -> sget us u = Some (m_size s) -> offset_of ps p = Ok po ->
    global_idxs junk us ps u p s (t_meta (setup_var t s k))
    = Ok (shift uo (args s t), shift po (iota (vec_size_of s t))).
  Proof.
    intros junk us ps u p s t k uo po B E1 E2 E3. unfold global_idxs.
    destruct (setup_var_by_vector t s k B) as (_ & Sz & _ & Ix). rewrite Ix, Sz, E1. cbn [bind].
    pose proof (args_ok s t B) as A. pose proof (args_length s t) as L.
    destruct B as (_ & _ & I & J). rewrite I, E2, E3. cbn [bind]. unfold args, vec_size_of in *.
    destruct (m_idx t) as [l|].
    - rewrite place_ok by exact A. reflexivity.
    - rewrite iota_length. reflexivity.
  Qed.

  Lemma shift_nth : forall o l k, nth_error (shift o l) k = option_map (fun i => (i + Z.of_nat o)%Z) (nth_error l k).
  Proof. intros o l k. unfold shift. apply nth_error_map. Qed.

  (** ** the transfer lists *)

  Definition pairs (x : xfer) : list (list Z * list Z) := combine (x_src x) (x_tgt x).
  Definition balanced (x : xfer) : Prop := length (x_src x) = length (x_tgt x).
  Definition xpairs (o : option xfer) : list (list Z * list Z) := match o with Some x => pairs x | None => [] end.

  Lemma combine_fst : forall A B (a : list A) (b : list B), length a = length b -> map fst (combine a b) = a.
  Proof. induction a as [|x a IH]; intros [|y b] H; simpl in *; try discriminate; auto. f_equal. apply IH. lia. Qed.
  Lemma combine_snd : forall A B (a : list A) (b : list B), length a = length b -> map snd (combine a b) = b.
  Proof. induction a as [|x a IH]; intros [|y b] H; simpl in *; try discriminate; auto. f_equal. apply IH. lia. Qed.
  Lemma combine_app : forall A B (a a' : list A) (b b' : list B), length a = length b ->
    combine (a ++ a') (b ++ b') = combine a b ++ combine a' b'.
  Proof. induction a as [|x a IH]; intros a' [|y b] b' H; simpl in *; try discriminate; auto. f_equal. apply IH. lia. Qed.

  Lemma key_eqb_eq : forall a b, key_eqb a b = true <-> a = b.
  Proof.
    intros [a1 a2] [b1 b2]. unfold key_eqb. simpl. rewrite andb_true_iff, String.eqb_eq, Bool.eqb_true_iff.
    split; [intros [-> ->]; reflexivity|intros H; inversion H; auto].
  Qed.

  Lemma xget_xset : forall d k k' v, xget (xset d k v) k' = if key_eqb k' k then Some v else xget d k'.
  Proof. intros. unfold xget, xset. apply (dget_dset key_eqb key_eqb_eq). Qed.

  Lemma full_app_pairs : forall fwd xd, Forall (fun e => balanced (snd e)) xd ->
    pairs (full_xfer fwd xd) = flat_map (fun e => if Bool.eqb (snd (fst e)) fwd then pairs (snd e) else []) xd /\
    balanced (full_xfer fwd xd).
  Proof.
    induction xd as [|[[n m] x] xd IH]; intros H; simpl; [split; reflexivity|].
    inversion H as [|? ? B H']; subst. simpl in B. destruct (IH H') as [IH1 IH2].
    destruct (Bool.eqb m fwd); [|auto]. unfold pairs, balanced in *. simpl.
    rewrite combine_app by exact B. rewrite !app_length. split; [f_equal; exact IH1|congruence].
  Qed.

  Lemma balanced_xset : forall xd k x, Forall (fun e => balanced (snd e)) xd -> balanced x ->
    Forall (fun e => balanced (snd e)) (xset xd k x).
  Proof.
    unfold xset. induction xd as [|[k' y] xd IH]; intros k x H B; simpl.
    - constructor; auto.
    - inversion H; subst. destruct (key_eqb k k'); constructor; auto.
  Qed.

  Lemma xget_balanced : forall xd k x, Forall (fun e => balanced (snd e)) xd -> xget xd k = Some x -> balanced x.
  Proof.
    intros xd k x H E. unfold xget in E. apply (dget_in key_eqb key_eqb_eq) in E.
    rewrite Forall_forall in H. apply (H _ E).
  Qed.

  Definition gather (fwd : bool) (xd : list ((string * bool) * xfer)) :=
    flat_map (fun e : (string * bool) * xfer => if Bool.eqb (snd (fst e)) fwd then pairs (snd e) else []) xd.

  Lemma gather_xset : forall fwd xd n m x L, pairs x = xpairs (xget xd (n, m)) ++ L ->
    Permutation (gather fwd (xset xd (n, m) x)) (gather fwd xd ++ if Bool.eqb m fwd then L else []).
  Proof.
    unfold gather, xset, xget. induction xd as [|[k y] xd IH]; intros n m x L H; simpl in *.
    - rewrite H. rewrite app_nil_r. destruct (Bool.eqb m fwd); simpl; apply Permutation_refl.
    - destruct (key_eqb (n, m) k) eqn:K.
      + apply key_eqb_eq in K. subst k. simpl in *. rewrite H.
        destruct (Bool.eqb m fwd); [|rewrite app_nil_r; apply Permutation_refl].
        rewrite <- !app_assoc. apply Permutation_app_head. apply Permutation_app_comm.
      + simpl. rewrite <- app_assoc. apply Permutation_app_head. apply IH. exact H.
  Qed.

  Variable path : string.
  Definition side (fwd : bool) (c : conn) : string := nearest_child path (if fwd then fst c else snd c).
  Definition isvec (c : conn) : bool :=
    match sget unknowns (snd c) with Some s => negb (truthy (m_pbo s)) | None => false end.
  Definition active (c : conn) : bool := (mine (fst c) && (rel (snd c) && rel (fst c)))%bool.

  Section Loop.
    Variables (junk : nat -> Z) (us ps : list (string * nat)) (dat : list (string * tacc)).
    Definition pairof (c : conn) : list Z * list Z :=
      match sget unknowns (snd c), sget dat (fst c) with
      | Some s, Some a => match global_idxs junk us ps (snd c) (fst c) s (t_meta a) with Ok x => x | Err _ => ([], []) end
      | _, _ => ([], [])
      end.
    Definition workable (c : conn) : Prop :=
      exists s a, sget unknowns (snd c) = Some s /\ sget dat (fst c) = Some a /\
        (isvec c = true -> exists x, global_idxs junk us ps (snd c) (fst c) s (t_meta a) = Ok x).

    Lemma step_ok : forall par unk s a xd sname fwd,
      sget unknowns unk = Some s -> sget dat par = Some a -> workable (par, unk) ->
      Forall (fun e => balanced (snd e)) xd ->
      exists xd', xfer_step junk us ps unk par s (t_meta a) xd sname fwd = Ok xd' /\
        Forall (fun e => balanced (snd e)) xd' /\
        (forall n m, xpairs (xget xd' (n, m)) = xpairs (xget xd (n, m)) ++
           if (key_eqb (n, m) (sname, fwd) && isvec (par, unk))%bool then [pairof (par, unk)] else []) /\
        (forall m, Permutation (gather m xd') (gather m xd ++ if (Bool.eqb fwd m && isvec (par, unk))%bool then [pairof (par, unk)] else [])).
    Proof.
      intros par unk s a xd sname fwd E1 E2 (s' & a' & F1 & F2 & W) B. simpl in F1, F2.
      rewrite F1 in E1. inversion E1; subst s'. rewrite F2 in E2. inversion E2; subst a'. clear E1 E2.
      unfold xfer_step.
      set (x0 := match xget xd (sname, fwd) with Some x => x | None => mkX [] [] [] end).
      assert (P0 : pairs x0 = xpairs (xget xd (sname, fwd))).
      { unfold x0. destruct (xget xd (sname, fwd)); reflexivity. }
      assert (B0 : balanced x0).
      { unfold x0. destruct (xget xd (sname, fwd)) eqn:E; [eapply xget_balanced; eauto|reflexivity]. }
      unfold isvec in *. simpl in *. rewrite F1 in *. destruct (truthy (m_pbo s)) eqn:T; simpl in *.
      - set (x1 := if fwd then mkX (x_src x0) (x_tgt x0) (x_byobj x0 ++ [(par, unk)]) else x0).
        assert (P1 : pairs x1 = pairs x0) by (unfold x1; destruct fwd; reflexivity).
        assert (B1 : balanced x1) by (unfold x1; destruct fwd; exact B0).
        exists (xset xd (sname, fwd) x1). split; [reflexivity|]. split; [apply balanced_xset; auto|]. split.
        + intros n m. rewrite xget_xset, andb_false_r. destruct (key_eqb (n, m) (sname, fwd)) eqn:K.
          * apply key_eqb_eq in K. inversion K; subst. simpl. rewrite P1, P0, app_nil_r. reflexivity.
          * rewrite app_nil_r. reflexivity.
        + intros m. rewrite andb_false_r. pose proof (gather_xset m xd sname fwd x1 []) as G.
          rewrite P1, P0, app_nil_r in G. specialize (G eq_refl). destruct (Bool.eqb fwd m); exact G.
      - destruct (W eq_refl) as ([si di] & G). rewrite G. cbn [bind].
        set (x1 := mkX (x_src x0 ++ [si]) (x_tgt x0 ++ [di]) (x_byobj x0)).
        assert (Q : pairof (par, unk) = (si, di)).
        { unfold pairof. simpl. rewrite F1, F2, G. reflexivity. }
        assert (P1 : pairs x1 = pairs x0 ++ [(si, di)]).
        { unfold pairs, x1. simpl. rewrite combine_app by exact B0. reflexivity. }
        assert (B1 : balanced x1).
        { unfold balanced, x1. simpl. rewrite !app_length. unfold balanced in B0. rewrite B0. reflexivity. }
        exists (xset xd (sname, fwd) x1). split; [reflexivity|]. split; [apply balanced_xset; auto|]. rewrite Q. split.
        + intros n m. rewrite xget_xset, andb_true_r. destruct (key_eqb (n, m) (sname, fwd)) eqn:K.
          * apply key_eqb_eq in K. inversion K; subst. simpl. rewrite P1, P0. reflexivity.
          * rewrite app_nil_r. reflexivity.
        + intros m. rewrite andb_true_r. apply gather_xset. rewrite P1, P0. reflexivity.
    Qed.

    Definition want (fwd : bool) (sys : string) (cs : list conn) : list (list Z * list Z) :=
      map pairof (filter (fun c => (String.eqb sys (side fwd c) && isvec c)%bool) (filter active cs)).
    Definition want_all (cs : list conn) : list (list Z * list Z) := map pairof (filter isvec (filter active cs)).

    Lemma loop_ok : forall cs xd, (forall c, In c cs -> active c = true -> workable c) ->
      Forall (fun e => balanced (snd e)) xd ->
      exists xd', xfer_loop path junk rel mine us ps unknowns dat cs xd = Ok xd' /\
        Forall (fun e => balanced (snd e)) xd' /\
        (forall sys fwd, xpairs (xget xd' (sys, fwd)) = xpairs (xget xd (sys, fwd)) ++ want fwd sys cs) /\
        (forall fwd, Permutation (gather fwd xd') (gather fwd xd ++ want_all cs)).
    Proof.
      induction cs as [|[par unk] cs IH]; intros xd W B; simpl.
      - exists xd. unfold want, want_all. simpl. split; [reflexivity|]. split; [exact B|].
        split; intros; rewrite app_nil_r; auto.
      - unfold want, want_all. simpl. unfold active at 1 4. simpl.
        destruct (mine par && (rel unk && rel par))%bool eqn:A.
        + pose proof (W (par, unk) (or_introl eq_refl)) as W0. unfold active in W0. simpl in W0. specialize (W0 A).
          destruct W0 as (s & a & E1 & E2 & E3). simpl in E1, E2. rewrite E1, E2.
          assert (W0 : workable (par, unk)) by (exists s, a; auto).
          destruct (step_ok par unk s a xd (nearest_child path par) true E1 E2 W0 B) as (xd1 & S1 & B1 & G1 & H1).
          rewrite S1. cbn [bind].
          destruct (step_ok par unk s a xd1 (nearest_child path unk) false E1 E2 W0 B1) as (xd2 & S2 & B2 & G2 & H2).
          rewrite S2. cbn [bind].
          destruct (IH xd2) as (xd3 & S3 & B3 & G3 & H3).
          { intros c C. apply W. right; exact C. }
          { exact B2. }
          exists xd3. split; [exact S3|]. split; [exact B3|]. split.
          * intros sys fwd. rewrite G3, G2, G1. rewrite <- !app_assoc. f_equal. unfold want. simpl.
            unfold key_eqb. simpl. destruct fwd; simpl;
              rewrite ?andb_true_r, ?andb_false_r; simpl; rewrite ?app_nil_l.
            -- change (side true (par, unk)) with (nearest_child path par).
               destruct (String.eqb sys (nearest_child path par) && isvec (par, unk))%bool; reflexivity.
            -- change (side false (par, unk)) with (nearest_child path unk).
               destruct (String.eqb sys (nearest_child path unk) && isvec (par, unk))%bool; reflexivity.
          * intros fwd. rewrite H3, H2, H1. rewrite <- !app_assoc. apply Permutation_app_head. unfold want_all. simpl.
            destruct fwd; simpl; destruct (isvec (par, unk)); simpl; apply Permutation_refl.
        + destruct (IH xd) as (xd3 & S3 & B3 & G3 & H3).
          { intros c C. apply W. right; exact C. }
          { exact B. }
          exists xd3. auto.
    Qed.
  End Loop.
End Group.

(** Lemmas about declarations, connection checks and the layout of source
    vectors. *)
From Verif Require Import Base BaseFacts TransferModel PathModel VecModel WireModel WireSpec WireProofs.
Local Open Scope string_scope.
Local Open Scope nat_scope.
Local Open Scope list_scope.

(** ** declarations *)

Lemma declared : forall val shape pbo idx, shape_keyword_fits val shape ->
    vector_meta (add_variable val shape pbo idx) \/ object_meta (add_variable val shape pbo idx).
Proof.
  intros val shape pbo idx F. unfold add_variable.
  destruct (is_differentiable (get_initial_val val shape) && negb (truthy pbo))%bool eqn:D.
  - left. apply andb_true_iff in D. destruct D as [D T]. apply negb_true_iff in T. unfold vector_meta.
    destruct val as [v|]; simpl in *.
    + destruct v as [ty|d l|ty]; simpl in *; try discriminate.
      * destruct shape as [[n|l]|]; simpl in *.
        -- destruct n as [|[|n]]; simpl; try lia; split; eauto.
        -- split; eauto.
        -- split; eauto.
      * destruct shape as [[n|l']|]; simpl in *.
        -- destruct F as [F| ->].
           ++ destruct n as [|[|n]]; simpl; try lia; split; eauto.
           ++ destruct n as [|[|n]]; simpl; split; eauto.
        -- split; eauto.
        -- split; eauto.
    + destruct shape as [[n|l]|]; simpl in *.
      * destruct n as [|[|n]]; simpl in *; split; eauto.
      * split; eauto.
      * split; eauto.
  - right. unfold object_meta. destruct shape as [[n|l]|]; simpl; auto. destruct n as [|[|n]]; simpl; auto.
Qed.

Lemma shape_eqb_eq : forall a b, shape_eqb a b = true <-> a = b.
Proof.
  assert (N : forall a b, nats_eqb a b = true <-> a = b).
  { induction a as [|x a IH]; intros [|y b]; simpl; split; intros H; try discriminate; auto.
    - apply andb_true_iff in H. destruct H as [H1 H2]. apply Nat.eqb_eq in H1. apply IH in H2. congruence.
    - inversion H; subst. rewrite Nat.eqb_refl. apply IH. reflexivity. }
  intros [x|x] [y|y]; simpl; split; intros H; try discriminate.
  - apply Nat.eqb_eq in H. congruence.
  - inversion H. apply Nat.eqb_refl.
  - apply N in H. congruence.
  - inversion H. apply N. reflexivity.
Qed.

Lemma complete_keeps : forall t s idxs t', vector_meta t -> vector_meta s -> complete t s idxs = Ok t' ->
    vector_meta t' /\ m_pbo t' = m_pbo t /\ m_idx t' = (match idxs with Some l => Some l | None => m_idx t end) /\
    (m_shape t <> Some (STup []) -> m_shape t' = m_shape t /\ m_size t' = m_size t /\ m_val t' = m_val t) /\
    (m_shape t = Some (STup []) ->
       match idxs with
       | None => m_shape t' = m_shape s /\ m_size t' = m_size s /\ m_val t' = m_val s
       | Some l => m_shape t' = Some (STup [length l]) /\ m_size t' = length l
       end).
Proof.
  intros t s idxs t' (Pt & ts & St & Zt) (Ps & ss & Ss & Zs) H. unfold complete in H. rewrite Pt, St in H.
  destruct (shape_eqb ts (STup [])) eqn:E.
  - apply shape_eqb_eq in E. subst ts. destruct idxs as [l|].
    + destruct (index_val (m_val s) l) as [v|e]; cbn [bind] in H; [|discriminate]. inversion H; subst; clear H.
      simpl. split; [split; [exact Pt|]; exists (STup [length l]); simpl; split; [reflexivity|lia]|].
      split; [reflexivity|]. split; [reflexivity|]. split; [intros X; congruence|auto].
    + rewrite Ss in H. cbn [bind] in H. inversion H; subst; clear H. simpl.
      split; [split; [exact Pt|]; exists ss; auto|]. split; [reflexivity|]. split; [reflexivity|].
      split; [intros X; congruence|]. auto.
  - assert (Ne : ts <> STup []). { intros ->. simpl in E. discriminate. }
    cbn [bind] in H. inversion H; subst; clear H.
    destruct idxs as [l|]; simpl; (split; [split; [exact Pt|]; exists ts; auto|]);
      (split; [reflexivity|]); (split; [reflexivity|]); (split; [auto|intros X; congruence]).
Qed.

(** ** checks *)

Lemma fold_max : forall l a, (a <= fold_left Z.max l a)%Z /\ Forall (fun i => (i <= fold_left Z.max l a)%Z) l /\
    In (fold_left Z.max l a) (a :: l).
Proof.
  induction l as [|b l IH]; intros a; simpl.
  - split; [lia|]. auto.
  - destruct (IH (Z.max a b)) as (H1 & H2 & H3). split; [lia|]. split; [constructor; [lia|exact H2]|].
    destruct H3 as [H3|H3]; [|auto]. destruct (Z.max_spec a b) as [[_ E]|[_ E]]; rewrite E in *; auto.
Qed.
Lemma fold_min : forall l a, (fold_left Z.min l a <= a)%Z /\ Forall (fun i => (fold_left Z.min l a <= i)%Z) l /\
    In (fold_left Z.min l a) (a :: l).
Proof.
  induction l as [|b l IH]; intros a; simpl.
  - split; [lia|]. auto.
  - destruct (IH (Z.min a b)) as (H1 & H2 & H3). split; [lia|]. split; [constructor; [lia|exact H2]|].
    destruct H3 as [H3|H3]; [|auto]. destruct (Z.min_spec a b) as [[_ E]|[_ E]]; rewrite E in *; auto.
Qed.

Lemma types_check : forall s t, check_types s t = Ok tt <-> types_agree s t.
Proof.
  intros s t. unfold check_types, types_agree. destruct (String.eqb_spec (type_of (m_val s)) (type_of (m_val t))) as [E|E].
  - tauto.
  - destruct (m_idx t) as [l|].
    + destruct (Nat.eqb (length l) 1 && String.eqb (type_of (m_val t)) "float")%bool eqn:C.
      * apply andb_true_iff in C. destruct C as [C1 C2]. apply Nat.eqb_eq in C1. apply String.eqb_eq in C2.
        destruct l as [|i [|j l]]; try discriminate. split; [|reflexivity]. intros _. right. split; [eauto|exact C2].
      * split; [discriminate|]. intros [H|((i & H) & F)]; [contradiction|]. inversion H; subst. rewrite F in C. discriminate.
    + split; [discriminate|]. intros [H|((i & H) & _)]; [contradiction|discriminate].
Qed.

Lemma check_exact : forall s t, m_pbo s = None -> vector_meta s -> vector_meta t -> m_idx s = None ->
    (check_connection s t = Ok [] <->
     types_agree s t /\
     match m_idx t with
     | None => m_shape s = m_shape t
     | Some l => l <> [] /\ Forall (idx_ok (m_size s)) l /\ (m_shape s = m_shape t \/ length l = m_size t)
     end).
Proof.
  intros s t Pn (Ps & ss & Ss & Zs) (Pt & ts & St & Zt) Is. unfold check_connection. rewrite Pn.
  pose proof (types_check s t) as T. destruct (check_types s t) as [[]|e] eqn:C; cbn [bind].
  2:{ split; [discriminate|]. intros [H _]. apply T in H. discriminate. }
  assert (T' : types_agree s t) by (apply T; reflexivity). clear T.
  unfold check_shapes, check_shapes2. rewrite Ss, St, Is.
  destruct (m_idx t) as [l|].
  - destruct l as [|a l].
    { split; [|intros (_ & H & _); contradiction].
      destruct (shape_eqb ss ts); cbn [bind pymax]; [discriminate|]. destruct (Nat.eqb (@length Z []) (m_size t)); discriminate. }
    cbn [pymax pymin bind]. destruct (fold_max l a) as (M1 & M2 & M3). destruct (fold_min l a) as (N1 & N2 & N3).
    set (mx := fold_left Z.max l a) in *. set (mn := fold_left Z.min l a) in *.
    assert (R : Forall (idx_ok (m_size s)) (a :: l) <-> (mx < Z.of_nat (m_size s))%Z /\ (0 <= mn)%Z).
    { split.
      - intros F. rewrite Forall_forall in F. pose proof (F _ M3) as X. pose proof (F _ N3) as Y. unfold idx_ok in *. lia.
      - intros [X Y]. rewrite Forall_forall in M2, N2. apply Forall_forall. intros i [<-|I]; unfold idx_ok; [lia|].
        specialize (M2 _ I). specialize (N2 _ I). simpl in *. lia. }
    assert (E2 : (if (Z.of_nat (m_size s) <=? mx)%Z then [EBound] else []) ++ (if (mn <? 0)%Z then [ENegative] else []) = [] <->
                 Forall (idx_ok (m_size s)) (a :: l)).
    { rewrite R. destruct (Z.leb_spec (Z.of_nat (m_size s)) mx), (Z.ltb_spec mn 0); simpl; split; intros X; try discriminate; try lia; auto. }
    destruct (shape_eqb ss ts) eqn:Q; cbn [bind].
    + apply shape_eqb_eq in Q. subst ts. simpl app at 1. split.
      * intros H. inversion H as [H']. split; [exact T'|]. split; [discriminate|]. split; [apply E2; exact H'|]. left; congruence.
      * intros (_ & _ & F & _). apply E2 in F. rewrite F. reflexivity.
    + assert (Ne : ss <> ts). { intros X. apply shape_eqb_eq in X. congruence. }
      destruct (Nat.eqb_spec (length (a :: l)) (m_size t)) as [L|L]; cbn [bind].
      * simpl app at 1. split.
        -- intros H. inversion H as [H']. split; [exact T'|]. split; [discriminate|]. split; [apply E2; exact H'|]. auto.
        -- intros (_ & _ & F & _). apply E2 in F. rewrite F. reflexivity.
      * split; [discriminate|]. intros (_ & _ & _ & [X|X]); [congruence|contradiction].
  - destruct (shape_eqb ss ts) eqn:Q; cbn [bind].
    + apply shape_eqb_eq in Q. subst ts. split; [intros _; split; [exact T'|congruence]|reflexivity].
    + split; [discriminate|]. intros [_ X]. assert (Y : ss = ts) by congruence. apply shape_eqb_eq in Y. congruence.
Qed.

Lemma compatible_accepted : forall s t, m_pbo s = None -> vector_meta s -> vector_meta t -> m_idx s = None ->
    compatible s t -> check_connection s t = Ok [].
Proof.
  intros s t Pn Vs Vt Is [T C]. apply check_exact; auto. split; [exact T|].
  destruct (m_idx t); [|exact C]. tauto.
Qed.

Lemma accepted_compatible : forall s t, m_pbo s = None -> vector_meta s -> vector_meta t -> m_idx s = None ->
    (forall l, m_idx t = Some l -> m_shape s = m_shape t -> length l = m_size t) ->
    check_connection s t = Ok [] -> compatible s t.
Proof.
  intros s t Pn Vs Vt Is L H. apply check_exact in H; auto. destruct H as [T C]. split; [exact T|].
  destruct (m_idx t) as [l|]; [|exact C]. destruct C as (C1 & C2 & [C3|C3]); auto.
Qed.

Lemma check_all : forall conns params unknowns, check_connections conns params unknowns = Ok [] ->
    forall p src, In (p, src) conns -> exists t s, sget params p = Some t /\ sget unknowns src = Some s /\ check_connection s t = Ok [].
Proof.
  induction conns as [|[p0 s0] conns IH]; intros params unknowns H p src I; [destruct I|]. cbn [check_connections] in H.
  destruct (sget params p0) as [t|] eqn:E1; [|discriminate]. destruct (sget unknowns s0) as [s|] eqn:E2; [|discriminate].
  destruct (check_connection s t) as [e|x] eqn:E3; cbn [bind] in H; [|discriminate].
  destruct (check_connections conns params unknowns) as [es|x] eqn:E4; cbn [bind] in H; [|discriminate].
  inversion H as [H']. apply app_eq_nil in H'. destruct H' as [-> ->].
  destruct I as [I|I].
  - inversion I; subst. exists t, s. auto.
  - apply (IH _ _ E4 _ _ I).
Qed.

(** accepted connections can be carried out *)
Lemma accepted_legal : forall rel mine conns params unknowns,
    check_connections conns params unknowns = Ok [] ->
    NoDup (map fst conns) -> NoDup (map fst params) -> NoDup (map fst unknowns) ->
    (forall p t, In (p, t) params -> mine p = true -> rel p = true -> In p (map fst conns)) ->
    (forall p src t s, In (p, src) conns -> In (p, t) params -> In (src, s) unknowns ->
       (object_meta s /\ m_idx s = None /\ m_idx t = None) \/
       (m_pbo s = None /\ vector_meta s /\ vector_meta t /\ m_idx s = None /\ 0 < m_size s /\
        forall l, m_idx t = Some l -> m_shape s = m_shape t -> length l = m_size t)) ->
    legal_group rel mine conns params unknowns.
Proof.
  intros rel mine conns params unknowns C N1 N2 N3 O K. unfold legal_group. repeat (split; [assumption|]). split.
  - intros p _ I. apply in_map_iff in I. destruct I as ([q src] & E & I). simpl in E. subst q.
    destruct (check_all _ _ _ C _ _ I) as (t & s & E & _ & _). apply sget_in in E. apply (in_map fst) in E. exact E.
  - intros p t I M R. pose proof (O p t I M R) as J. apply in_map_iff in J. destruct J as ([q src] & E & J). simpl in E. subst q.
    destruct (check_all _ _ _ C _ _ J) as (t' & s & E1 & E2 & E3).
    rewrite (in_sget _ _ _ _ N2 I) in E1. inversion E1; subst t'. apply sget_in in E2.
    exists src, s. split; [exact J|]. split; [exact E2|].
    destruct (K p src t s J I E2) as [(Om & Is & It)|(Pn & Vs & Vt & Is & Z & L)].
    + left. destruct Om as [O1 O2]. unfold by_object. auto.
    + right. pose proof (accepted_compatible s t Pn Vs Vt Is L E3) as [_ Cm]. unfold by_vector.
      split; [apply Vs|]. split; [apply Vt|]. split; [exact Is|]. destruct (m_idx t); [tauto|exact Z].
Qed.

(** ** source vectors *)

Section Source.
  Context {A O : Type}.

  Lemma lay_out_packed : forall rel (vars : list (vmeta A O)) k d n, lay_out rel k vars = (d, n) ->
    packed k d /\ total k d = n.
  Proof.
    induction vars as [|m vars IH]; intros k d n H; simpl in H; [inversion H; subst; simpl; auto|].
    destruct (rel (v_name m)); [|eauto]. destruct (negb (v_pbo m) && negb (v_remote m))%bool.
    - destruct (lay_out rel (k + v_size m) vars) as [d' n'] eqn:E. inversion H; subst. simpl.
      destruct (IH _ _ _ E) as [P T]. auto.
    - destruct (lay_out rel k vars) as [d' n'] eqn:E. inversion H; subst. simpl. apply (IH _ _ _ E).
  Qed.

  (** the metadata kept by the two models of the same variable *)
  Definition same_var (v : vmeta A O) (u : string * meta) : Prop :=
    v_name v = fst u /\ v_size v = m_size (snd u) /\ v_pbo v = truthy (m_pbo (snd u)) /\ v_remote v = false.

  Lemma lay_out_stores : forall rel (vars : list (vmeta A O)) unknowns k d n, Forall2 same_var vars unknowns ->
    lay_out rel k vars = (d, n) -> stores rel unknowns d.
  Proof.
    unfold stores. induction vars as [|m vars IH]; intros unknowns k d n F H; inversion F as [|? u ? us (E1 & E2 & E3 & E4) F']; subst; simpl in *.
    - inversion H; subst. constructor.
    - rewrite E1 in H. destruct (rel (fst u)); [|eauto]. rewrite E3, E4 in H. destruct (truthy (m_pbo (snd u))) eqn:T; simpl in H.
      + destruct (lay_out rel k vars) as [d' n'] eqn:E. inversion H; subst. constructor; [|eauto]. simpl. rewrite T. tauto.
      + destruct (lay_out rel (k + v_size m) vars) as [d' n'] eqn:E. inversion H; subst. constructor; [|eauto].
        simpl. rewrite T. split; [reflexivity|]. split; [exact E2|]. split; intros X; discriminate.
  Qed.

  Lemma packed_app : forall d1 d2 k, packed k (d1 ++ d2) <-> packed k d1 /\ packed (total k d1) d2.
  Proof.
    induction d1 as [|[n x] d1 IH]; intros d2 k; simpl; [tauto|].
    destruct (a_slice x) as [[a b]|]; rewrite IH; tauto.
  Qed.
  Lemma total_app : forall d1 d2 k, total k (d1 ++ d2) = total (total k d1) d2.
  Proof.
    induction d1 as [|[n x] d1 IH]; intros d2 k; simpl; [reflexivity|].
    destruct (a_slice x) as [[a b]|]; apply IH.
  Qed.

  Lemma sset_fresh : forall V (d : list (string * V)) k v, ~ In k (map fst d) -> sset d k v = d ++ [(k, v)].
  Proof.
    induction d as [|[k' v'] d IH]; intros k v H; simpl in *; [reflexivity|]. unfold sset in *. simpl.
    destruct (String.eqb_spec k k') as [->|N]; [exfalso; auto|]. rewrite IH by auto. reflexivity.
  Qed.

  (** the variables of a view follow each other without gaps *)
  Lemma view_packed_loop : forall w vm r vs dat r' vs' dat', view_loop w vm r vs dat = Ok (r', vs', dat') ->
    NoDup (map fst dat ++ map snd vm) -> packed 0 dat -> total 0 dat = vs ->
    packed 0 dat' /\ total 0 dat' = vs'.
  Proof.
    induction vm as [|[n p] vm IH]; intros r vs dat r' vs' dat' H N P T; simpl in H; [inversion H; subst; auto|].
    simpl in N.
    assert (N' : forall z, NoDup (map fst (dat ++ [(p, z : acc)]) ++ map snd vm)).
    { intros z. rewrite map_app. simpl. rewrite <- app_assoc. exact N. }
    assert (Fr : ~ In p (map fst dat)).
    { apply NoDup_remove_2 in N. intros X. apply N. apply in_or_app. auto. }
    destruct (sget (w_dat w) n) as [x|].
    - destruct (a_slice x) as [[ps pe]|].
      + destruct r as [[st en]|].
        * destruct (Nat.eqb ps en); [|discriminate]. rewrite sset_fresh in H by exact Fr. eapply IH; [exact H|apply N'| |].
          -- apply packed_app. split; [exact P|]. simpl. rewrite T. auto.
          -- rewrite total_app. simpl. lia.
        * rewrite sset_fresh in H by exact Fr. eapply IH; [exact H|apply N'| |].
          -- apply packed_app. split; [exact P|]. simpl. rewrite T. auto.
          -- rewrite total_app. simpl. lia.
      + rewrite sset_fresh in H by exact Fr. eapply IH; [exact H|apply N'| |].
        -- apply packed_app. split; [exact P|]. simpl. auto.
        -- rewrite total_app. simpl. exact T.
    - eapply IH; [exact H| |exact P|exact T]. apply NoDup_remove_1 in N. exact N.
  Qed.

  Lemma view_packed : forall w vm v, get_view w vm = Ok v -> NoDup (map snd vm) -> packed 0 (w_dat v).
  Proof.
    intros w vm v H N. unfold get_view in H. destruct (view_loop w vm None 0 []) as [[[r n] dat]|e] eqn:E; cbn [bind] in H; [|discriminate].
    destruct (view_packed_loop _ _ _ _ _ _ _ _ E) as [P _]; simpl; auto.
    destruct r as [[st en]|]; inversion H; subst; exact P.
  Qed.

  Definition present (w : wrapper) (e : string * string) : bool :=
    match sget (w_dat w) (fst e) with Some _ => true | None => false end.
  Definition same_acc (w : wrapper) (e : string * string) (x : string * acc) : Prop :=
    snd e = fst x /\ exists y, sget (w_dat w) (fst e) = Some y /\ a_size (snd x) = a_size y /\
      (a_slice (snd x) = None <-> a_slice y = None).

  Lemma view_same_loop : forall w vm r vs dat r' vs' dat' done, view_loop w vm r vs dat = Ok (r', vs', dat') ->
    NoDup (map fst dat ++ map snd vm) -> Forall2 (same_acc w) done dat ->
    Forall2 (same_acc w) (done ++ filter (present w) vm) dat'.
  Proof.
    induction vm as [|[n p] vm IH]; intros r vs dat r' vs' dat' done H N F; simpl in H;
      [inversion H; subst; simpl; rewrite app_nil_r; exact F|].
    simpl in N.
    assert (N' : forall z, NoDup (map fst (dat ++ [(p, z : acc)]) ++ map snd vm)).
    { intros z. rewrite map_app. simpl. rewrite <- app_assoc. exact N. }
    assert (Fr : ~ In p (map fst dat)).
    { apply NoDup_remove_2 in N. intros X. apply N. apply in_or_app. auto. }
    simpl. unfold present at 1. simpl. destruct (sget (w_dat w) n) as [x|] eqn:E.
    - assert (Snoc : forall z, a_size z = a_size x -> (a_slice z = None <-> a_slice x = None) ->
                Forall2 (same_acc w) (done ++ [(n, p)]) (dat ++ [(p, z)])).
      { intros z Z1 Z2. apply Forall2_app; [exact F|]. constructor; [|constructor].
        split; [reflexivity|]. exists x. simpl. auto. }
      replace (done ++ (n, p) :: filter (present w) vm) with ((done ++ [(n, p)]) ++ filter (present w) vm)
        by (rewrite <- app_assoc; reflexivity).
      destruct (a_slice x) as [[ps pe]|] eqn:Sx.
      + destruct r as [[st en]|].
        * destruct (Nat.eqb ps en); [|discriminate]. rewrite sset_fresh in H by exact Fr.
          eapply IH; [exact H|apply N'|]. apply Snoc; simpl; [reflexivity|split; intros; discriminate].
        * rewrite sset_fresh in H by exact Fr.
          eapply IH; [exact H|apply N'|]. apply Snoc; simpl; [reflexivity|split; intros; discriminate].
      + rewrite sset_fresh in H by exact Fr. eapply IH; [exact H|apply N'|]. apply Snoc; simpl; tauto.
    - eapply IH; [exact H| |exact F]. apply NoDup_remove_1 in N. exact N.
  Qed.

  Lemma view_same : forall w vm v, get_view w vm = Ok v -> NoDup (map snd vm) ->
    Forall2 (same_acc w) (filter (present w) vm) (w_dat v).
  Proof.
    intros w vm v H N. unfold get_view in H. destruct (view_loop w vm None 0 []) as [[[r n] dat]|e] eqn:E; cbn [bind] in H; [|discriminate].
    pose proof (view_same_loop _ _ _ _ _ _ _ _ [] E N (Forall2_nil _)) as P. simpl in P.
    destruct r as [[st en]|]; inversion H; subst; exact P.
  Qed.
End Source.

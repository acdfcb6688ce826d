(** Property theorems for connection checks and the delivery of data: C77, C78. *)
From Verif Require Import Base BaseFacts TransferModel TransferSpec PathModel VecModel WireModel WireSpec
  WireProofs WireProofs2 WireProofs3.
Local Open Scope string_scope.
Local Open Scope nat_scope.
Local Open Scope list_scope.

(** ** C77: connection checks *)

(** a declared variable is either passed as an object and takes no room, or has
    as many entries as its shape says.  Missing: an int shape keyword that does
    not fit the value *)
Theorem declared_size_partial : forall val shape pbo idx, shape_keyword_fits val shape ->
    vector_meta (add_variable val shape pbo idx) \/ object_meta (add_variable val shape pbo idx).
Proof. exact declared. Qed.
Print Assumptions declared_size_partial.

(** a variable declared by its shape alone has exactly that many entries *)
Theorem declared_by_shape : forall shape pbo idx, truthy pbo = false ->
    let m := add_variable None (Some shape) pbo idx in vector_meta m /\ m_size m = shape_count shape.
Proof.
  intros [n|l] pbo idx H m.
  - assert (G : vector_meta m /\ m_size m = n); [|exact G]. unfold m, add_variable, get_initial_val. rewrite H.
    destruct (Nat.eqb_spec n 1) as [->|Hn]; [split; [split; [exact H|eexists; split; reflexivity]|reflexivity]|].
    simpl. destruct (Nat.ltb_spec 1 n); simpl; (split; [split; [exact H|eexists; split; [reflexivity|simpl; lia]]|lia]).
  - unfold m, add_variable. simpl. rewrite H. simpl. split; [split; [exact H|eexists; split; reflexivity]|reflexivity].
Qed.
Print Assumptions declared_by_shape.
Example declared_by_shape_ex : m_size (add_variable None (Some (SInt 0)) None None) = 0 /\
    m_size (add_variable None (Some (STup [2; 3])) None None) = 6.
Proof. split; reflexivity. Qed.

(** a shape that does not fit is stored although the value has another number of entries *)
Theorem declared_size_refuted : forall n, 1 < n ->
    let m := add_variable (Some (VReal "float")) (Some (SInt n)) None None in
    m_shape m = Some (STup [n]) /\ m_size m = 1 /\ ~ vector_meta m /\ ~ object_meta m.
Proof.
  intros n H m. assert (E : m = mkMeta (VReal "float") (Some (STup [n])) 1 None None).
  { unfold m, add_variable. simpl. destruct n as [|[|n]]; try lia. reflexivity. }
  rewrite E. simpl. split; [reflexivity|]. split; [reflexivity|]. split.
  - intros (_ & s & S & Z). simpl in *. inversion S; subst. simpl in Z. lia.
  - intros (P & _). discriminate.
Qed.
Print Assumptions declared_size_refuted.

(** a parameter declared without a shape takes the shape of its source, or one
    entry per index; any other parameter keeps its own *)
Theorem completed_size : forall t s idxs t', vector_meta t -> vector_meta s -> complete t s idxs = Ok t' ->
    vector_meta t' /\ m_pbo t' = m_pbo t /\ m_idx t' = (match idxs with Some l => Some l | None => m_idx t end) /\
    (m_shape t <> Some (STup []) -> m_shape t' = m_shape t /\ m_size t' = m_size t /\ m_val t' = m_val t) /\
    (m_shape t = Some (STup []) ->
       match idxs with
       | None => m_shape t' = m_shape s /\ m_size t' = m_size s /\ m_val t' = m_val s
       | Some l => m_shape t' = Some (STup [length l]) /\ m_size t' = length l
       end).
Proof. exact complete_keeps. Qed.
Print Assumptions completed_size.

(** but indices into a source of two dimensions are taken as row numbers, so
    legal indices of the flattened source make setup fail *)
Theorem completed_rows_refuted : exists t s l,
    vector_meta t /\ vector_meta s /\ m_shape t = Some (STup []) /\ Forall (idx_ok (m_size s)) l /\
    complete t s (Some l) = Err IndexError.
Proof.
  exists (add_variable None None None None), (add_variable (Some (VArr true [2; 3])) None None None), [4%Z; 5%Z].
  split; [split; [reflexivity|exists (STup []); split; reflexivity]|].
  split; [split; [reflexivity|exists (STup [2; 3]); split; reflexivity]|].
  split; [reflexivity|]. split; [|reflexivity].
  repeat constructor; unfold idx_ok; simpl; lia.
Qed.
Print Assumptions completed_rows_refuted.

(** exactly the connections that are accepted, for variables of the vector *)
Theorem accepted_exactly : forall s t, m_pbo s = None -> vector_meta s -> vector_meta t -> m_idx s = None ->
    (check_connection s t = Ok [] <->
     types_agree s t /\
     match m_idx t with
     | None => m_shape s = m_shape t
     | Some l => l <> [] /\ Forall (idx_ok (m_size s)) l /\ (m_shape s = m_shape t \/ length l = m_size t)
     end).
Proof. exact check_exact. Qed.
Print Assumptions accepted_exactly.

(** a compatible connection is accepted *)
Theorem compatible_connection_accepted : forall s t, m_pbo s = None -> vector_meta s -> vector_meta t -> m_idx s = None ->
    compatible s t -> check_connection s t = Ok [].
Proof. exact compatible_accepted. Qed.
Print Assumptions compatible_connection_accepted.

(** an accepted connection is compatible.  Missing: indices between variables of
    equal shape *)
Theorem accepted_connection_compatible_partial : forall s t,
    m_pbo s = None -> vector_meta s -> vector_meta t -> m_idx s = None ->
    (forall l, m_idx t = Some l -> m_shape s = m_shape t -> length l = m_size t) ->
    check_connection s t = Ok [] -> compatible s t.
Proof. exact accepted_compatible. Qed.
Print Assumptions accepted_connection_compatible_partial.

(** between variables of equal shape any number of indices is accepted *)
Theorem accepted_index_count_refuted : forall n l, 1 < n -> l <> [] -> Forall (idx_ok n) l ->
    let s := add_variable None (Some (SInt n)) None None in
    let t := add_variable None (Some (SInt n)) None (Some l) in
    check_connection s t = Ok [] /\ (length l <> n -> ~ compatible s t).
Proof.
  intros n l H L F.
  assert (Es : add_variable None (Some (SInt n)) None None = mkMeta (VArr true [n]) (Some (STup [n])) n None None).
  { unfold add_variable. simpl. destruct n as [|[|n]]; try lia. simpl. rewrite Nat.mul_1_r. reflexivity. }
  assert (Et : add_variable None (Some (SInt n)) None (Some l) = mkMeta (VArr true [n]) (Some (STup [n])) n None (Some l)).
  { unfold add_variable. simpl. destruct n as [|[|n]]; try lia. simpl. rewrite Nat.mul_1_r. reflexivity. }
  cbv zeta. rewrite Es, Et.
  assert (V : forall i, vector_meta (mkMeta (VArr true [n]) (Some (STup [n])) n None i)).
  { intros i. split; [reflexivity|]. exists (STup [n]). simpl. split; [reflexivity|lia]. }
  split.
  - apply check_exact; simpl; auto. split; [left; reflexivity|]. auto.
  - intros Ne (_ & C). simpl in C. tauto.
Qed.
Print Assumptions accepted_index_count_refuted.

(** the key 'pass_by_obj' of the source, even with the value False, switches the
    shape check off *)
Theorem accepted_key_refuted : forall s t, m_pbo s <> None -> type_of (m_val s) = type_of (m_val t) ->
    check_connection s t = Ok [].
Proof.
  intros s t H E. unfold check_connection, check_types. rewrite E, String.eqb_refl. cbn [bind].
  destruct (m_pbo s); [reflexivity|contradiction].
Qed.
Print Assumptions accepted_key_refuted.

Example C77_ex :
  let s := add_variable (Some (VArr true [2; 3])) None None None in
  let t := add_variable None (Some (SInt 2)) None (Some [5%Z; 0%Z]) in
  vector_meta s /\ vector_meta t /\ compatible s t /\ check_connection s t = Ok [] /\
  check_connection s (add_variable None (Some (SInt 2)) None (Some [6%Z; 0%Z])) = Ok [EBound] /\
  check_connection s (add_variable None (Some (SInt 2)) None (Some [0%Z; (-1)%Z; 2%Z])) = Ok [ESize; ENegative] /\
  check_connection s (add_variable (Some (VArr true [3; 2])) None None None) = Ok [EShape] /\
  check_connection s (add_variable (Some (VReal "float")) None None None) = Err TypeError /\
  check_connection s (add_variable (Some (VReal "float")) None None (Some [3%Z])) = Ok [] /\
  check_connection (add_variable None (Some (SInt 2)) (Some false) None) (add_variable None (Some (SInt 5)) None None) = Ok [].
Proof.
  cbv zeta. split; [split; [reflexivity|exists (STup [2; 3]); split; reflexivity]|].
  split; [split; [reflexivity|exists (STup [2]); split; reflexivity]|].
  split; [split; [left; reflexivity|]|].
  - simpl. split; [discriminate|]. split; [|reflexivity]. repeat constructor; unfold idx_ok; simpl; lia.
  - repeat (split; [reflexivity|]). reflexivity.
Qed.

(** ** C78: delivery *)

(** the setup of a group succeeds, its parameters have separate storage, and a
    transfer to a subsystem (or to all, '') hands each of its by-vector
    parameters the entries of the source that its indices name, leaving the
    parameters of the other subsystems alone.  [udat] is any source vector
    without gaps: see [source_vector_packed] and [view_packed_in_order].
    Missing: empty variables, and the connections of the refutations below *)
Theorem delivery_partial : forall path junk rel mine conns params unknowns udat,
  legal_group rel mine conns params unknowns -> stores rel unknowns udat -> packed 0 udat ->
  exists w, setup_group path junk rel mine conns params unknowns = Ok w /\
    map fst (g_dat w) = map fst (filter (fun x => (rel (fst x) && mine (fst x))%bool) params) /\
    (forall p a s e, sget (g_dat w) p = Some a -> t_slice a = Some (s, e) -> s <= e /\ e <= g_psize w) /\
    (forall p q a b s1 e1 s2 e2, sget (g_dat w) p = Some a -> sget (g_dat w) q = Some b -> p <> q ->
       t_slice a = Some (s1, e1) -> t_slice b = Some (s2, e2) -> e1 <= s2 \/ e2 <= s1) /\
    forall A ts (uvec pvec : list A), length uvec = total 0 udat -> length pvec = g_psize w ->
      exists pvec', transfer_data w ts uvec pvec = Ok pvec' /\ length pvec' = length pvec /\
        (forall p t src s, In (p, t) params -> mine p = true -> rel p = true -> In (p, src) conns -> rel src = true ->
           In (src, s) unknowns -> by_vector s t -> ts = "" \/ nearest_child path p = ts ->
           exists a sl x usl, sget (g_dat w) p = Some a /\ t_slice a = Some sl /\
             sget udat src = Some x /\ a_slice x = Some usl /\
             delivered (m_idx t) (slice_val uvec usl) (slice_val pvec' sl)) /\
        (forall p a sl, sget (g_dat w) p = Some a -> t_slice a = Some sl ->
           ts <> "" -> nearest_child path p <> ts -> slice_val pvec' sl = slice_val pvec sl).
Proof. exact delivery. Qed.
Print Assumptions delivery_partial.

(** connections that pass the checks can be carried out, so the theorem above
    applies to them.  Missing: the 'pass_by_obj' key on the source or target of
    a by-vector connection, indices on a by-object connection, and indices
    between variables of equal shape *)
Theorem accepted_can_be_delivered_partial : forall rel mine conns params unknowns,
    check_connections conns params unknowns = Ok [] ->
    NoDup (map fst conns) -> NoDup (map fst params) -> NoDup (map fst unknowns) ->
    (forall p t, In (p, t) params -> mine p = true -> rel p = true -> In p (map fst conns)) ->
    (forall p src t s, In (p, src) conns -> In (p, t) params -> In (src, s) unknowns ->
       (object_meta s /\ m_idx s = None /\ m_idx t = None) \/
       (m_pbo s = None /\ vector_meta s /\ vector_meta t /\ m_idx s = None /\ 0 < m_size s /\
        forall l, m_idx t = Some l -> m_shape s = m_shape t -> length l = m_size t)) ->
    legal_group rel mine conns params unknowns.
Proof. exact accepted_legal. Qed.
Print Assumptions accepted_can_be_delivered_partial.

(** the unknowns vector of the root has no gaps and holds the relevant variables
    in order *)
Theorem source_vector_packed : forall A O rel (vars : list (vmeta A O)) unknowns d n,
    Forall2 same_var vars unknowns -> lay_out rel 0 vars = (d, n) ->
    stores rel unknowns d /\ packed 0 d /\ total 0 d = n.
Proof.
  intros A O rel vars unknowns d n F H. split; [eapply lay_out_stores; eauto|]. eapply lay_out_packed; eauto.
Qed.
Print Assumptions source_vector_packed.

(** neither has the view of it that a subsystem uses *)
Theorem view_packed_in_order : forall w vm v, get_view w vm = Ok v -> NoDup (map snd vm) ->
    packed 0 (w_dat v) /\ Forall2 (same_acc w) (filter (present w) vm) (w_dat v).
Proof. intros w vm v H N. split; [eapply view_packed; eauto|apply view_same; assumption]. Qed.
Print Assumptions view_packed_in_order.

(** Accepted connections that deliver wrong data. *)
Definition all (_ : string) : bool := true.
Definition vec (n : nat) (idx : option (list Z)) : meta := add_variable None (Some (SInt n)) None idx.

(** four indices for a parameter of three entries: the last one is written into
    the next parameter *)
Theorem delivery_spill_refuted : exists conns params unknowns w,
    check_connections conns params unknowns = Ok [] /\
    setup_group "" (fun _ => 0%Z) all all conns params unknowns = Ok w /\
    sget conns "b.q" = Some "a.u" /\ sget params "b.q" = Some (vec 3 None) /\
    option_map t_slice (sget (g_dat w) "b.q") = Some (Some (3, 6)) /\
    exists pvec', transfer_data w "b" [10; 20; 30]%Z [0; 0; 0; 0; 0; 0]%Z = Ok pvec' /\
      slice_val pvec' (3, 6) = [30; 20; 30]%Z.
Proof.
  exists [("b.q", "a.u"); ("b.p", "a.u")], [("b.p", vec 3 (Some [0; 1; 2; 2]%Z)); ("b.q", vec 3 None)], [("a.u", vec 3 None)].
  eexists. split; [reflexivity|]. split; [reflexivity|]. repeat (split; [reflexivity|]).
  eexists. split; reflexivity.
Qed.
Print Assumptions delivery_spill_refuted.

(** an object source with indices: the room set aside for its target shifts the
    next parameter, which never gets its data *)
Theorem delivery_gap_refuted : exists conns params unknowns w,
    check_connections conns params unknowns = Ok [] /\
    setup_group "" (fun _ => 0%Z) all all conns params unknowns = Ok w /\
    sget conns "b.q" = Some "a.u" /\ sget params "b.q" = Some (vec 2 None) /\
    option_map t_slice (sget (g_dat w) "b.q") = Some (Some (2, 4)) /\
    forall uvec pvec : list Z, length uvec = 2 -> length pvec = 4 ->
      exists pvec', transfer_data w "b" uvec pvec = Ok pvec' /\ slice_val pvec' (2, 4) = slice_val pvec (2, 4).
Proof.
  exists [("b.p", "a.o"); ("b.q", "a.u")], [("b.p", vec 2 (Some [0; 1]%Z)); ("b.q", vec 2 None)],
         [("a.o", add_variable (Some (VArr false [3])) None None None); ("a.u", vec 2 None)].
  eexists. split; [reflexivity|]. split; [reflexivity|]. repeat (split; [reflexivity|]).
  intros [|u1 [|u2 [|? ?]]] [|p1 [|p2 [|p3 [|p4 [|? ?]]]]] H K; try discriminate.
  eexists. split; reflexivity.
Qed.
Print Assumptions delivery_gap_refuted.

(** a negative index behind the key 'pass_by_obj': the index that is used is
    whatever the memory held *)
Theorem delivery_junk_refuted : exists conns params unknowns,
    check_connections conns params unknowns = Ok [] /\
    forall g, exists w, setup_group "" (fun _ => g) all all conns params unknowns = Ok w /\
      forall uvec : list Z, length uvec = 4 -> (0 <= g < 4)%Z -> forall x,
        transfer_data w "b" uvec [x] = Ok [nth (Z.to_nat g) uvec 0%Z].
Proof.
  exists [("b.p", "a.u")], [("b.p", add_variable (Some (VArr true [1])) None None (Some [(-1)%Z]))],
         [("a.u", add_variable (Some (VArr true [2])) None (Some false) None); ("a.v", vec 2 None)].
  split; [reflexivity|]. intros g. eexists. split; [reflexivity|].
  intros [|u1 [|u2 [|u3 [|u4 [|? ?]]]]] H R x; try discriminate.
  assert (C : (g = 0 \/ g = 1 \/ g = 2 \/ g = 3)%Z) by lia.
  destruct C as [-> |[-> |[-> | ->]]]; reflexivity.
Qed.
Print Assumptions delivery_junk_refuted.

(** a parameter passed by object with a source in the vector passes the checks
    and then breaks setup *)
Theorem delivery_object_target_refuted : exists conns params unknowns,
    check_connections conns params unknowns = Ok [] /\
    setup_group "" (fun _ => 0%Z) all all conns params unknowns = Err KeyError.
Proof.
  exists [("b.p", "a.u")], [("b.p", add_variable (Some (VArr true [2])) None (Some true) None)], [("a.u", vec 2 None)].
  split; reflexivity.
Qed.
Print Assumptions delivery_object_target_refuted.

Example C78_ex :
  let conns := [("g.c.p", "g.a.u"); ("g.b.q", "g.a.v"); ("g.c.o", "g.a.o"); ("g.c.r", "g.b.w")] in
  let params := [("g.b.q", vec 2 None); ("g.c.p", vec 2 (Some [2; 0]%Z));
                 ("g.c.o", add_variable (Some (VOther "str")) None None None); ("g.c.r", vec 2 None)] in
  let unknowns := [("g.a.o", add_variable (Some (VOther "str")) None None None);
                   ("g.a.u", vec 3 None); ("g.a.v", vec 2 None); ("g.b.w", vec 2 None)] in
  let udat := [("g.a.o", mkAcc None (LCell "g.a.o") true 0); ("g.a.u", mkAcc (Some (0, 3)) (LVec 0 3) false 3);
               ("g.a.v", mkAcc (Some (3, 5)) (LVec 3 5) false 2); ("g.b.w", mkAcc (Some (5, 7)) (LVec 5 7) false 2)] in
  check_connections conns params unknowns = Ok [] /\
  legal_group all all conns params unknowns /\ stores all unknowns udat /\ packed 0 udat /\
  exists w, setup_group "g" (fun _ => 0%Z) all all conns params unknowns = Ok w /\
    transfer_data w "c" [1; 2; 3; 4; 5; 6; 7]%Z [0; 0; 0; 0; 0; 0]%Z = Ok [0; 0; 3; 1; 6; 7]%Z /\
    transfer_data w "" [1; 2; 3; 4; 5; 6; 7]%Z [0; 0; 0; 0; 0; 0]%Z = Ok [4; 5; 3; 1; 6; 7]%Z.
Proof.
  cbv zeta.
  match goal with |- ?C /\ _ => assert (X : C) by reflexivity end.
  split; [exact X|]. split; [|split; [|split]].
  - apply accepted_legal; try exact X.
    + repeat constructor; simpl; intuition discriminate.
    + repeat constructor; simpl; intuition discriminate.
    + repeat constructor; simpl; intuition discriminate.
    + intros p t I _ _. simpl in I |- *. intuition congruence.
    + assert (V : forall n i, 1 < n -> vector_meta (vec n i) /\ m_pbo (vec n i) = None /\ m_size (vec n i) = n).
      { intros n i H. unfold vec, add_variable. simpl. destruct n as [|[|n]]; try lia. simpl. split; [|split; [reflexivity|lia]].
        split; [reflexivity|]. eexists. split; [reflexivity|]. simpl. lia. }
      intros p src t s I J K. simpl in I, J, K.
      repeat (destruct I as [I|I]; [inversion I; subst; clear I|]); try contradiction;
        repeat (destruct J as [J|J]; [inversion J; subst; clear J|]); try contradiction;
        repeat (destruct K as [K|K]; [inversion K; subst; clear K|]); try contradiction;
        first [left; repeat split; reflexivity
              |right; split; [reflexivity|]; split; [apply V; lia|]; split; [apply V; lia|];
               split; [reflexivity|]; split; [vm_compute; lia|];
               intros l E F; inversion E; subst; simpl in F; inversion F].
  - repeat constructor; simpl; try reflexivity; intros; try discriminate; auto.
  - simpl. auto 20.
  - eexists. split; [vm_compute; reflexivity|]. split; vm_compute; reflexivity.
Qed.

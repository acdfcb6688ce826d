(** C104: the metadata that Problem.setup derives for connected params. *)
From Verif Require Import Base BaseFacts UnitsModel UnitsSpec SmModel SmSpec SmProofs.
From Coq Require Import Permutation.
Local Open Scope string_scope.

(** After a first setup each connected param has the right shape, the source
    indices of its connection and a conversion that makes it read the same
    physical quantity as its source.  A param without a declared shape starts
    with the source's value, or the entries of it that will be transferred.
    Other params are untouched.  The connections reported are exactly those
    between units of different dimensions, each once. *)
Theorem C104_first_setup : forall find_unit us cs ps,
  NoDup (map fst cs) ->
  Forall (sound find_unit us ps) cs ->
  (forall n t, In n (map fst cs) -> sget ps n = Some t -> fresh t) ->
  exists ps' errs, setup_meta find_unit us cs ps = Ok (ps', errs) /\
    dkeys ps' = dkeys ps /\
    (forall n, ~ In n (map fst cs) -> sget ps' n = sget ps n) /\
    (forall tgt src idxs t u, In (tgt, (src, idxs)) cs -> sget ps tgt = Some t -> sget us src = Some u ->
      exists t', sget ps' tgt = Some t' /\
        pm_units t' = pm_units t /\ pm_pbo t' = pm_pbo t /\
        pm_shape t' = right_shape t u idxs /\
        pm_src t' = (if pm_pbo t then None else idxs) /\
        (~ incompatible find_unit t u -> reads_source find_unit t u (read_param t')) /\
        (pm_pbo t = true \/ pm_shape t <> ShEmpty -> pm_size t' = pm_size t /\ pm_val t' = pm_val t) /\
        (pm_pbo t = false -> pm_shape t = ShEmpty -> idxs = None ->
           pm_size t' = um_size u /\ pm_val t' = um_val u) /\
        (forall l, pm_pbo t = false -> pm_shape t = ShEmpty -> idxs = Some l ->
           pm_size t' = length l /\
           (um_shape u = ShTuple (length (um_val u)) [] -> pm_val t' = transferred t' (um_val u)))) /\
    NoDup errs /\
    (forall tgt src, In (tgt, src) errs <->
       exists idxs t u, In (tgt, (src, idxs)) cs /\ sget ps tgt = Some t /\ sget us src = Some u /\
         incompatible find_unit t u).
Proof.
  intros find_unit us cs ps Hn Hs Hf. rewrite Forall_forall in Hs.
  destruct (setup_ok find_unit us cs ps Hn) as [[ps' errs] E].
  { intros c Hin. destruct (Hs c Hin) as (t & u & Ht & Hu & K1 & K2 & Hi).
    destruct (link_f_sound us c t u Hu Hi) as [t1 E1].
    destruct (link_f_fields _ _ _ _ _ E1) as (_ & U1 & _).
    destruct (unit_meta_known find_unit t1 u) as [r Er]; [rewrite U1; exact K1|exact K2|].
    exists t, t1, u, r. auto. }
  exists ps', errs. split; [exact E|].
  destruct (setup_point _ _ _ _ _ _ Hn E) as (K & O & P). split; [exact K|]. split; [exact O|].
  assert (Hcore : forall c, In c cs -> exists t t1 t' u b, sget ps (fst c) = Some t /\
    sget us (fst (snd c)) = Some u /\ link_f us c t = Ok (t1, false) /\
    unit_meta find_unit t1 u = Ok (t', b) /\ sget ps' (fst c) = Some t' /\ fresh t /\
    (b = true <-> incompatible find_unit t u) /\ flag find_unit us ps' c = b).
  { intros c Hin. destruct (P c Hin) as (t & t1 & t' & u & b & A1 & A2 & A3 & A4 & A5).
    exists t, t1, t', u, b. repeat (split; [assumption|]).
    split; [eapply Hf; [apply in_map; exact Hin|exact A1]|].
    destruct (link_f_fields _ _ _ _ _ A3) as (_ & U1 & _).
    destruct (unit_meta_fields _ _ _ _ _ A4) as (_&_&_&_&_&_&F&I).
    unfold incompatible in *. rewrite U1 in I. split; [exact I|].
    unfold flag, reported, unit_f. rewrite A5, A2, F. reflexivity. }
  split; [|split].
  - intros tgt src idxs t u Hin Ht Hu.
    destruct (Hcore _ Hin) as (s & t1 & t' & w & b & A1 & A2 & A3 & A4 & A5 & [F1 F2] & I & _).
    cbn [fst snd] in *. rewrite Ht in A1. injection A1 as <-. rewrite Hu in A2. injection A2 as <-.
    exists t'. split; [exact A5|].
    destruct (link_f_fields _ _ _ _ _ A3) as (_ & U1 & U2 & U3 & _).
    destruct (unit_meta_fields _ _ _ _ _ A4) as (V1&V2&V3&V4&V5&V6&_&_).
    destruct (link_f_spec _ _ _ _ _ A3 Hu) as (L1 & L2 & L3 & L4 & L5). cbn [fst snd] in *.
    split; [congruence|]. split; [congruence|]. split; [congruence|].
    split.
    { rewrite V6. destruct (pm_pbo t); [rewrite L3 by reflexivity; exact F1|].
      rewrite L2 by reflexivity. destruct idxs; [reflexivity|exact F1]. }
    split.
    { intro Hni. assert (R : reads_source find_unit t1 u (read_param t')).
      { eapply unit_meta_reads; [|exact A4|]; [congruence|].
        destruct b; [|reflexivity]. exfalso. apply Hni. apply I. reflexivity. }
      unfold reads_source in *. rewrite U1 in R. exact R. }
    split.
    { rewrite V4, V5. intros [Hp|Hp]; [rewrite L3 by exact Hp; auto|auto]. }
    split.
    { rewrite V4, V5. intros Hp He ->. exact (L5 Hp He). }
    intros l Hp He ->. destruct (L5 Hp He) as [Z1 Z2]. rewrite V4, V5. split; [exact Z1|].
    intro Hsh. rewrite (Z2 _ Hsh eq_refl). unfold transferred. rewrite V6, (L2 Hp). reflexivity.
  - rewrite (setup_errs _ _ _ _ _ _ Hn E).
    assert (G : forall l : conns, NoDup (map fst l) -> NoDup (map cpair (filter (flag find_unit us ps') l))).
    { induction l as [|c l IH]; intro Hl; cbn; [constructor|]. cbn in Hl. inversion Hl as [|? ? N1 N2]; subst.
      destruct (flag find_unit us ps' c); [|auto]. cbn. constructor; [|auto].
      intro Hin. apply N1. apply in_map_iff in Hin. destruct Hin as (d & Ed & Hd).
      apply filter_In in Hd. unfold cpair in Ed. injection Ed as Ed _. rewrite <- Ed. apply in_map. apply Hd. }
    apply G. exact Hn.
  - intros tgt src. rewrite (setup_errs _ _ _ _ _ _ Hn E). split.
    + intro Hin. apply in_map_iff in Hin. destruct Hin as ([a [b i]] & Ed & Hd). unfold cpair in Ed. cbn in Ed.
      injection Ed as <- <-. apply filter_In in Hd. destruct Hd as [Hd Hfl].
      destruct (Hcore _ Hd) as (t & t1 & t' & u & bb & A1 & A2 & A3 & A4 & A5 & _ & I & F). cbn [fst snd] in *.
      exists i, t, u. repeat (split; [assumption|]). apply I. congruence.
    + intros (i & t & u & Hin & Ht & Hu & Hinc).
      apply in_map_iff. exists (tgt, (src, i)). split; [reflexivity|]. apply filter_In. split; [exact Hin|].
      destruct (Hcore _ Hin) as (s & t1 & t' & w & bb & A1 & A2 & A3 & A4 & A5 & _ & I & F). cbn [fst snd] in *.
      rewrite Ht in A1. injection A1 as <-. rewrite Hu in A2. injection A2 as <-. rewrite F. apply I. exact Hinc.
Qed.
Print Assumptions C104_first_setup.

(** A second setup with the same connections and sources changes nothing and
    reports the same, whatever state the first one started from. *)
Theorem C104_repeated_setup : forall find_unit us cs ps ps' errs,
  NoDup (map fst cs) ->
  setup_meta find_unit us cs ps = Ok (ps', errs) ->
  setup_meta find_unit us cs ps' = Ok (ps', errs).
Proof. intros. eapply setup_fix; eassumption. Qed.
Print Assumptions C104_repeated_setup.

(** The order of the connections does not matter. *)
Theorem C104_order : forall find_unit us cs cs' ps ps' errs,
  NoDup (map fst cs) -> Permutation cs cs' ->
  setup_meta find_unit us cs ps = Ok (ps', errs) ->
  exists ps2 errs2, setup_meta find_unit us cs' ps = Ok (ps2, errs2) /\
    (forall n, sget ps2 n = sget ps' n) /\ Permutation errs errs2.
Proof. intros. eapply setup_perm; eassumption. Qed.
Print Assumptions C104_order.

(** *** Witnesses *)
Definition w_units (s : string) : res punit :=
  if String.eqb s "m" then Ok (mkUnit 1 [1%Z; 0%Z] 0)
  else if String.eqb s "km" then Ok (mkUnit 1000 [1%Z; 0%Z] 0)
  else if String.eqb s "degK" then Ok (mkUnit 1 [0%Z; 1%Z] 0)
  else if String.eqb s "degC" then Ok (mkUnit 1 [0%Z; 1%Z] (27315 # 100))
  else Err ValueError.

Definition w_us : list (string * umeta) :=
  [("a.y", mkU (Some "km") (ShTuple 3 []) 3 [10; 20; 30]%Q);
   ("b.y", mkU (Some "m") (ShTuple 3 []) 3 [1; 2; 3]%Q);
   ("c.t", mkU (Some "degC") ShOne 1 [20]%Q);
   ("e.y", mkU None (ShTuple 4 []) 4 [1; 2; 3; 4]%Q);
   ("f.y", mkU None (ShTuple 2 [3%nat]) 6 [1; 2; 3; 4; 5; 6]%Q)].

Definition w_param (un : option string) : pmeta := mkP un false ShEmpty 1 [0]%Q None None.

Definition w_ps : list (string * pmeta) :=
  [("d.x", w_param (Some "m")); ("d.t", mkP (Some "degK") false ShOne 1 [0]%Q None None);
   ("d.w", w_param (Some "degK")); ("d.z", w_param None)].

Example C104_case :
  let cs := [("d.x", ("a.y", Some [2; 0]%nat)); ("d.t", ("c.t", None)); ("d.w", ("b.y", None))] in
  NoDup (map fst cs) /\ Forall (sound w_units w_us w_ps) cs /\
  (forall n t, In n (map fst cs) -> sget w_ps n = Some t -> fresh t) /\
  exists ps', setup_meta w_units w_us cs w_ps = Ok (ps', [("d.w", "b.y")]) /\
    (exists t, sget ps' "d.x" = Some t /\ pm_shape t = ShTuple 2 [] /\ pm_val t = [30; 10]%Q /\
      read_param t 2 == 2000)%Q /\
    (exists t, sget ps' "d.t" = Some t /\ (read_param t 20 == 29315 # 100)%Q) /\
    sget ps' "d.z" = sget w_ps "d.z".
Proof.
  cbv zeta. split; [|split; [|split]].
  - repeat constructor; cbn; intuition discriminate.
  - assert (K : forall s v, w_units s = Ok v -> scaled v -> known w_units (Some s)) by (intros s v; exists v; auto).
    assert (Hm : known w_units (Some "m")) by (eapply K; [reflexivity|intro E; discriminate E]).
    assert (Hkm : known w_units (Some "km")) by (eapply K; [reflexivity|intro E; discriminate E]).
    assert (Hk : known w_units (Some "degK")) by (eapply K; [reflexivity|intro E; discriminate E]).
    assert (Hc : known w_units (Some "degC")) by (eapply K; [reflexivity|intro E; discriminate E]).
    repeat constructor; eexists; eexists; (split; [reflexivity|]); (split; [reflexivity|]);
      (split; [assumption|]); (split; [assumption|]); cbn; intros _ _; try exact I.
    exists 3%nat, []. split; [reflexivity|]. repeat constructor; lia.
  - intros n t [<-|[<-|[<-|[]]]] H; injection H as <-; split; reflexivity.
  - eexists. split; [reflexivity|]. split; [|split].
    + eexists. repeat split; reflexivity.
    + eexists. split; reflexivity.
    + reflexivity.
Qed.

(** The metadata are kept from one setup to the next, and a conversion, source
    indices or a shape that the new connection does not overwrite stay.  A
    param in metres that was connected to a source in kilometres and is then
    connected to one in metres still multiplies by 1000. *)
Theorem C104_units_stale_refuted : exists us cs1 cs2 ps ps1 ps2 t u,
  setup_meta w_units us cs1 ps = Ok (ps1, []) /\ setup_meta w_units us cs2 ps1 = Ok (ps2, []) /\
  (forall n s, sget ps n = Some s -> fresh s) /\
  In ("d.x", ("b.y", None)) cs2 /\ sget ps2 "d.x" = Some t /\ sget us "b.y" = Some u /\
  pm_units t = um_units u /\ (forall x, read_param t x == 1000 * x)%Q /\
  ~ reads_source w_units t u (read_param t).
Proof.
  exists w_us, [("d.x", ("a.y", None))], [("d.x", ("b.y", None))], [("d.x", w_param (Some "m"))].
  do 4 eexists. split; [reflexivity|]. split; [reflexivity|].
  split. { intros n s H. cbn in H. destruct (String.eqb n "d.x"); [|discriminate]. injection H as <-. split; reflexivity. }
  split; [left; reflexivity|]. split; [reflexivity|]. split; [reflexivity|]. split; [reflexivity|]. split.
  - intro x. unfold read_param, get_param_units. cbn. field.
  - unfold reads_source. cbn. intro H.
    specialize (H _ _ 1%Q eq_refl eq_refl).
    assert (S : scaled (mkUnit 1 [1%Z; 0%Z] 0)) by (intro E; discriminate E).
    specialize (H S S eq_refl). vm_compute in H. discriminate H.
Qed.
Print Assumptions C104_units_stale_refuted.

(** source indices and shape: a param that took entries 2 and 0 of one source
    takes the same two entries of the next source, although this connection
    has no indices *)
Theorem C104_indices_stale_refuted : exists us cs1 cs2 ps ps1 ps2 t u,
  setup_meta w_units us cs1 ps = Ok (ps1, []) /\ setup_meta w_units us cs2 ps1 = Ok (ps2, []) /\
  (forall n s, sget ps n = Some s -> fresh s /\ pm_shape s = ShEmpty) /\
  In ("d.z", ("e.y", None)) cs2 /\ sget ps2 "d.z" = Some t /\ sget us "e.y" = Some u /\
  um_shape u = ShTuple 4 [] /\ pm_shape t = ShTuple 2 [] /\ transferred t (um_val u) = [3; 1]%Q.
Proof.
  exists w_us, [("d.z", ("a.y", Some [2; 0]%nat))], [("d.z", ("e.y", None))], [("d.z", w_param None)].
  do 4 eexists. split; [reflexivity|]. split; [reflexivity|].
  split. { intros n s H. cbn in H. destruct (String.eqb n "d.z"); [|discriminate]. injection H as <-. repeat split. }
  split; [left; reflexivity|]. repeat split; reflexivity.
Qed.
Print Assumptions C104_indices_stale_refuted.

(** For a source with more than one axis the value that a param without a
    shape starts with does not fit its own size: the indices select rows where
    the transfer selects entries. *)
Theorem C104_rows_refuted : exists us cs ps ps' t u,
  setup_meta w_units us cs ps = Ok (ps', []) /\
  (forall n s, sget ps n = Some s -> fresh s) /\
  sget ps' "d.z" = Some t /\ sget us "f.y" = Some u /\ cs = [("d.z", ("f.y", Some [1%nat]))] /\
  pm_size t = 1%nat /\ pm_shape t = ShTuple 1 [] /\ pm_val t = [4; 5; 6]%Q /\
  transferred t (um_val u) = [2]%Q.
Proof.
  exists w_us, [("d.z", ("f.y", Some [1%nat]))], [("d.z", w_param None)].
  do 3 eexists. split; [reflexivity|].
  split. { intros n s H. cbn in H. destruct (String.eqb n "d.z"); [|discriminate]. injection H as <-. split; reflexivity. }
  repeat split; reflexivity.
Qed.
Print Assumptions C104_rows_refuted.
(** ... and an index beyond the number of rows, which the transfer accepts,
    stops setup; so does any index of a scalar source. *)
Theorem C104_index_error_refuted : exists us ps,
  (forall n s, sget ps n = Some s -> fresh s) /\
  setup_meta w_units us [("d.z", ("f.y", Some [5%nat]))] ps = Err IndexError /\
  (exists u, sget us "f.y" = Some u /\ (5 < um_size u)%nat) /\
  setup_meta w_units us [("d.z", ("c.t", Some [0%nat]))] ps = Err TypeError /\
  (exists u, sget us "c.t" = Some u /\ (0 < um_size u)%nat).
Proof.
  exists w_us, [("d.z", w_param None)].
  split. { intros n s H. cbn in H. destruct (String.eqb n "d.z"); [|discriminate]. injection H as <-. split; reflexivity. }
  repeat split; try reflexivity; eexists; (split; [reflexivity|]); cbn; lia.
Qed.
Print Assumptions C104_index_error_refuted.

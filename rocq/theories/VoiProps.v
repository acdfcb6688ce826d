(** Property theorems for the groups of variables of interest: C107. *)
From Coq Require Import Permutation.
From Verif Require Import Base DriverModel VoiModel VoiSpec VoiProofs GradModel GradSpec.
Local Open Scope string_scope.

(** ** helpers: the state in terms of the calls *)
Lemma key_In : forall (l : list (string * meta)) n, In n (dkeys l) <-> exists m, In (n, m) l.
Proof.
  intros l n. unfold dkeys. rewrite in_map_iff. split.
  - intros [[k m] [<- H]]. now exists m.
  - intros [m H]. now exists (n, m).
Qed.
Section Calls.
  Context (mpi multi : bool) (cs : list call).
  Let d := program mpi multi cs.
  Lemma dv_key : forall n, In n (dkeys (d_desvars d)) <-> exists k m, accepted mpi multi cs k (AddDesvar n m).
  Proof.
    intros n. rewrite key_In. unfold d. setoid_rewrite (tr_dv _ _ _ _ (trace mpi multi cs)). split.
    - intros [m [k [m' [H _]]]]. eauto.
    - intros [k [m H]]. exists (stored m), k, m. auto.
  Qed.
  Lemma ob_key : forall n, In n (dkeys (d_objs d)) <-> exists k m, accepted mpi multi cs k (AddObjective n m).
  Proof.
    intros n. rewrite key_In. unfold d. setoid_rewrite (tr_ob _ _ _ _ (trace mpi multi cs)). split.
    - intros [m [k [m' [H _]]]]. eauto.
    - intros [k [m H]]. exists (stored m), k, m. auto.
  Qed.
  Lemma co_key : forall n, In n (dkeys (d_cons d)) <-> exists k m, accepted mpi multi cs k (AddConstraint n m).
  Proof.
    intros n. rewrite key_In. unfold d. setoid_rewrite (tr_co _ _ _ _ (trace mpi multi cs)). split.
    - intros [m [k [m' [H _]]]]. eauto.
    - intros [k [m H]]. exists (stored m), k, m. auto.
  Qed.
  Lemma set_together : mpi = true -> forall a b, together mpi multi cs a b <-> exists s, In s (d_sets d) /\ In a s /\ In b s.
  Proof.
    intros Hm a b. unfold d. setoid_rewrite (tr_set _ _ _ _ (trace mpi multi cs)). split.
    - intros [k [vn [H [H1 H2]]]]. exists vn. eauto.
    - intros [s [[_ [k H]] [H1 H2]]]. exists k, s. auto.
  Qed.
  Lemma no_sets : mpi = false -> d_sets d = [].
  Proof.
    intros Hm. destruct (d_sets d) as [|s l] eqn:E; [reflexivity|].
    assert (H : In s (d_sets d)) by (rewrite E; now left). apply (tr_set _ _ _ _ (trace mpi multi cs)) in H as [H _]. congruence.
  Qed.
End Calls.

(** C107: a call of parallel_derivs is accepted exactly when its variables are
    declared, none is in an earlier group, and they are different design variables
    or none is a design variable *)
Theorem C107_accept : forall multi cs k vn, nth_error cs k = Some (ParallelDerivs vn) ->
  (accepted true multi cs k (ParallelDerivs vn) <->
   (forall n, In n vn -> declared true multi cs k n /\ ~ grouped true multi cs k n) /\
   ((forall n, In n vn -> ~ is_desvar true multi cs k n) \/ NoDup vn /\ forall n, In n vn -> is_desvar true multi cs k n)).
Proof.
  intros multi cs k vn Hk.
  assert (Hf : forall (f : string -> meta -> call) n, (exists j m, (j < k)%nat /\ accepted true multi cs j (f n m)) <->
                 exists j m, accepted true multi (firstn k cs) j (f n m)).
  { intros f n. split; intros [j [m H]]; exists j, m.
    - destruct H as [Hj H]. now apply accepted_firstn.
    - assert (Hj : (j < k)%nat). { destruct H as [H _]. assert (j < length (firstn k cs))%nat by (apply nth_error_Some; congruence). rewrite firstn_length in H0. lia. }
      split; [exact Hj|]. eapply accepted_firstn; eassumption. }
  set (d := program true multi (firstn k cs)).
  assert (Hdv : forall n, is_desvar true multi cs k n <-> hask (d_desvars d) n = true).
  { intros n. rewrite hask_In. unfold d. rewrite dv_key. apply (Hf AddDesvar). }
  assert (Hde : forall n, declared true multi cs k n <-> hask (d_desvars d) n || hask (d_objs d) n || hask (d_cons d) n = true).
  { intros n. rewrite !orb_true_iff, !hask_In. unfold d. rewrite dv_key, ob_key, co_key, <- (Hf AddDesvar), <- (Hf AddObjective), <- (Hf AddConstraint).
    split.
    - intros [j [m [Hj [H|[H|H]]]]]; eauto 8.
    - intros [[H|H]|H]; destruct H as [j [m [Hj H]]]; exists j, m; auto. }
  assert (Hgr : forall n, grouped true multi cs k n <-> exists s, In s (d_sets d) /\ In n s).
  { intros n. unfold d. setoid_rewrite (tr_set _ _ _ _ (trace true multi (firstn k cs))). split.
    - intros [j [s [Hj [H Hn]]]]. exists s. split; [split; [reflexivity|]|exact Hn]. exists j. now apply accepted_firstn.
    - intros [s [[_ [j H]] Hn]]. exists j, s.
      assert (Hj : (j < k)%nat). { destruct H as [H _]. assert (j < length (firstn k cs))%nat by (apply nth_error_Some; congruence). rewrite firstn_length in H0. lia. }
      split; [exact Hj|]. split; [|exact Hn]. eapply accepted_firstn; eassumption. }
  assert (A : accepted true multi cs k (ParallelDerivs vn) <-> exists d', parallel_derivs true d vn = Ok d').
  { unfold accepted. fold d. cbn [perform]. tauto. }
  rewrite A. unfold parallel_derivs.
  set (b1 := forallb _ vn). set (b2 := existsb _ (d_sets d)). set (b3 := _ && _).
  assert (B1 : b1 = true <-> forall n, In n vn -> declared true multi cs k n).
  { unfold b1. rewrite forallb_forall. split; intros H n Hn; [apply Hde|apply Hde]; auto. }
  assert (B2 : b2 = false <-> forall n, In n vn -> ~ grouped true multi cs k n).
  { unfold b2. split.
    - intros H n Hn Hg. apply Hgr in Hg as [s [Hs Hi]]. apply Bool.not_true_iff_false in H. apply H. apply existsb_exists. exists s. split; [exact Hs|].
      apply existsb_exists. exists n. split; [exact Hn|now apply has_In].
    - intros H. apply Bool.not_true_iff_false. intros Hb. apply existsb_exists in Hb as [s [Hs Hb]]. apply existsb_exists in Hb as [n [Hn Hb]].
      apply (H n Hn). apply Hgr. exists s. split; [exact Hs|now apply has_In]. }
  assert (B3 : b3 = false <-> (forall n, In n vn -> ~ is_desvar true multi cs k n) \/ NoDup vn /\ forall n, In n vn -> is_desvar true multi cs k n).
  { unfold b3. rewrite mixture. setoid_rewrite Hdv. split; (intros [H|[N H]]; [left; intros n Hn|right; split; [exact N|exact H]]).
    - rewrite (H n Hn). discriminate.
    - apply Bool.not_true_iff_false. now apply H. }
  split.
  - intros [d' E]. destruct b1 eqn:E1; [|discriminate]. cbn [negb] in E. destruct b2 eqn:E2; [discriminate|]. destruct b3 eqn:E3; [discriminate|].
    split; [|now apply B3]. intros n Hn. split; [now apply B1|now apply B2].
  - intros [H1 H2]. replace b1 with true by (symmetry; apply B1; intros; now apply H1). cbn [negb].
    replace b2 with false by (symmetry; apply B2; intros; now apply H1). replace b3 with false by (symmetry; now apply B3). eauto.
Qed.
Print Assumptions C107_accept.

(** C107: whatever calls were made, the design variables are grouped as declared;
    so are the outputs, when no objective is also a constraint *)
Theorem C107_groups : forall multi cs, let d := program true multi cs in
  (exists gs, desvars_of_interest d = Ok gs /\ grouping (dkeys (d_desvars d)) (together true multi cs) gs) /\
  ((forall n, In n (dkeys (d_objs d)) -> ~ In n (dkeys (d_cons d))) ->
   exists gs, outputs_of_interest d = Ok gs /\ grouping (dkeys (d_objs d) ++ dkeys (d_cons d))%list (together true multi cs) gs).
Proof.
  intros multi cs d. pose proof (trace true multi cs) as T. fold d in T. split.
  - apply of_interest_grouping; [exact (tr_dvN _ _ _ _ T)|exact (tr_dis _ _ _ _ T)|]. now apply set_together.
  - intros H. apply of_interest_grouping; [|exact (tr_dis _ _ _ _ T)|now apply set_together].
    pose proof (tr_obN _ _ _ _ T) as N1. pose proof (tr_coN _ _ _ _ T) as N2. revert H N1 N2. generalize (dkeys (d_objs d)) (dkeys (d_cons d)).
    induction l as [|a l IH]; intros l2 H N1 N2; [exact N2|]. inversion N1; subst. cbn. constructor.
    + rewrite in_app_iff. intros [X|X]; [contradiction|]. exact (H a (or_introl eq_refl) X).
    + apply IH; auto. intros n Hn. apply H. now right.
Qed.
Print Assumptions C107_groups.

(** the names are those of the accepted calls, in their order *)
Theorem C107_order : forall mpi multi cs, let d := program mpi multi cs in
  in_order mpi multi cs AddDesvar (dkeys (d_desvars d)) /\ in_order mpi multi cs AddObjective (dkeys (d_objs d)) /\
  in_order mpi multi cs AddConstraint (dkeys (d_cons d)).
Proof. exact program_order. Qed.
Print Assumptions C107_order.
Theorem C107_names : forall mpi multi cs n, let d := program mpi multi cs in
  (In n (dkeys (d_desvars d)) <-> exists k m, accepted mpi multi cs k (AddDesvar n m)) /\
  (In n (dkeys (d_objs d)) <-> exists k m, accepted mpi multi cs k (AddObjective n m)) /\
  (In n (dkeys (d_cons d)) <-> exists k m, accepted mpi multi cs k (AddConstraint n m)).
Proof. intros mpi multi cs n d. split; [apply dv_key|split; [apply ob_key|apply co_key]]. Qed.
Print Assumptions C107_names.

(** C107: without MPI every variable is alone *)
Theorem C107_serial : forall multi cs, let d := program false multi cs in
  desvars_of_interest d = Ok (map (fun v => [v]) (dkeys (d_desvars d))) /\
  outputs_of_interest d = Ok (map (fun v => [v]) (dkeys (d_objs d) ++ dkeys (d_cons d))%list).
Proof.
  intros multi cs d. unfold desvars_of_interest, outputs_of_interest. unfold d. rewrite no_sets by reflexivity. split; apply of_interest_none.
Qed.
Print Assumptions C107_serial.

(** C107 fails for an objective that is also a constraint: in a group, setup stops
    with a KeyError *)
Theorem C107_both_refuted : forall multi cs n, let d := program true multi cs in
  In n (dkeys (d_objs d)) -> In n (dkeys (d_cons d)) -> together true multi cs n n -> outputs_of_interest d = Err KeyError.
Proof.
  intros multi cs n d H1 H2 H3. apply set_together in H3 as [s [Hs [Hn _]]]; [|reflexivity]. exact (of_interest_key_error _ _ _ n s H1 H2 Hs Hn).
Qed.
Print Assumptions C107_both_refuted.
(** in no group, it is there twice *)
Theorem C107_twice_refuted : forall mpi multi cs n gs, let d := program mpi multi cs in
  In n (dkeys (d_objs d)) -> In n (dkeys (d_cons d)) -> ~ together mpi multi cs n n -> outputs_of_interest d = Ok gs ->
  exists a b c, gs = (a ++ [n] :: b ++ [n] :: c)%list.
Proof.
  intros mpi multi cs n gs d H1 H2 H3 E. refine (of_interest_twice _ _ _ n gs H1 H2 _ E). intros s Hs Hn. apply H3.
  destruct mpi; [apply set_together; eauto|]. unfold d in Hs. rewrite no_sets in Hs by reflexivity. destruct Hs.
Qed.
Print Assumptions C107_twice_refuted.

(** C107: the indices are those of the declaration *)
Theorem C107_indices : forall mpi multi cs n, let d := program mpi multi cs in let (poi, qoi) := map_voi_indices d in
  (forall k m, accepted mpi multi cs k (AddDesvar n m) -> sget poi n = asked_indices m) /\
  (~ (exists k m, accepted mpi multi cs k (AddDesvar n m)) -> sget poi n = None) /\
  (forall k m, accepted mpi multi cs k (AddObjective n m) -> ~ (exists k m, accepted mpi multi cs k (AddConstraint n m)) ->
     sget qoi n = asked_indices m) /\
  (forall k m, accepted mpi multi cs k (AddConstraint n m) -> ~ (exists k m, accepted mpi multi cs k (AddObjective n m)) ->
     sget qoi n = asked_indices m) /\
  (~ (exists k m, accepted mpi multi cs k (AddObjective n m)) -> ~ (exists k m, accepted mpi multi cs k (AddConstraint n m)) ->
     sget qoi n = None).
Proof.
  intros mpi multi cs n d. unfold map_voi_indices. pose proof (trace mpi multi cs) as T. fold d in T.
  assert (D : forall k m, accepted mpi multi cs k (AddDesvar n m) -> In (n, stored m) (d_desvars d)) by (intros k m H; apply (tr_dv _ _ _ _ T); eauto).
  assert (O : forall k m, accepted mpi multi cs k (AddObjective n m) -> In (n, stored m) (d_objs d)) by (intros k m H; apply (tr_ob _ _ _ _ T); eauto).
  assert (C : forall k m, accepted mpi multi cs k (AddConstraint n m) -> In (n, stored m) (d_cons d)) by (intros k m H; apply (tr_co _ _ _ _ T); eauto).
  repeat apply conj.
  - intros k m H. rewrite (map_indices_in _ _ n (stored m)); [now rewrite stored_asked; destruct (asked_indices m)|exact (tr_dvN _ _ _ _ T)|eauto].
  - intros H. rewrite map_indices_other; [reflexivity|]. unfold d. now rewrite dv_key.
  - intros k m H H'. rewrite (map_indices_in _ _ n (stored m)); [|exact (tr_obN _ _ _ _ T)|eauto].
    rewrite map_indices_other; [now rewrite stored_asked; destruct (asked_indices m)|]. unfold d. now rewrite co_key.
  - intros k m H H'. rewrite map_indices_other; [|unfold d; now rewrite ob_key].
    rewrite (map_indices_in _ _ n (stored m)); [now rewrite stored_asked; destruct (asked_indices m)|exact (tr_coN _ _ _ _ T)|eauto].
  - intros H H'. rewrite !map_indices_other; [reflexivity|unfold d; now rewrite co_key|unfold d; now rewrite ob_key].
Qed.
Print Assumptions C107_indices.
(** a constraint that is also an objective has the objective's indices, or an objective
    without indices those of the constraint *)
Theorem C107_indices_refuted : forall mpi multi cs n k m k' m', let d := program mpi multi cs in
  accepted mpi multi cs k (AddObjective n m) -> accepted mpi multi cs k' (AddConstraint n m') ->
  sget (snd (map_voi_indices d)) n = match asked_indices m with Some i => Some i | None => asked_indices m' end.
Proof.
  intros mpi multi cs n k m k' m' d H H'. pose proof (trace mpi multi cs) as T. fold d in T. cbn [map_voi_indices snd].
  rewrite (map_indices_in _ _ n (stored m)); [|exact (tr_obN _ _ _ _ T)|apply (tr_ob _ _ _ _ T); eauto].
  rewrite (map_indices_in _ _ n (stored m')); [|exact (tr_coN _ _ _ _ T)|apply (tr_co _ _ _ _ T); eauto].
  rewrite !stored_asked. destruct (asked_indices m); [reflexivity|]. now destruct (asked_indices m').
Qed.
Print Assumptions C107_indices_refuted.

(** C107: when derivatives with respect to all design variables are requested, the
    groups are as the computation of total derivatives (C73) needs them, provided
    that the variables of a group have the same number of entries and the solver
    is a LinearGaussSeidel *)
Theorem C107_requests : forall F (p : prob (F:=F)) multi cs, let d := program true multi cs in
  desvars_of_interest d = Ok (p_pois p) -> p_lgs p = true ->
  (forall a b, together true multi cs a b -> length (wanted p (p_poi p) a) = length (wanted p (p_poi p) b)) ->
  forall grp, In grp (p_pois p) -> group_ok p (p_poi p) (dkeys (d_desvars d)) grp.
Proof.
  intros F p multi cs d E Hl Hs grp Hg _. destruct (proj1 (C107_groups multi cs)) as [gs [E' G]]. fold d in E', G. rewrite E in E'. inversion E'; subst gs.
  assert (In1 : forall a, In a grp -> In a (dkeys (d_desvars d))).
  { intros a Ha. apply (Permutation_in _ (gr_perm _ _ _ G)). apply in_concat. eauto. }
  split; [|split; [exact In1|split; [now right|]]].
  - pose proof (gr_order _ _ _ G) as O. rewrite Forall_forall in O. destruct (O grp Hg) as [f ->]. apply NoDup_filter. exact (tr_dvN _ _ _ _ (trace true multi cs)).
  - intros a b Ha Hb. destruct (proj1 (gr_same _ _ _ G a b (In1 a Ha) (In1 b Hb))) as [->|H]; [eauto|reflexivity|auto].
Qed.
Print Assumptions C107_requests.

(** C107: with single_voi_relevance_reduction, setup reports a group whose
    LinearGaussSeidel has the other mode exactly when the mode in use has a group
    with several variables *)
Theorem C107_modes : forall (fwd : bool) pois oois subs name,
  In name (check_parallel true true fwd pois oois subs) <->
  (exists a b g, In g (if fwd then pois else oois) /\ exists x y z, g = (x ++ a :: y ++ b :: z)%list) /\
  exists m, In (name, (true, m)) subs /\ m <> (if fwd then "fwd" else "rev") /\ m <> "auto".
Proof.
  intros fwd pois oois subs name. unfold check_parallel. cbn [andb].
  assert (P : forall gs, is_parallel gs = true <-> exists a b g, In g gs /\ exists x y z, g = (x ++ a :: y ++ b :: z)%list).
  { intros gs. unfold is_parallel. rewrite existsb_exists. split.
    - intros [g [Hg H]]. apply Nat.ltb_lt in H. destruct g as [|a [|b g]]; cbn in H; try lia. exists a, b, (a :: b :: g). split; [exact Hg|]. exists [], [], g. reflexivity.
    - intros [a [b [g [Hg [x [y [z ->]]]]]]]. exists (x ++ a :: y ++ b :: z)%list. split; [exact Hg|]. apply Nat.ltb_lt. rewrite app_length. cbn. rewrite app_length. cbn. lia. }
  assert (Q : In name (map fst (filter (fun s : string * (bool * string) => fst (snd s) && negb (has [if fwd then "fwd" else "rev"; "auto"] (snd (snd s)))) subs)) <->
              exists m, In (name, (true, m)) subs /\ m <> (if fwd then "fwd" else "rev") /\ m <> "auto").
  { rewrite in_map_iff. split.
    - intros [[n [b m]] [<- H]]. apply filter_In in H as [H B]. cbn [fst snd] in *. apply andb_true_iff in B as [-> B]. exists m. split; [exact H|].
      apply negb_true_iff, has_false in B. cbn in B. split; intros ->; apply B; auto.
    - intros [m [H [H1 H2]]]. exists (name, (true, m)). split; [reflexivity|]. apply filter_In. split; [exact H|]. cbn [fst snd andb].
      apply negb_true_iff, has_false. cbn. intros [X|[X|[]]]; congruence. }
  rewrite <- Q, <- (P (if fwd then pois else oois)). destruct fwd; [destruct (is_parallel pois)|destruct (is_parallel oois)].
  all: split; [intros H; auto|intros [H1 H2]; auto]. all: try discriminate; try contradiction.
Qed.
Print Assumptions C107_modes.
(** without that option, groups are still solved for together, and nothing is checked *)
Theorem C107_modes_refuted : forall F (p : prob (F:=F)) (fwd : bool) subs grp v, p_lgs p = true ->
  In grp (if fwd then p_pois p else p_qois p) -> (1 < length grp)%nat -> In v grp ->
  keyed p v /\ check_parallel true false fwd (p_pois p) (p_qois p) subs = [].
Proof.
  intros F p fwd subs grp v Hl Hg H1 Hv. split; [|reflexivity].
  assert (Hi : In grp (p_pois p ++ p_qois p)%list) by (apply in_app_iff; destruct fwd; auto).
  split; [exact Hl|]. split; [|right; exists grp; auto]. unfold GradSpec.of_interest. rewrite !in_concat. destruct fwd; [left|right]; exists grp; auto.
Qed.
Print Assumptions C107_modes_refuted.

(** ** concrete programs *)
Definition nometa : meta := mkMeta (Num 1) (Num 0) None.
Definition at_ (i : list Z) : meta := mkMeta (Num 1) (Num 0) (Some i).
Definition ex_calls : list call :=
  [AddDesvar "x" nometa; AddDesvar "y" (at_ [2%Z]); AddDesvar "z" nometa; AddObjective "f" (at_ [0%Z]); AddConstraint "g" nometa;
   AddConstraint "h" (at_ [1%Z; 3%Z]); ParallelDerivs ["z"; "x"]; ParallelDerivs ["x"; "y"]; ParallelDerivs ["h"; "f"]; ParallelDerivs ["y"; "g"];
   ParallelDerivs ["q"]].
Definition ex_d := program true false ex_calls.
Example C107_ex : d_sets ex_d = [["z"; "x"]; ["h"; "f"]] /\
  desvars_of_interest ex_d = Ok [["x"; "z"]; ["y"]] /\ outputs_of_interest ex_d = Ok [["f"; "h"]; ["g"]] /\
  map_voi_indices ex_d = ([("y", [2%Z])], [("h", [1%Z; 3%Z]); ("f", [0%Z])]) /\
  (forall n, In n (dkeys (d_objs ex_d)) -> ~ In n (dkeys (d_cons ex_d))) /\
  check_parallel true true true [["x"; "z"]; ["y"]] [["f"; "h"]; ["g"]] [("G1", (true, "rev")); ("G2", (true, "auto")); ("G3", (false, "rev"))] = ["G1"].
Proof.
  repeat apply conj; try (vm_compute; reflexivity). intros n.
  replace (dkeys (d_objs ex_d)) with ["f"] by (vm_compute; reflexivity). replace (dkeys (d_cons ex_d)) with ["g"; "h"] by (vm_compute; reflexivity).
  intros [<-|[]] [X|[X|[]]]; discriminate X.
Qed.
Definition both_calls (vn : list string) : list call :=
  [AddObjective "f" (at_ [0%Z]); AddConstraint "f" (at_ [1%Z]); AddConstraint "g" nometa; ParallelDerivs vn].
Example C107_both_ex : outputs_of_interest (program true false (both_calls ["f"; "g"])) = Err KeyError /\
  outputs_of_interest (program true false (both_calls ["g"])) = Ok [["g"]; ["f"]; ["f"]] /\
  snd (map_voi_indices (program true false (both_calls ["g"]))) = [("f", [0%Z])] /\
  together true false (both_calls ["f"; "g"]) "f" "f".
Proof.
  repeat apply conj; try (vm_compute; reflexivity). exists 3%nat, ["f"; "g"]. split; [split; [reflexivity|eexists; vm_compute; reflexivity]|split; now left].
Qed.

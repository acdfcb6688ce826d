(** Lemmas for the groups of variables of interest. *)
From Coq Require Import Permutation.
From Verif Require Import Base BaseFacts DriverModel VoiModel VoiSpec FrefProofs.
Local Open Scope string_scope.

Lemma has_In : forall l n, has l n = true <-> In n l.
Proof.
  intros l n. unfold has. rewrite existsb_exists. split.
  - intros [x [H E]]. apply String.eqb_eq in E. now subst.
  - intros H. exists n. split; [exact H|apply String.eqb_refl].
Qed.
Lemma has_false : forall l n, has l n = false <-> ~ In n l.
Proof. intros l n. rewrite <- has_In. destruct (has l n); split; intros H; try reflexivity; try discriminate; congruence. Qed.
Lemma hask_In : forall l n, hask l n = true <-> In n (dkeys l).
Proof. intros. apply has_In. Qed.

Lemma as_set_In : forall l n, In n (as_set l) <-> In n l.
Proof.
  induction l as [|x l IH]; intros n; [reflexivity|]. cbn [as_set]. destruct (has l x) eqn:E.
  - rewrite IH. apply has_In in E. split; [now right|]. intros [->|H]; auto.
  - split; (intros [H|H]; [now left|right; now apply IH]).
Qed.
Lemma as_set_NoDup : forall l, NoDup (as_set l).
Proof.
  induction l as [|x l IH]; [constructor|]. cbn [as_set]. destruct (has l x) eqn:E; [exact IH|].
  constructor; [|exact IH]. rewrite as_set_In. now apply has_false.
Qed.
Lemma as_set_id : forall l, NoDup l -> as_set l = l.
Proof.
  induction l as [|x l IH]; intros H; [reflexivity|]. inversion H; subst. cbn [as_set].
  replace (has l x) with false by (symmetry; now apply has_false). f_equal. auto.
Qed.
Lemma as_set_len : forall l, (length (as_set l) <= length l)%nat.
Proof. induction l as [|x l IH]; [reflexivity|]. cbn [as_set]. destruct (has l x); cbn [length]; lia. Qed.
Lemma as_set_len_eq : forall l, length (as_set l) = length l -> NoDup l.
Proof.
  induction l as [|x l IH]; intros H; [constructor|]. cbn [as_set] in H. destruct (has l x) eqn:E.
  - exfalso. pose proof (as_set_len l). cbn [length] in H. lia.
  - constructor; [now apply has_false|]. apply IH. cbn [length] in H. lia.
Qed.
Lemma filter_len : forall {A} (f : A -> bool) l, (length (filter f l) <= length l)%nat.
Proof. induction l as [|x l IH]; [reflexivity|]. cbn. destruct (f x); cbn; lia. Qed.
Lemma filter_len_eq : forall {A} (f : A -> bool) l, length (filter f l) = length l -> forall x, In x l -> f x = true.
Proof.
  induction l as [|a l IH]; intros H x []; cbn in H; destruct (f a) eqn:E; cbn in H.
  - now subst.
  - pose proof (filter_len f l). lia.
  - apply IH; [lia|assumption].
  - pose proof (filter_len f l). lia.
Qed.
Lemma filter_all : forall {A} (f : A -> bool) l, (forall x, In x l -> f x = true) -> filter f l = l.
Proof. induction l as [|a l IH]; intros H; [reflexivity|]. cbn. rewrite (H a (or_introl eq_refl)). f_equal. apply IH. intros x Hx. apply H. now right. Qed.
Lemma filter_none : forall {A} (f : A -> bool) l, (forall x, In x l -> f x = false) -> filter f l = [].
Proof. induction l as [|a l IH]; intros H; [reflexivity|]. cbn. rewrite (H a (or_introl eq_refl)). apply IH. intros x Hx. apply H. now right. Qed.

(** the mixture check of parallel_derivs *)
Lemma mixture : forall (f : string -> bool) vn, let isect := filter f (as_set vn) in
  (0 <? length isect)%nat && negb (length isect =? length vn)%nat = false <->
  (forall n, In n vn -> f n = false) \/ (NoDup vn /\ forall n, In n vn -> f n = true).
Proof.
  intros f vn isect. split.
  - intros H. apply andb_false_iff in H. destruct H as [H|H].
    + left. intros n Hn. destruct (f n) eqn:E; [|reflexivity]. exfalso. apply Nat.ltb_ge in H.
      assert (In n isect) by (apply filter_In; rewrite as_set_In; auto). destruct isect; [contradiction|cbn in H; lia].
    + right. apply negb_false_iff, Nat.eqb_eq in H. pose proof (filter_len f (as_set vn)). pose proof (as_set_len vn). fold isect in H0.
      split; [apply as_set_len_eq; lia|]. intros n Hn. apply (filter_len_eq f (as_set vn)); [fold isect; lia|]. now apply as_set_In.
  - intros [H|[Hn H]].
    + replace isect with (@nil string); [reflexivity|]. symmetry. apply filter_none. intros x Hx. apply H. now apply as_set_In.
    + apply andb_false_iff. right. apply negb_false_iff, Nat.eqb_eq. unfold isect. rewrite as_set_id by exact Hn. now rewrite filter_all.
Qed.

(** ** programs *)
Lemma program_snoc : forall mpi multi cs c, program mpi multi (cs ++ [c]) = after mpi (program mpi multi cs) c.
Proof. intros. unfold program. now rewrite fold_left_app. Qed.

Lemma accepted_firstn : forall mpi multi cs j k c, (j < k)%nat ->
  (accepted mpi multi (firstn k cs) j c <-> accepted mpi multi cs j c).
Proof.
  intros mpi multi cs j k c Hjk. unfold accepted. rewrite firstn_firstn, Nat.min_l by lia.
  assert (E : forall (l : list call) i, (i < k)%nat -> nth_error (firstn k l) i = nth_error l i).
  { clear. induction k as [|k IH]; intros l i Hi; [lia|]. destruct l as [|a l]; [now destruct i|].
    destruct i as [|i]; [reflexivity|]. cbn. apply IH. lia. }
  now rewrite E.
Qed.
Lemma accepted_snoc : forall mpi multi cs x k c, accepted mpi multi (cs ++ [x]) k c <->
  accepted mpi multi cs k c \/ (k = length cs /\ c = x /\ exists d, perform mpi (program mpi multi cs) x = Ok d).
Proof.
  intros mpi multi cs x k c. unfold accepted. destruct (Nat.lt_ge_cases k (length cs)) as [H|H].
  - rewrite nth_error_app1 by exact H. rewrite firstn_app. replace (k - length cs)%nat with 0%nat by lia.
    rewrite firstn_O, app_nil_r. split; [now left|]. intros [A|[-> _]]; [exact A|lia].
  - rewrite nth_error_app2 by exact H. rewrite firstn_app, (firstn_all2 cs) by lia. split.
    + intros [E [d D]]. destruct (k - length cs)%nat as [|i] eqn:Ek; [|destruct i; discriminate]. cbn in E. inversion E; subst c.
      right. cbn in D. rewrite app_nil_r in D. split; [lia|split; [reflexivity|now exists d]].
    + intros [[E _]|[-> [-> [d D]]]].
      * apply nth_error_None in H. congruence.
      * rewrite Nat.sub_diag. split; [reflexivity|]. exists d. cbn. now rewrite app_nil_r.
Qed.

(** what a call changes *)
Lemma perform_cases : forall mpi d c, perform mpi d c = Err RuntimeError \/ exists d', perform mpi d c = Ok d' /\
  match c with
  | AddDesvar n m => hask (d_desvars d) n = false /\ d' = mkDriver (d_multi d) (d_desvars d ++ [(n, stored m)]) (d_objs d) (d_cons d) (d_sets d)
  | AddObjective n m => hask (d_objs d) n = false /\ d' = mkDriver (d_multi d) (d_desvars d) (d_objs d ++ [(n, stored m)]) (d_cons d) (d_sets d)
  | AddConstraint n m => hask (d_cons d) n = false /\ d' = mkDriver (d_multi d) (d_desvars d) (d_objs d) (d_cons d ++ [(n, stored m)]) (d_sets d)
  | ParallelDerivs vn => existsb (fun grp => existsb (has grp) vn) (d_sets d) = false /\
      d' = if mpi then mkDriver (d_multi d) (d_desvars d) (d_objs d) (d_cons d) (d_sets d ++ [vn]) else d
  end.
Proof.
  intros mpi d [n m|n m|n m|vn]; cbn [perform].
  - destruct (hask (d_desvars d) n); [now left|right; eexists; split; [reflexivity|auto]].
  - destruct ((0 <? length (d_objs d))%nat && negb (d_multi d)); [now left|].
    destruct (hask (d_objs d) n); [now left|].
    destruct (match m_indices m with Some (_ :: _ :: _) => negb (d_multi d) | _ => false end); [now left|].
    right; eexists; split; [reflexivity|auto].
  - destruct (hask (d_cons d) n); [now left|right; eexists; split; [reflexivity|auto]].
  - unfold parallel_derivs.
    destruct (negb (forallb _ vn)); [now left|].
    destruct (existsb (fun grp => existsb (has grp) vn) (d_sets d)); [now left|].
    destruct (_ && _); [now left|]. right. destruct mpi; eexists; split; try reflexivity; auto.
Qed.

(** the dictionaries and the sets hold what the accepted calls declared *)
Record traced (mpi multi : bool) (cs : list call) (d : driver) : Prop := {
  tr_multi : d_multi d = multi;
  tr_dv : forall n m, In (n, m) (d_desvars d) <-> exists k m', accepted mpi multi cs k (AddDesvar n m') /\ m = stored m';
  tr_ob : forall n m, In (n, m) (d_objs d) <-> exists k m', accepted mpi multi cs k (AddObjective n m') /\ m = stored m';
  tr_co : forall n m, In (n, m) (d_cons d) <-> exists k m', accepted mpi multi cs k (AddConstraint n m') /\ m = stored m';
  tr_set : forall vn, In vn (d_sets d) <-> mpi = true /\ exists k, accepted mpi multi cs k (ParallelDerivs vn);
  tr_dvN : NoDup (dkeys (d_desvars d));
  tr_obN : NoDup (dkeys (d_objs d));
  tr_coN : NoDup (dkeys (d_cons d));
  tr_dis : ForallOrdPairs (fun s t => forall n, In n s -> ~ In n t) (d_sets d) }.

Lemma snoc_key : forall (l : list (string * meta)) n m, hask l n = false -> NoDup (dkeys l) -> NoDup (dkeys (l ++ [(n, m)])).
Proof. intros l n m H N. unfold dkeys. rewrite map_app. apply NoDup_snoc; [exact N|]. now apply has_false. Qed.
Lemma FOP_snoc : forall {A} (R : A -> A -> Prop) l x, ForallOrdPairs R l -> Forall (fun a => R a x) l -> ForallOrdPairs R (l ++ [x]).
Proof.
  induction l as [|a l IH]; intros x H F; [constructor; constructor|]. inversion H; subst. inversion F; subst. cbn. constructor.
  - apply Forall_app. split; [assumption|now constructor].
  - now apply IH.
Qed.

Lemma trace : forall mpi multi cs, traced mpi multi cs (program mpi multi cs).
Proof.
  intros mpi multi cs. induction cs as [|c cs IH] using rev_ind.
  - assert (Z : forall k c, ~ accepted mpi multi [] k c) by (intros k c [E _]; now destruct k).
    unfold program. cbn. split; cbn; try reflexivity; try apply NoDup_nil; try apply FOP_nil.
    1-3: intros n m; split; [intros []|intros [k [m' [A _]]]; now apply Z in A].
    intros vn. split; [intros []|intros [_ [k A]]; now apply Z in A].
  - rewrite program_snoc. unfold after. set (d := program mpi multi cs) in *.
    destruct IH as [M D O C S DN ON CN Dis].
    assert (Hno : forall e, perform mpi d c = Err e -> forall k x, accepted mpi multi (cs ++ [c]) k x <-> accepted mpi multi cs k x).
    { intros e E k x. rewrite accepted_snoc. split; [|now left]. intros [H|[_ [_ [d' H]]]]; [exact H|]. fold d in H. congruence. }
    destruct (perform_cases mpi d c) as [E|[d' [E H]]]; rewrite E.
    + specialize (Hno _ E). split; try assumption; intros; rewrite ?D, ?O, ?C, ?S; setoid_rewrite Hno; reflexivity.
    + assert (Hy : forall k x, accepted mpi multi (cs ++ [c]) k x <-> accepted mpi multi cs k x \/ (k = length cs /\ x = c)).
      { intros k x. rewrite accepted_snoc. fold d. split; (intros [A|A]; [now left|right]); [tauto|]. destruct A as [-> ->]. eauto. }
      assert (same : forall (l : list (string * meta)) (f : string -> meta -> call),
                (forall n m, In (n, m) l <-> exists k m', accepted mpi multi cs k (f n m') /\ m = stored m') ->
                (forall n m, f n m <> c) ->
                forall n m, In (n, m) l <-> exists k m', accepted mpi multi (cs ++ [c]) k (f n m') /\ m = stored m').
      { intros l f H1 H2 n m. rewrite H1. setoid_rewrite Hy. split; intros [k [m' [A B]]]; exists k, m'; split; auto.
        destruct A as [A|[_ A]]; [exact A|]. now apply H2 in A. }
      assert (grow : forall (l : list (string * meta)) (f : string -> meta -> call) n0 m0,
                (forall n m, In (n, m) l <-> exists k m', accepted mpi multi cs k (f n m') /\ m = stored m') ->
                f n0 m0 = c -> (forall n m, f n m = c -> n = n0 /\ m = m0) ->
                forall n m, In (n, m) (l ++ [(n0, stored m0)])%list <-> exists k m', accepted mpi multi (cs ++ [c]) k (f n m') /\ m = stored m').
      { intros l f n0 m0 H1 H2 H3 n m. rewrite in_app_iff, H1. setoid_rewrite Hy. split.
        - intros [[k [m' [A B]]]|[A|[]]]; [exists k, m'; auto|]. injection A as <- <-. exists (length cs), m0. split; [right; split; [reflexivity|exact H2]|reflexivity].
        - intros [k [m' [[A|[A A']] B]]]; [left; eauto|]. apply H3 in A' as [-> ->]. right. left. now rewrite B. }
      destruct c as [n0 m0|n0 m0|n0 m0|vn0]; destruct H as [H ->].
      * split; cbn; try assumption.
        -- apply (grow _ AddDesvar n0 m0); [exact D|reflexivity|]. intros n m X. now inversion X.
        -- apply (same _ AddObjective); [exact O|discriminate].
        -- apply (same _ AddConstraint); [exact C|discriminate].
        -- intros vn. rewrite S. setoid_rewrite Hy. split; intros [A [k B]]; (split; [exact A|]); exists k; [now left|]. destruct B as [B|[_ B]]; [exact B|discriminate].
        -- now apply snoc_key.
      * split; cbn; try assumption.
        -- apply (same _ AddDesvar); [exact D|discriminate].
        -- apply (grow _ AddObjective n0 m0); [exact O|reflexivity|]. intros n m X. now inversion X.
        -- apply (same _ AddConstraint); [exact C|discriminate].
        -- intros vn. rewrite S. setoid_rewrite Hy. split; intros [A [k B]]; (split; [exact A|]); exists k; [now left|]. destruct B as [B|[_ B]]; [exact B|discriminate].
        -- now apply snoc_key.
      * split; cbn; try assumption.
        -- apply (same _ AddDesvar); [exact D|discriminate].
        -- apply (same _ AddObjective); [exact O|discriminate].
        -- apply (grow _ AddConstraint n0 m0); [exact C|reflexivity|]. intros n m X. now inversion X.
        -- intros vn. rewrite S. setoid_rewrite Hy. split; intros [A [k B]]; (split; [exact A|]); exists k; [now left|]. destruct B as [B|[_ B]]; [exact B|discriminate].
        -- now apply snoc_key.
      * assert (Hd : d_desvars (if mpi then mkDriver (d_multi d) (d_desvars d) (d_objs d) (d_cons d) (d_sets d ++ [vn0]) else d) = d_desvars d /\
                     d_objs (if mpi then mkDriver (d_multi d) (d_desvars d) (d_objs d) (d_cons d) (d_sets d ++ [vn0]) else d) = d_objs d /\
                     d_cons (if mpi then mkDriver (d_multi d) (d_desvars d) (d_objs d) (d_cons d) (d_sets d ++ [vn0]) else d) = d_cons d /\
                     d_multi (if mpi then mkDriver (d_multi d) (d_desvars d) (d_objs d) (d_cons d) (d_sets d ++ [vn0]) else d) = d_multi d)
          by (destruct mpi; auto).
        destruct Hd as [H1 [H2 [H3 H4]]]. split; rewrite ?H1, ?H2, ?H3, ?H4; try assumption.
        -- apply (same _ AddDesvar); [exact D|discriminate].
        -- apply (same _ AddObjective); [exact O|discriminate].
        -- apply (same _ AddConstraint); [exact C|discriminate].
        -- intros vn. setoid_rewrite Hy. destruct mpi; cbn.
           ++ rewrite in_app_iff, S. split.
              ** intros [[_ [k A]]|[<-|[]]]; (split; [reflexivity|]); [exists k; auto|exists (length cs); auto].
              ** intros [_ [k [A|[_ A]]]]; [left; split; [reflexivity|eauto]|]. injection A as ->. right. now left.
           ++ rewrite S. split; intros [A _]; discriminate A.
        -- destruct mpi; cbn; [|exact Dis]. apply FOP_snoc; [exact Dis|]. apply Forall_forall. intros s Hs n Hn Hv.
           assert (existsb (fun grp => existsb (has grp) vn0) (d_sets d) = true); [|congruence].
           apply existsb_exists. exists s. split; [exact Hs|]. apply existsb_exists. exists n. split; [exact Hv|now apply has_In].
Qed.

(** ** _of_interest *)
Lemma remove1_ok : forall rem v, has rem v = true -> exists r, remove1 rem v = Ok r /\ forall x, has r x = has rem x && negb (String.eqb x v).
Proof.
  intros rem v H. unfold remove1. rewrite H. eexists. split; [reflexivity|]. intros x.
  apply eq_true_iff_eq. rewrite has_In, filter_In, andb_true_iff, has_In. reflexivity.
Qed.
Lemma pick_set_ok : forall s l rem, NoDup l -> (forall v, In v l -> In v s -> has rem v = true) ->
  exists r, pick_set s l rem = Ok (filter (has s) l, r) /\ forall x, has r x = has rem x && negb (has s x && has l x).
Proof.
  intros s l. induction l as [|v l IH]; intros rem N H.
  - exists rem. split; [reflexivity|]. intros x. cbn. now rewrite andb_false_r, andb_true_r.
  - inversion N; subst. cbn [pick_set filter]. destruct (has s v) eqn:E.
    + destruct (remove1_ok rem v) as [r1 [E1 R1]]; [apply H; [now left|now apply has_In]|].
      destruct (IH r1) as [r [E2 R2]]; [assumption| |].
      { intros w Hw Hs. rewrite R1, H by (auto; now right). cbn. apply negb_true_iff, String.eqb_neq. intros ->. contradiction. }
      exists r. rewrite E1. cbn [bind]. rewrite E2. cbn [bind]. split; [reflexivity|]. intros x. rewrite R2, R1. cbn [has existsb].
      change (existsb (String.eqb x) l) with (has l x). destruct (String.eqb_spec x v) as [->|Hne]; cbn.
      * rewrite E. cbn. now rewrite !andb_false_r.
      * now rewrite andb_true_r.
    + destruct (IH rem) as [r [E2 R2]]; [assumption|intros; apply H; [now right|assumption]|].
      exists r. split; [exact E2|]. intros x. rewrite R2. cbn [has existsb]. change (existsb (String.eqb x) l) with (has l x).
      destruct (String.eqb_spec x v) as [->|Hne]; cbn; [rewrite E; reflexivity|reflexivity].
Qed.
Definition anyset (sets : list (list string)) (x : string) : bool := existsb (fun s => has s x) sets.
Lemma anyset_In : forall sets x, anyset sets x = true <-> exists s, In s sets /\ In x s.
Proof.
  intros. unfold anyset. rewrite existsb_exists. split; intros [s [H1 H2]]; exists s; split; auto; now apply has_In.
Qed.
Lemma pick_sets_ok : forall sets l rem, NoDup l -> ForallOrdPairs (fun s t => forall n, In n s -> ~ In n t) sets ->
  (forall v, In v l -> anyset sets v = true -> has rem v = true) ->
  exists r, pick_sets sets l rem = Ok (map (fun s => filter (has s) l) sets, r) /\
            forall x, has r x = has rem x && negb (anyset sets x && has l x).
Proof.
  intros sets l. induction sets as [|s sets IH]; intros rem N D H.
  - exists rem. split; [reflexivity|]. intros x. cbn. now rewrite andb_true_r.
  - inversion D; subst. destruct (pick_set_ok s l rem N) as [r1 [E1 R1]].
    { intros v Hv Hs. apply H; [exact Hv|]. cbn. apply has_In in Hs. now rewrite Hs. }
    destruct (IH r1) as [r [E2 R2]]; [assumption|assumption| |].
    { intros v Hv Hs. rewrite R1, H; [|exact Hv|cbn; unfold anyset in Hs; rewrite Hs; apply orb_true_r]. cbn. apply negb_true_iff, andb_false_iff. left.
      apply has_false. intros Hi. apply anyset_In in Hs as [t [Ht Hvt]]. rewrite Forall_forall in H2. exact (H2 t Ht v Hi Hvt). }
    exists r. cbn [pick_sets]. rewrite E1. cbn [bind]. rewrite E2. cbn [bind map]. split; [reflexivity|].
    intros x. rewrite R2, R1. cbn [anyset existsb]. change (existsb (fun s0 => has s0 x) sets) with (anyset sets x).
    destruct (has rem x), (has s x), (has l x), (anyset sets x); reflexivity.
Qed.
Definition nonempty (g : list string) : bool := negb (length g =? 0)%nat.
Lemma of_interest_eq : forall sets l, NoDup l -> ForallOrdPairs (fun s t => forall n, In n s -> ~ In n t) sets ->
  of_interest sets l = Ok (filter nonempty (map (fun s => filter (has s) l) sets) ++
                           map (fun v => [v]) (filter (fun v => negb (anyset sets v)) l))%list.
Proof.
  intros sets l N D. unfold of_interest. rewrite as_set_id by exact N.
  destruct (pick_sets_ok sets l l N D) as [r [E R]]; [intros v Hv _; now apply has_In|]. rewrite E. cbn [bind]. do 2 f_equal. f_equal.
  apply filter_ext_in. intros v Hv. rewrite R. apply has_In in Hv. rewrite Hv. now rewrite andb_true_r.
Qed.

Lemma nonempty_iff : forall g, nonempty g = true <-> g <> [].
Proof. intros [|x g]; cbn; split; intros H; try discriminate; try reflexivity. now elim H. Qed.
Lemma concat_nonempty : forall gs, concat (filter nonempty gs) = concat gs.
Proof. induction gs as [|[|x g] gs IH]; cbn; [reflexivity|exact IH|]. now rewrite IH. Qed.
Lemma concat_single : forall l : list string, concat (map (fun v => [v]) l) = l.
Proof. induction l as [|x l IH]; cbn; [reflexivity|]. now rewrite IH. Qed.

Lemma of_interest_grouping : forall sets l R, NoDup l -> ForallOrdPairs (fun s t => forall n, In n s -> ~ In n t) sets ->
  (forall a b, R a b <-> exists s, In s sets /\ In a s /\ In b s) ->
  exists gs, of_interest sets l = Ok gs /\ grouping l R gs.
Proof.
  intros sets l R N D HR. eexists. split; [apply of_interest_eq; assumption|].
  assert (Hin : forall g, In g (filter nonempty (map (fun s => filter (has s) l) sets) ++ map (fun v => [v]) (filter (fun v => negb (anyset sets v)) l))%list <->
            (exists s, In s sets /\ g = filter (has s) l /\ g <> []) \/ (exists v, In v l /\ g = [v] /\ forall s, In s sets -> ~ In v s)).
  { intros g. rewrite in_app_iff, filter_In, nonempty_iff, !in_map_iff. split; (intros [H|H]; [left|right]).
    - destruct H as [[s [<- Hs]] Hg]. exists s. auto.
    - destruct H as [v [<- Hv]]. apply filter_In in Hv as [Hv Hb]. exists v. split; [exact Hv|split; [reflexivity|]].
      intros s Hs Hi. apply negb_true_iff in Hb. assert (anyset sets v = true) by (apply anyset_In; eauto). congruence.
    - destruct H as [s [Hs [-> Hg]]]. split; [exists s; auto|exact Hg].
    - destruct H as [v [Hv [-> Hs]]]. exists v. split; [reflexivity|]. apply filter_In. split; [exact Hv|].
      apply negb_true_iff. destruct (anyset sets v) eqn:E; [|reflexivity]. apply anyset_In in E as [s [H1 H2]]. elim (Hs s H1 H2). }
  split.
  - rewrite concat_app, concat_nonempty, concat_single. apply NoDup_Permutation.
    + assert (Hc : forall x, In x (concat (map (fun s => filter (has s) l) sets)) <-> In x l /\ anyset sets x = true).
      { intros x. rewrite in_concat. split.
        - intros [g [Hg Hx]]. apply in_map_iff in Hg as [s [<- Hs]]. apply filter_In in Hx as [H1 H2]. split; [exact H1|]. apply anyset_In. exists s. split; [exact Hs|now apply has_In].
        - intros [Hx Ha]. apply anyset_In in Ha as [s [Hs Hi]]. exists (filter (has s) l). split; [now apply in_map with (f := fun s => filter (has s) l)|]. apply filter_In. split; [exact Hx|now apply has_In]. }
      assert (Hnd : forall ss, ForallOrdPairs (fun s t => forall n, In n s -> ~ In n t) ss -> NoDup (concat (map (fun s => filter (has s) l) ss))).
      { clear - N. induction ss as [|s ss IH]; intros D; [constructor|]. inversion D; subst. cbn.
        assert (X : forall (l1 l2 : list string), NoDup l1 -> NoDup l2 -> (forall x, In x l1 -> ~ In x l2) -> NoDup (l1 ++ l2)).
        { clear. induction l1 as [|a l1 IH]; intros l2 H1 H2 H; [exact H2|]. inversion H1; subst. cbn. constructor.
          - rewrite in_app_iff. intros [Hi|Hi]; [contradiction|]. exact (H a (or_introl eq_refl) Hi).
          - apply IH; auto. intros x Hx. apply H. now right. }
        apply X; [now apply NoDup_filter|now apply IH|].
        intros x Hx Hc. apply filter_In in Hx as [_ Hx]. apply has_In in Hx. apply in_concat in Hc as [g [Hg Hxg]].
        apply in_map_iff in Hg as [t [<- Ht]]. apply filter_In in Hxg as [_ Hxt]. apply has_In in Hxt.
        rewrite Forall_forall in H1. exact (H1 t Ht x Hx Hxt). }
      assert (X : forall (l1 l2 : list string), NoDup l1 -> NoDup l2 -> (forall x, In x l1 -> ~ In x l2) -> NoDup (l1 ++ l2)).
      { clear. induction l1 as [|a l1 IH]; intros l2 H1 H2 H; [exact H2|]. inversion H1; subst. cbn. constructor.
        - rewrite in_app_iff. intros [Hi|Hi]; [contradiction|]. exact (H a (or_introl eq_refl) Hi).
        - apply IH; auto. intros x Hx. apply H. now right. }
      apply X; [now apply Hnd|now apply NoDup_filter|]. intros x Hx Hf. apply Hc in Hx as [_ Hx]. apply filter_In in Hf as [_ Hf]. rewrite Hx in Hf. discriminate.
    + exact N.
    + intros x. rewrite in_app_iff, filter_In, in_concat. split.
      * intros [[g [Hg Hx]]|[Hx _]]; [|exact Hx]. apply in_map_iff in Hg as [s [<- _]]. now apply filter_In in Hx.
      * intros Hx. destruct (anyset sets x) eqn:E; [left|right; auto]. apply anyset_In in E as [s [Hs Hi]].
        exists (filter (has s) l). split; [now apply in_map with (f := fun s => filter (has s) l)|]. apply filter_In. split; [exact Hx|now apply has_In].
  - apply Forall_forall. intros g Hg. apply Hin in Hg as [[s [_ [_ Hg]]]|[v [_ [-> _]]]]; [exact Hg|discriminate].
  - apply Forall_forall. intros g Hg. apply Hin in Hg as [[s [_ [Hg _]]]|[v [Hv [-> _]]]]; [now exists (has s)|].
    exists (String.eqb v). clear - N Hv. induction l as [|a l IH]; [contradiction|]. inversion N; subst. cbn. destruct (String.eqb_spec v a) as [->|Hne].
    + f_equal. symmetry. apply filter_none. intros x Hx. apply String.eqb_neq. intros ->. contradiction.
    + destruct Hv as [Hv|Hv]; [congruence|]. now apply IH.
  - intros a b Ha Hb. split.
    + intros [g [Hg [H1 H2]]]. apply Hin in Hg as [[s [Hs [-> _]]]|[v [_ [-> _]]]].
      * right. apply HR. exists s. apply filter_In in H1 as [_ H1]. apply filter_In in H2 as [_ H2]. now rewrite has_In in H1, H2.
      * left. destruct H1 as [<-|[]], H2 as [<-|[]]. reflexivity.
    + intros H. assert (Hg : forall s, In s sets -> In a s -> In b s ->
        exists g, In g (filter nonempty (map (fun s => filter (has s) l) sets) ++ map (fun v => [v]) (filter (fun v => negb (anyset sets v)) l))%list /\ In a g /\ In b g).
      { intros s Hs H1 H2. assert (A1 : In a (filter (has s) l)) by (apply filter_In; split; [exact Ha|now apply has_In]).
        exists (filter (has s) l). split; [|split; [exact A1|apply filter_In; split; [exact Hb|now apply has_In]]].
        apply Hin. left. exists s. split; [exact Hs|split; [reflexivity|]]. intros E. rewrite E in A1. destruct A1. }
      destruct H as [->|H].
      * destruct (anyset sets b) eqn:E; [apply anyset_In in E as [s [Hs Hi]]; now apply (Hg s)|].
        exists [b]. split; [|split; now left]. apply Hin. right. exists b. split; [exact Hb|split; [reflexivity|]].
        intros s Hs Hi. assert (anyset sets b = true) by (apply anyset_In; eauto). congruence.
      * apply HR in H as [s [Hs [H1 H2]]]. now apply (Hg s).
Qed.

(** without sets *)
Lemma of_interest_none : forall l, of_interest [] l = Ok (map (fun v => [v]) l).
Proof.
  intros l. unfold of_interest. cbn. do 2 f_equal. apply filter_all. intros x Hx. apply has_In. now apply as_set_In.
Qed.

(** with repeated names *)
Lemma pick_set_dup : forall s l rem g r, pick_set s l rem = Ok (g, r) -> NoDup (filter (has s) l) /\ (forall x, In x l -> In x s -> has rem x = true).
Proof.
  intros s l. induction l as [|v l IH]; intros rem g r H; [split; [constructor|intros x []]|].
  cbn [pick_set filter] in *. destruct (has s v) eqn:E.
  - unfold remove1 in H. destruct (has rem v) eqn:Ev; [|discriminate]. cbn [bind] in H.
    destruct (pick_set s l (filter (fun x => negb (String.eqb x v)) rem)) as [[g' r']|] eqn:E1; [|discriminate].
    destruct (IH _ _ _ E1) as [N P].
    assert (F : forall x, In x l -> In x s -> In x rem /\ x <> v).
    { intros x Hx Hs. specialize (P x Hx Hs). apply has_In, filter_In in P as [P1 P2]. split; [exact P1|]. intros ->. rewrite String.eqb_refl in P2. discriminate. }
    split.
    + constructor; [|exact N]. intros Hi. apply filter_In in Hi as [H1 H2]. apply has_In in H2. now destruct (F v H1 H2).
    + intros x [<-|Hx] Hs; [exact Ev|]. apply has_In. now destruct (F x Hx Hs).
  - destruct (IH _ _ _ H) as [N P]. split; [exact N|]. intros x [<-|Hx] Hs; [|auto]. apply has_In in Hs. congruence.
Qed.
Lemma pick_set_err : forall s l rem e, pick_set s l rem = Err e -> e = KeyError.
Proof.
  intros s l. induction l as [|v l IH]; intros rem e H; [discriminate|]. cbn [pick_set] in H. destruct (has s v); [|eauto].
  unfold remove1 in H. destruct (has rem v); [|now inversion H]. cbn [bind] in H.
  destruct (pick_set s l _) as [[g r]|e'] eqn:E; [discriminate|]. cbn in H. inversion H; subst. eauto.
Qed.
Lemma pick_set_keep : forall s l rem g r x, pick_set s l rem = Ok (g, r) -> ~ In x s -> has r x = has rem x.
Proof.
  intros s l. induction l as [|v l IH]; intros rem g r x H Hx; [cbn in H; now inversion H|]. cbn [pick_set] in H. destruct (has s v) eqn:E; [|eauto].
  unfold remove1 in H. destruct (has rem v); [|discriminate]. cbn [bind] in H.
  destruct (pick_set s l _) as [[g' r']|e'] eqn:E1; [|discriminate]. cbn in H. inversion H; subst.
  rewrite (IH _ _ _ _ E1 Hx). apply eq_true_iff_eq. rewrite !has_In, filter_In. split; [tauto|]. intros Hi. split; [exact Hi|].
  apply negb_true_iff, String.eqb_neq. intros ->. apply has_In in E. contradiction.
Qed.
Lemma pick_sets_facts : forall sets l rem, match pick_sets sets l rem with
  | Err e => e = KeyError
  | Ok (gs, r) => (forall s, In s sets -> NoDup (filter (has s) l)) /\ forall x, anyset sets x = false -> has r x = has rem x
  end.
Proof.
  intros sets l. induction sets as [|s sets IH]; intros rem; cbn [pick_sets].
  - split; [intros s []|reflexivity].
  - destruct (pick_set s l rem) as [[g r1]|e] eqn:E1; [|cbn; eapply pick_set_err; eassumption]. cbn [bind].
    specialize (IH r1). destruct (pick_sets sets l r1) as [[gs r]|e]; [|exact IH]. cbn [bind]. destruct IH as [A B]. split.
    + intros t [<-|Ht]; [now destruct (pick_set_dup _ _ _ _ _ E1)|auto].
    + intros x Hx. cbn [anyset existsb] in Hx. apply orb_false_iff in Hx as [H1 H2]. rewrite (B x H2).
      eapply pick_set_keep; [eassumption|]. now apply has_false.
Qed.
Lemma of_interest_key_error : forall sets l1 l2 n s, In n l1 -> In n l2 -> In s sets -> In n s -> of_interest sets (l1 ++ l2) = Err KeyError.
Proof.
  intros sets l1 l2 n s H1 H2 Hs Hn. unfold of_interest. pose proof (pick_sets_facts sets (l1 ++ l2) (as_set (l1 ++ l2))) as H.
  destruct (pick_sets sets (l1 ++ l2) (as_set (l1 ++ l2))) as [[gs r]|e]; [|cbn; now rewrite H].
  exfalso. destruct H as [H _]. specialize (H s Hs). rewrite filter_app in H.
  assert (F1 : In n (filter (has s) l1)) by (apply filter_In; split; [exact H1|now apply has_In]).
  assert (F2 : In n (filter (has s) l2)) by (apply filter_In; split; [exact H2|now apply has_In]).
  apply in_split in F1 as [a [b E]]. rewrite E, <- app_assoc in H. cbn in H. apply NoDup_remove_2 in H. apply H. rewrite !in_app_iff. auto.
Qed.
Lemma of_interest_twice : forall sets l1 l2 n gs, In n l1 -> In n l2 -> (forall s, In s sets -> ~ In n s) ->
  of_interest sets (l1 ++ l2) = Ok gs -> exists a b c, gs = (a ++ [n] :: b ++ [n] :: c)%list.
Proof.
  intros sets l1 l2 n gs H1 H2 Hs H. unfold of_interest in H. pose proof (pick_sets_facts sets (l1 ++ l2) (as_set (l1 ++ l2))) as F.
  destruct (pick_sets sets (l1 ++ l2) (as_set (l1 ++ l2))) as [[g r]|e]; [|discriminate]. destruct F as [_ F]. cbn in H. inversion H; subst.
  assert (Hr : has r n = true).
  { rewrite F; [apply has_In, as_set_In, in_app_iff; now left|]. destruct (anyset sets n) eqn:E; [|reflexivity].
    apply anyset_In in E as [s [A B]]. elim (Hs s A B). }
  rewrite filter_app, map_app.
  assert (G : forall l, In n l -> exists a b, map (fun v => [v]) (filter (has r) l) = (a ++ [n] :: b)%list).
  { intros l Hl. apply in_split. apply in_map with (f := fun v => [v]). apply filter_In. auto. }
  destruct (G l1 H1) as [a1 [b1 ->]], (G l2 H2) as [a2 [b2 ->]].
  exists (filter (fun g0 => negb (length g0 =? 0)%nat) g ++ a1)%list, (b1 ++ a2)%list, b2. rewrite <- !app_assoc. cbn. rewrite <- ?app_assoc. reflexivity.
Qed.

(** ** indices *)
Lemma map_indices_other : forall l acc n, ~ In n (dkeys l) -> sget (map_indices l acc) n = sget acc n.
Proof.
  unfold map_indices. induction l as [|[k m] l IH]; intros acc n H; [reflexivity|]. cbn [fold_left]. rewrite IH by (intros X; apply H; now right).
  cbn [fst snd]. destruct (m_indices m); [|reflexivity]. rewrite sget_sset.
  destruct (String.eqb_spec n k) as [->|]; [elim H; now left|]. reflexivity.
Qed.
Lemma map_indices_in : forall l acc n m, NoDup (dkeys l) -> In (n, m) l ->
  sget (map_indices l acc) n = match m_indices m with Some i => Some i | None => sget acc n end.
Proof.
  unfold map_indices. induction l as [|[k v] l IH]; intros acc n m N H; [destruct H|]. inversion N; subst. cbn [fold_left]. destruct H as [H|H].
  - inversion H; subst. change (sget (map_indices l (match m_indices m with Some i => sset acc n i | None => acc end)) n = match m_indices m with Some i => Some i | None => sget acc n end).
    rewrite map_indices_other by assumption. destruct (m_indices m); [|reflexivity]. rewrite sget_sset, String.eqb_refl. reflexivity.
  - rewrite (IH _ _ m) by assumption. cbn [fst snd]. destruct (m_indices m); [reflexivity|]. destruct (m_indices v); [|reflexivity].
    rewrite sget_sset. destruct (String.eqb_spec n k) as [->|]; [|reflexivity]. elim H2. apply in_map_iff. exists (k, m). auto.
Qed.

Lemma stored_asked : forall m, m_indices (stored m) = asked_indices m.
Proof. intros [sc ad [[|i l]|]]; reflexivity. Qed.

(** ** order *)
Lemma before_snoc : forall l n a b, before (l ++ [n])%list a b <-> before l a b \/ (b = n /\ In a l).
Proof.
  intros l n a b. split.
  - intros [x [y [z E]]]. destruct z as [|c z _] using rev_ind.
    + right. assert (E2 : (l ++ [n])%list = ((x ++ a :: y) ++ [b])%list) by (rewrite E, <- app_assoc; reflexivity).
      apply app_inj_tail in E2 as [-> ->]. split; [reflexivity|]. apply in_app_iff. right. now left.
    + left. assert (E2 : (l ++ [n])%list = ((x ++ a :: y ++ b :: z) ++ [c])%list) by (rewrite E, <- !app_assoc; cbn; rewrite <- app_assoc; reflexivity).
      apply app_inj_tail in E2 as [-> _]. now exists x, y, z.
  - intros [[x [y [z ->]]]|[-> H]].
    + exists x, y, (z ++ [n])%list. rewrite <- app_assoc. cbn. now rewrite <- app_assoc.
    + apply in_split in H as [x [y ->]]. exists x, y, []. now rewrite <- app_assoc.
Qed.
Lemma accepted_lt : forall mpi multi cs k c, accepted mpi multi cs k c -> (k < length cs)%nat.
Proof. intros mpi multi cs k c [H _]. apply nth_error_Some. congruence. Qed.
Lemma program_order : forall mpi multi cs, let d := program mpi multi cs in
  in_order mpi multi cs AddDesvar (dkeys (d_desvars d)) /\ in_order mpi multi cs AddObjective (dkeys (d_objs d)) /\
  in_order mpi multi cs AddConstraint (dkeys (d_cons d)).
Proof.
  intros mpi multi cs. induction cs as [|c cs IH] using rev_ind.
  - cbn. repeat apply conj; intros a b; split; try (intros [x [y [z E]]]; now destruct x); intros [j [m [k [m' [_ [[E _] _]]]]]]; now destruct j.
  - cbn zeta in *. rewrite program_snoc. unfold after. pose proof (trace mpi multi cs) as T. set (d := program mpi multi cs) in *. destruct IH as [D [O C]].
    destruct (perform_cases mpi d c) as [E|[d' [E H]]]; rewrite E.
    + assert (Hno : forall k x, accepted mpi multi (cs ++ [c]) k x <-> accepted mpi multi cs k x).
      { intros k x. rewrite accepted_snoc. fold d. split; [|now left]. intros [X|[_ [_ [e X]]]]; [exact X|congruence]. }
      repeat apply conj; intros a b; [rewrite (D a b)|rewrite (O a b)|rewrite (C a b)]; setoid_rewrite Hno; reflexivity.
    + assert (Hy : forall k x, accepted mpi multi (cs ++ [c]) k x <-> accepted mpi multi cs k x \/ (k = length cs /\ x = c)).
      { intros k x. rewrite accepted_snoc. fold d. split; (intros [A|A]; [now left|right]); [tauto|]. destruct A as [-> ->]. eauto. }
      assert (same : forall f l, in_order mpi multi cs f l -> (forall n m, f n m <> c) -> in_order mpi multi (cs ++ [c]) f l).
      { intros f l Hl Hf a b. rewrite (Hl a b). setoid_rewrite Hy. split; intros [j [m [k [m' [Hjk [A B]]]]]]; exists j, m, k, m'.
        - auto.
        - destruct A as [A|[_ A]]; [|now apply Hf in A]. destruct B as [B|[_ B]]; [|now apply Hf in B]. auto. }
      assert (grow : forall f (l : list (string * meta)) n0 m0, in_order mpi multi cs f (dkeys l) -> f n0 m0 = c ->
                (forall n m, f n m = c -> n = n0) ->
                (forall n, In n (dkeys l) <-> exists k m, accepted mpi multi cs k (f n m)) ->
                in_order mpi multi (cs ++ [c]) f (dkeys (l ++ [(n0, stored m0)])%list)).
      { intros f l n0 m0 Hl Hc Hf Hk a b. unfold dkeys. rewrite map_app. cbn [map fst]. rewrite before_snoc. fold (dkeys l). rewrite (Hl a b), Hk. setoid_rewrite Hy. split.
        - intros [[j [m [k [m' [Hjk [A B]]]]]]|[-> [j [m A]]]]; [exists j, m, k, m'; auto|].
          exists j, m, (length cs), m0. split; [eapply accepted_lt; eassumption|]. auto.
        - intros [j [m [k [m' [Hjk [A B]]]]]]. destruct B as [B|[-> B]].
          + left. exists j, m, k, m'. destruct A as [A|[-> _]]; [auto|]. apply accepted_lt in B. lia.
          + right. split; [now apply Hf in B|]. destruct A as [A|[-> _]]; [eauto|lia]. }
      assert (KD : forall n, In n (dkeys (d_desvars d)) <-> exists k m, accepted mpi multi cs k (AddDesvar n m)).
      { intros n. unfold dkeys. rewrite in_map_iff. split.
        - intros [[k m] [<- X]]. apply (tr_dv _ _ _ _ T) in X as [j [m' [X _]]]. eauto.
        - intros [k [m X]]. exists (n, stored m). split; [reflexivity|]. apply (tr_dv _ _ _ _ T). eauto. }
      assert (KO : forall n, In n (dkeys (d_objs d)) <-> exists k m, accepted mpi multi cs k (AddObjective n m)).
      { intros n. unfold dkeys. rewrite in_map_iff. split.
        - intros [[k m] [<- X]]. apply (tr_ob _ _ _ _ T) in X as [j [m' [X _]]]. eauto.
        - intros [k [m X]]. exists (n, stored m). split; [reflexivity|]. apply (tr_ob _ _ _ _ T). eauto. }
      assert (KC : forall n, In n (dkeys (d_cons d)) <-> exists k m, accepted mpi multi cs k (AddConstraint n m)).
      { intros n. unfold dkeys. rewrite in_map_iff. split.
        - intros [[k m] [<- X]]. apply (tr_co _ _ _ _ T) in X as [j [m' [X _]]]. eauto.
        - intros [k [m X]]. exists (n, stored m). split; [reflexivity|]. apply (tr_co _ _ _ _ T). eauto. }
      destruct c as [n0 m0|n0 m0|n0 m0|vn0]; destruct H as [_ ->]; cbn [d_desvars d_objs d_cons].
      4: { replace (d_desvars _) with (d_desvars d) by (now destruct mpi). replace (d_objs _) with (d_objs d) by (now destruct mpi).
           replace (d_cons _) with (d_cons d) by (now destruct mpi). repeat apply conj; apply same; try assumption; discriminate. }
      all: repeat apply conj; try (apply same; [assumption|discriminate]).
      all: apply grow; try assumption; try reflexivity; intros n m X; now inversion X.
Qed.

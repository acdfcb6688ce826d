(** Lemmas about relevance. *)
From Verif Require Import Base BaseFacts GraphSpec GraphProofs OrderModel OrderSpec OrderProofs2 RelModel RelSpec.
Local Open Scope nat_scope.

(** ** the graph and the connections *)
Lemma flow_trans : forall conns a b c, flow conns a b -> flow conns b c -> flow conns a c.
Proof. intros conns a b c H K. induction H; [exact K|]. eapply flow_step; eauto. Qed.
Lemma flow_reach : forall conns t u v, flow conns u v <-> reach (sys_graph (subsystems [] t) conns) u v.
Proof.
  intros conns t u v. unfold sys_graph.
  destruct (sys_graph_ok conns (fold_left add_node (subsystems [] t) [], [])) as (_ & _ & E & _); [apply (fold_nodes (fun x => x)); constructor|intros ? ? (w & [])|].
  split.
  - intros H. induction H as [|s d w e HIn H IH]; [apply reach_refl|]. eapply reach_step; [|exact IH]. apply E. right. exists s, d, w. auto.
  - intros H. induction H as [|a b c Hab H IH]; [apply flow_refl|]. apply E in Hab. destruct Hab as [(w & [])|(s & d & w & HIn & -> & ->)]. eapply flow_step; eauto.
Qed.
Lemma graph_nodes : forall conns t p, wf_tree t -> p <> [] -> find t p <> None -> In p (fst (sys_graph (subsystems [] t) conns)).
Proof.
  intros conns t p W Hp F. unfold sys_graph.
  destruct (fold_nodes (fun x => x) (subsystems [] t) []) as [N1 N2]; [constructor|].
  destruct (sys_graph_ok conns (fold_left add_node (subsystems [] t) [], [])) as (_ & N & _ & _); [exact N1|intros ? ? (w & [])|].
  apply N. left. cbn [fst]. apply N2. right. exists p. split; [|reflexivity]. apply (subs_iff t W). exists p. auto.
Qed.
Lemma reach_reverse : forall g u v, reach (reverse g) u v <-> reach g v u.
Proof.
  assert (E : forall g u v, edge (reverse g) u v <-> edge g v u).
  { intros g u v. unfold edge, reverse. cbn [snd]. split; intros (w & H).
    - apply in_map_iff in H. destruct H as ([[a b] x] & E & H). cbn in E. injection E as E1 E2 E3. subst. exists w. exact H.
    - exists w. apply in_map_iff. exists (v, u, w). auto. }
  assert (R : forall g u v, reach (reverse g) u v -> reach g v u) by (intros g u v H; induction H; [apply reach_refl|]; eapply reach_snoc; [eassumption|apply E; assumption]).
  assert (RR : forall g, reverse (reverse g) = g).
  { intros [ns es]. unfold reverse. cbn [fst snd]. f_equal. rewrite map_map. rewrite <- map_id. apply map_ext. intros [[a b] w]. reflexivity. }
  intros g u v. split; [apply R|]. intros H. apply R. rewrite RR. exact H.
Qed.

(** ** nx.dfs_edges can be met *)
Lemma dfs_exists : forall N (N_dec : forall x y : N, {x = y} + {x <> y}), exists dfs : graph N -> N -> list N, dfs_spec dfs.
Proof.
  intros N N_dec.
  pose (nodes := fun g : graph N => nodup N_dec (fst g ++ flat_map (fun e : N * N * nat => [fst (fst e); snd (fst e)]) (snd g))).
  pose (clean := fun g : graph N => (nodes g, filter (fun e : N * N * nat => if N_dec (fst (fst e)) (snd (fst e)) then false else true) (snd g)) : graph N).
  assert (CE : forall g u v, edge (clean g) u v <-> edge g u v /\ u <> v).
  { intros g u v. unfold edge, clean. cbn [snd]. split.
    - intros (w & H). apply filter_In in H. cbn in H. destruct H as [H1 H2]. destruct (N_dec u v); [discriminate|]. split; [exists w; exact H1|assumption].
    - intros [(w & H) Hne]. exists w. apply filter_In. cbn. split; [exact H|]. destruct (N_dec u v); [contradiction|reflexivity]. }
  assert (CR : forall g u v, reach (clean g) u v <-> reach g u v).
  { intros g u v. split; intros H; induction H as [|a b c Hab H IH]; try apply reach_refl.
    - eapply reach_step; [apply CE; exact Hab|exact IH].
    - destruct (N_dec a b) as [->|Hne]; [exact IH|]. eapply reach_step; [apply CE; split; [exact Hab|exact Hne]|exact IH]. }
  assert (WF : forall g, wf_graph (clean g)).
  { intros g. split; [apply NoDup_nodup|]. intros u v E. apply CE in E. destruct E as [(w & H) Hne]. unfold clean, nodes. cbn [fst].
    split; [|split; [|exact Hne]]; apply nodup_In; apply in_or_app; right; apply in_flat_map; exists (u, v, w); cbn; auto. }
  exists (fun g u => filter (fun v => reachb N_dec (clean g) u v && negb (if N_dec v u then true else false)) (nodes g)).
  intros g u v Hu. rewrite filter_In, Bool.andb_true_iff, (reachb_iff N_dec (clean g) u v (WF g)), CR, Bool.negb_true_iff.
  destruct (N_dec v u) as [->|Hne]; [split; [intros [_ [_ K]]; discriminate|intros [_ K]; congruence]|]. split; [intros [_ [K _]]; auto|]. intros [K _]. split; [|auto].
  apply CR in K. destruct (reach_last (clean g) u v K) as [->|(x & _ & E)]; [congruence|]. apply (proj2 (WF g)) in E. tauto.
Qed.

Section Facts.
  Variable dfs : graph path -> path -> list path.
  Hypothesis DFS : dfs_spec dfs.
  Variable abs : string -> path.
  Variable t : tree.
  Variable conns : list (path * path * nat).
  Hypothesis WT : wf_tree t.
  Definition known (n : string) : Prop := comp abs n <> [] /\ find t (comp abs n) <> None.
  Notation g := (sys_graph (subsystems [] t) conns).
  Notation P i c o := (on_path conns (abs i) (abs o) c).

  Lemma from_iff : forall n c, known n -> (In c (from dfs abs g n) <-> flow conns (comp abs n) c).
  Proof.
    intros n c [K1 K2]. unfold from. pose proof (graph_nodes conns t (comp abs n) WT K1 K2) as IN. destruct (in_dec path_dec (comp abs n) (fst g)); [|contradiction].
    cbn [In]. rewrite (DFS g (comp abs n) c IN), (flow_reach conns t). split.
    - intros [<-|[H _]]; [apply reach_refl|exact H].
    - intros H. destruct (path_dec (comp abs n) c) as [E|Hne]; [left; exact E|right; split; [exact H|congruence]].
  Qed.
  Lemma from_rev_iff : forall n c, known n -> (In c (from dfs abs (reverse g) n) <-> flow conns c (comp abs n)).
  Proof.
    intros n c [K1 K2]. unfold from. pose proof (graph_nodes conns t (comp abs n) WT K1 K2) as IN. assert (IN' : In (comp abs n) (fst (reverse g))) by exact IN.
    destruct (in_dec path_dec (comp abs n) (fst (reverse g))); [|contradiction].
    cbn [In]. rewrite (DFS (reverse g) (comp abs n) c IN'), (flow_reach conns t), reach_reverse. split.
    - intros [<-|[H _]]; [apply reach_refl|exact H].
    - intros H. destruct (path_dec (comp abs n) c) as [E|Hne]; [left; exact E|right; split; [exact H|congruence]].
  Qed.
  Lemma common_iff : forall i o c, known i -> known o -> (In c (common dfs abs g i o) <-> P i c o).
  Proof.
    intros i o c Ki Ko. unfold common. rewrite filter_In, (from_iff i c Ki). destruct (in_dec path_dec c (from dfs abs (reverse g) o)) as [H|H]; rewrite (from_rev_iff o c Ko) in H; unfold on_path; fold (comp abs i) (comp abs o); intuition discriminate.
  Qed.

  Lemma get_update : forall V (r : list (string * list V)) n l m x, In x (get (update r n l) m) <-> In x (get r m) \/ (m = n /\ In x l).
  Proof.
    intros V r n l m x. unfold update. unfold get at 1. rewrite sget_sset. destruct (String.eqb_spec m n) as [->|Hne].
    - rewrite in_app_iff. intuition.
    - unfold get. intuition.
  Qed.
  Lemma sget_update : forall V (r : list (string * list V)) n l m, sget (update r n l) m <> None <-> sget r m <> None \/ m = n.
  Proof.
    intros V r n l m. unfold update. rewrite sget_sset. destruct (String.eqb_spec m n) as [->|Hne]; [|tauto]. split; [auto|]. intros _. discriminate.
  Qed.

  Lemma inner_loop : forall node ins r n c, (forall i, In i ins -> known i) -> known node ->
      let r' := fold_left (fun r inp => let cm := common dfs abs g inp node in update (update r node cm) inp cm) ins r in
      (In c (get r' n) <-> In c (get r n) \/ (n = node /\ exists i, In i ins /\ P i c node) \/ (In n ins /\ P n c node)) /\
      (sget r' n <> None <-> sget r n <> None \/ (n = node /\ ins <> []) \/ In n ins).
  Proof.
    intros node. induction ins as [|a ins IH]; intros r n c KI KN; cbv zeta; cbn [fold_left].
    - split; [|cbn; intuition]. split; [auto|]. intros [H|[(_ & i & [] & _)|[[] _]]]. exact H.
    - destruct (IH (update (update r node (common dfs abs g a node)) a (common dfs abs g a node)) n c) as [I1 I2]; [intros; apply KI; right; assumption|exact KN|]. cbv zeta in I1, I2.
      assert (CA : In c (common dfs abs g a node) <-> P a c node) by (apply common_iff; [apply KI; left; reflexivity|exact KN]). split.
      + rewrite I1, !get_update, CA. split.
        * intros [[[H|[E H]]|[E H]]|[(E & i & Hi & H)|[Hn H]]]; subst.
          -- auto.
          -- right. left. split; [reflexivity|]. exists a. split; [left; reflexivity|exact H].
          -- right. right. split; [left; reflexivity|exact H].
          -- right. left. split; [reflexivity|]. exists i. split; [right; exact Hi|exact H].
          -- right. right. split; [right; exact Hn|exact H].
        * intros [H|[(E & i & [Hi|Hi] & H)|[[Hn|Hn] H]]]; subst; auto. right. left. split; [reflexivity|]. exists i. auto.
      + rewrite I2, !sget_update. cbn [In]. assert (a :: ins <> []) by discriminate. intuition.
  Qed.
  Lemma output_step_iff : forall ins r node n c, (forall i, In i ins -> known i) -> known node ->
      (In c (get (output_step dfs abs g ins r node) n) <-> if String.eqb n node then exists i, In i ins /\ P i c node else In c (get r n) \/ (In n ins /\ P n c node)) /\
      (sget (output_step dfs abs g ins r node) n <> None <-> sget r n <> None \/ n = node \/ In n ins).
  Proof.
    intros ins r node n c KI KN. unfold output_step. destruct (inner_loop node ins (sset r node []) n c KI KN) as [I1 I2]. cbv zeta in I1, I2. rewrite I1, I2. unfold get at 1. rewrite !sget_sset.
    destruct (String.eqb_spec n node) as [->|Hne].
    - split.
      + split; [|intros (i & Hi & H); right; left; split; [reflexivity|]; exists i; auto]. intros [[]|[(_ & H)|[Hn H]]]; [exact H|]. exists node. auto.
      + split; [auto|]. intros _. left. discriminate.
    - fold (get r n). split; [|intuition]. intuition.
  Qed.
  Lemma start_iff : forall ins r n, (forall m, get r m = []) ->
      get (fold_left (fun (r : list (string * list path)) n => sset r n []) ins r) n = [] /\ (sget (fold_left (fun (r : list (string * list path)) n => sset r n []) ins r) n <> None <-> sget r n <> None \/ In n ins).
  Proof.
    induction ins as [|a ins IH]; intros r n H; cbn [fold_left].
    - split; [apply H|cbn; intuition].
    - destruct (IH (sset r a []) n) as [I1 I2].
      + intros m. unfold get. rewrite sget_sset. destruct (String.eqb m a); [reflexivity|apply H].
      + split; [exact I1|]. rewrite I2, sget_sset. cbn [In]. destruct (String.eqb_spec n a) as [->|Hne]; [|intuition congruence]. split; [auto|]. intros _. left. discriminate.
  Qed.

  Variable ins : list string.
  Hypothesis KI : forall i, In i ins -> known i.
  Notation R outs := (relevant0 dfs abs g ins outs).
  Lemma rel_snoc : forall outs o, R (outs ++ [o]) = output_step dfs abs g ins (R outs) o.
  Proof. intros. unfold relevant0. rewrite fold_left_app. reflexivity. Qed.
  Lemma rel_keys : forall outs n, (forall o, In o outs -> known o) -> (sget (R outs) n <> None <-> In n ins \/ In n outs).
  Proof.
    intros outs n. induction outs as [|o outs IH] using rev_ind; intros KO.
    - unfold relevant0, start. cbn [fold_left]. destruct (start_iff ins [] n) as [_ H]; [reflexivity|]. rewrite H. cbn. intuition congruence.
    - rewrite rel_snoc. destruct (output_step_iff ins (R outs) o n [] KI) as [_ H]; [apply KO; apply in_or_app; right; left; reflexivity|]. rewrite H, IH by (intros; apply KO; apply in_or_app; auto).
      rewrite in_app_iff. cbn. intuition congruence.
  Qed.
  Lemma rel_sound : forall outs n c, (forall o, In o outs -> known o) -> In c (get (R outs) n) ->
      (In n ins /\ exists o, In o outs /\ P n c o) \/ (In n outs /\ exists i, In i ins /\ P i c n).
  Proof.
    intros outs n c. induction outs as [|o outs IH] using rev_ind; intros KO H.
    - unfold relevant0, start in H. cbn [fold_left] in H. destruct (start_iff ins [] n) as [E _]; [reflexivity|]. rewrite E in H. destruct H.
    - rewrite rel_snoc in H. apply output_step_iff in H; [|exact KI|apply KO; apply in_or_app; right; left; reflexivity]. destruct (String.eqb_spec n o) as [->|Hne].
      + right. split; [apply in_or_app; right; left; reflexivity|exact H].
      + destruct H as [H|[Hn H]].
        * destruct IH as [(A & o' & Ho & Q)|(A & Q)]; [intros; apply KO; apply in_or_app; auto|exact H| |].
          -- left. split; [exact A|]. exists o'. split; [apply in_or_app; auto|exact Q].
          -- right. split; [apply in_or_app; auto|exact Q].
        * left. split; [exact Hn|]. exists o. split; [apply in_or_app; right; left; reflexivity|exact H].
  Qed.
  Lemma rel_out : forall outs i o c, (forall o, In o outs -> known o) -> In o outs -> In i ins -> P i c o -> In c (get (R outs) o).
  Proof.
    intros outs i o c. induction outs as [|o' outs IH] using rev_ind; intros KO Ho Hi H; [destruct Ho|]. rewrite rel_snoc. apply output_step_iff; [exact KI|apply KO; apply in_or_app; right; left; reflexivity|].
    destruct (String.eqb_spec o o') as [->|Hne]; [exists i; auto|]. left. apply IH; auto; [intros; apply KO; apply in_or_app; auto|]. apply in_app_or in Ho. destruct Ho as [Ho|[Ho|[]]]; [exact Ho|congruence].
  Qed.
  Lemma rel_in : forall post pre i o c, (forall o', In o' (pre ++ o :: post) -> known o') -> In i ins -> ~ In i post -> P i c o -> In c (get (R (pre ++ o :: post)) i).
  Proof.
    intros post. induction post as [|o' post IH] using rev_ind; intros pre i o c KO Hi Hn H.
    - rewrite rel_snoc. apply output_step_iff; [exact KI|apply KO; apply in_or_app; right; left; reflexivity|]. destruct (String.eqb_spec i o) as [->|Hne]; [exists o; auto|right; auto].
    - replace (pre ++ o :: post ++ [o']) with ((pre ++ o :: post) ++ [o']) in * by (rewrite <- app_assoc; reflexivity). rewrite rel_snoc.
      apply output_step_iff; [exact KI|apply KO; apply in_or_app; right; left; reflexivity|]. destruct (String.eqb_spec i o') as [->|Hne]; [exfalso; apply Hn; apply in_or_app; right; left; reflexivity|].
      left. apply IH; auto; [intros; apply KO; apply in_or_app; auto|]. intros K. apply Hn. apply in_or_app. auto.
  Qed.

End Facts.

(** ** systems and variables *)
Section Results.
  Variable abs : string -> path.
  Variable conns : list (path * path * nat).
  Lemma sget_map : forall (f : list path -> list path) (r : list (string * list path)) n, sget (map (fun e => (fst e, f (snd e))) r) n = option_map f (sget r n).
  Proof. intros f r n. unfold sget. induction r as [|[k v] r IH]; [reflexivity|]. cbn. destruct (String.eqb n k); [reflexivity|exact IH]. Qed.
  Lemma sget_map2 : forall (f : list path -> list string) (r : list (string * list path)) n, sget (map (fun e => (fst e, f (snd e))) r) n = option_map f (sget r n).
  Proof. intros f r n. unfold sget. induction r as [|[k v] r IH]; [reflexivity|]. cbn. destruct (String.eqb n k); [reflexivity|exact IH]. Qed.
  Lemma ancestors_iff : forall p q, In q (ancestors p) <-> above q p /\ q <> p.
  Proof.
    intros p q. unfold ancestors, above. rewrite in_map_iff. split.
    - intros (i & <- & Hi). apply in_seq in Hi. destruct (List.rev p) as [|x r] eqn:E; [apply (f_equal (@List.rev _)) in E; rewrite rev_involutive in E; subst; cbn in Hi; lia|].
      apply (f_equal (@List.rev _)) in E. rewrite rev_involutive in E. cbn [List.rev] in E. subst p. rewrite removelast_last in *. set (l := List.rev r) in *.
      assert (L : length (firstn (i + 1) l) = i + 1) by (rewrite firstn_length; lia). split; [split|].
      + intros K. rewrite K in L. cbn in L. lia.
      + exists (skipn (i + 1) l ++ [x]). rewrite app_assoc, firstn_skipn. reflexivity.
      + intros K. rewrite K, app_length in L. cbn in L. lia.
    - intros [[H1 (r & ->)] H2]. destruct (List.rev r) as [|x r'] eqn:E; [apply (f_equal (@List.rev _)) in E; rewrite rev_involutive in E; subst; cbn in H2; rewrite app_nil_r in H2; congruence|].
      apply (f_equal (@List.rev _)) in E. rewrite rev_involutive in E. cbn [List.rev] in E. subst r. rewrite app_assoc, removelast_last. exists (length q - 1). destruct q as [|a q]; [contradiction|].
      rewrite in_seq, app_length. cbn [length]. replace (Datatypes.S (length q) - 1 + 1) with (Datatypes.S (length q)) by lia. split; [|lia]. cbn [app firstn]. f_equal.
      rewrite firstn_app, Nat.sub_diag, firstn_O, app_nil_r. apply firstn_all.
  Qed.
  Lemma system_iff : forall r n p, sget r n <> None -> exists b, is_relevant_system r (Some n) p = Ok b /\ (b = true <-> exists c, In c (get r n) /\ (p = c \/ (above p c /\ p <> c))).
  Proof.
    intros r n p H. unfold is_relevant_system. unfold relsystems. rewrite (sget_map (fun l => l ++ flat_map ancestors l)). unfold get. destruct (sget r n) as [l|]; [|congruence].
    eexists. split; [reflexivity|]. unfold memp. destruct (in_dec path_dec p _) as [Hin|Hn].
    - split; [|auto]. intros _. apply in_app_or in Hin. destruct Hin as [Hin|Hin]; [exists p; auto|]. apply in_flat_map in Hin. destruct Hin as (c & Hc & K). apply ancestors_iff in K. exists c. auto.
    - split; [discriminate|]. intros (c & Hc & K). exfalso. apply Hn. apply in_or_app. destruct K as [->|K]; [auto|]. right. apply in_flat_map. exists c. split; [exact Hc|]. apply ancestors_iff. exact K.
  Qed.
  Lemma var_iff : forall prom r n v, sget r n <> None ->
      (is_relevant abs prom conns r n v = true <->
       (In v (dkeys r) /\ In (comp abs v) (get r n)) \/ exists s d w, In (s, d, w) conns /\ (v = prom s \/ v = prom d) /\ In (removelast s) (get r n) /\ In (removelast d) (get r n)).
  Proof.
    intros prom r n v H. unfold is_relevant, relvars. rewrite (sget_map2 (fun l => vois abs r l ++ conn_vars prom conns l)). unfold get. destruct (sget r n) as [l|]; [|congruence]. cbn [option_map].
    assert (M : forall c, memp l c = true <-> In c l) by (intros c; unfold memp; destruct (in_dec path_dec c l); intuition discriminate).
    destruct (in_dec string_dec v _) as [Hin|Hn].
    - split; [|auto]. intros _. apply in_app_or in Hin. destruct Hin as [Hin|Hin].
      + left. apply filter_In in Hin. rewrite M in Hin. exact Hin.
      + right. apply in_flat_map in Hin. destruct Hin as ([[s d] w] & Hc & K). destruct (memp l (removelast d)) eqn:E1; [|destruct K]. destruct (memp l (removelast s)) eqn:E2; [|destruct K]. apply M in E1. apply M in E2.
        exists s, d, w. cbn in K. intuition.
    - split; [discriminate|]. intros K. exfalso. apply Hn. apply in_or_app. destruct K as [[K1 K2]|(s & d & w & K1 & K2 & K3 & K4)].
      + left. apply filter_In. rewrite M. auto.
      + right. apply in_flat_map. exists (s, d, w). split; [exact K1|]. apply M in K3. apply M in K4. rewrite K3, K4. cbn. intuition.
  Qed.
End Results.

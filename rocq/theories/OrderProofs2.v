(** The graph of a group's subsystems; adding and ordering subsystems. *)
From Coq Require Import Permutation.
From Verif Require Import Base BaseFacts GraphSpec GraphProofs OrderModel OrderSpec OrderProofs.
Local Open Scope nat_scope.
Local Open Scope list_scope.

(** ** building graphs *)
Lemma add_node_in : forall ns n x, In x (add_node ns n) <-> In x ns \/ x = n.
Proof. intros ns n x. unfold add_node. destruct (in_dec path_dec n ns); [|rewrite in_app_iff; cbn]; intuition congruence. Qed.
Lemma add_node_nodup : forall ns n, NoDup ns -> NoDup (add_node ns n).
Proof. intros ns n H. unfold add_node. destruct (in_dec path_dec n ns); [exact H|]. apply NoDup_snoc; assumption. Qed.
Lemma fold_nodes : forall (f : path -> path) l ns, NoDup ns ->
    NoDup (fold_left (fun ns n => add_node ns (f n)) l ns) /\ forall x, In x (fold_left (fun ns n => add_node ns (f n)) l ns) <-> In x ns \/ exists n, In n l /\ x = f n.
Proof.
  intros f. induction l as [|n l IH]; intros ns H; cbn [fold_left].
  - split; [exact H|]. intros x. split; [auto|]. intros [K|(n & [] & _)]. exact K.
  - destruct (IH (add_node ns (f n)) (add_node_nodup _ _ H)) as [D I]. split; [exact D|]. intros x. rewrite I, add_node_in. split.
    + intros [[K|K]|(n' & K1 & K2)]; [auto|right; exists n; split; [left; reflexivity|exact K]|right; exists n'; split; [right; exact K1|exact K2]].
    + intros [K|(n' & [->|K1] & K2)]; [auto|auto|right; exists n'; auto].
Qed.
Lemma update_edge_in : forall es u v f a b, (exists w, In (a, b, w) (update_edge es u v f)) <-> (exists w, In (a, b, w) es) \/ (a = u /\ b = v).
Proof.
  induction es as [|[[x y] z] es IH]; intros u v f a b; cbn [update_edge].
  - split.
    + intros [w [H|[]]]. injection H as -> -> _. auto.
    + intros [[w []]|[-> ->]]. eexists. left. reflexivity.
  - assert (G : (exists w, In (a, b, w) ((x, y, z) :: update_edge es u v f)) <-> (exists w, In (a, b, w) ((x, y, z) :: es)) \/ (a = u /\ b = v)).
    { split.
      - intros [w [H|H]]; [left; exists w; left; exact H|]. destruct (proj1 (IH u v f a b) (ex_intro _ w H)) as [[w' K]|K]; [left; exists w'; right; exact K|right; exact K].
      - intros [[w [H|H]]|H]; [exists w; left; exact H| |].
        + destruct (proj2 (IH u v f a b) (or_introl (ex_intro _ w H))) as [w' K]. exists w'. right. exact K.
        + destruct (proj2 (IH u v f a b) (or_intror H)) as [w' K]. exists w'. right. exact K. }
    destruct (path_dec x u) as [->|]; [|exact G]. destruct (path_dec y v) as [->|]; [|exact G]. split.
    + intros [w [H|H]]; [injection H as <- <- _; auto|left; exists w; right; exact H].
    + intros [[w [H|H]]|[-> ->]]; [injection H as <- <- _; eexists; left; reflexivity|exists w; right; exact H|eexists; left; reflexivity].
Qed.

Lemma sys_graph_ok : forall conns g, NoDup (fst g) -> (forall u v, edge g u v -> In u (fst g) /\ In v (fst g)) ->
    let h := fold_left add_conn conns g in
    NoDup (fst h) /\ (forall x, In x (fst h) <-> In x (fst g) \/ exists s t w, In (s, t, w) conns /\ (x = removelast s \/ x = removelast t)) /\
    (forall u v, edge h u v <-> edge g u v \/ exists s t w, In (s, t, w) conns /\ u = removelast s /\ v = removelast t) /\
    (forall u v, edge h u v -> In u (fst h) /\ In v (fst h)).
Proof.
  induction conns as [|[[s t] w] conns IH]; intros g ND W; cbv zeta; cbn [fold_left].
  - split; [exact ND|]. split; [intros x; split; [auto|intros [K|(? & ? & ? & [] & _)]; exact K]|]. split; [|exact W].
    intros u v. split; [auto|intros [K|(? & ? & ? & [] & _)]; exact K].
  - set (g1 := add_conn g (s, t, w)).
    assert (N1 : forall x, In x (fst g1) <-> In x (fst g) \/ x = removelast s \/ x = removelast t) by (intros x; unfold g1; cbn [add_conn fst]; rewrite !add_node_in; tauto).
    assert (E1 : forall u v, edge g1 u v <-> edge g u v \/ (u = removelast s /\ v = removelast t)) by (intros u v; unfold g1, edge; cbn [add_conn snd]; apply update_edge_in).
    destruct (IH g1) as (H1 & H2 & H3 & H4).
    + unfold g1. cbn. apply add_node_nodup. apply add_node_nodup. exact ND.
    + intros u v H. rewrite !N1. apply E1 in H. destruct H as [H|[-> ->]]; [apply W in H; tauto|tauto].
    + split; [exact H1|]. split; [|split; [|exact H4]].
      * intros x. rewrite H2, N1. split.
        -- intros [[K|K]|(s' & t' & w' & K1 & K2)]; [auto|right; exists s, t, w; split; [left; reflexivity|exact K]|right; exists s', t', w'; split; [right; exact K1|exact K2]].
        -- intros [K|(s' & t' & w' & [K1|K1] & K2)]; [auto|injection K1 as -> -> ->; auto|right; exists s', t', w'; auto].
      * intros u v. rewrite H3, E1. split.
        -- intros [[K|K]|(s' & t' & w' & K1 & K2)]; [auto|right; exists s, t, w; split; [left; reflexivity|exact K]|right; exists s', t', w'; split; [right; exact K1|exact K2]].
        -- intros [K|(s' & t' & w' & [K1|K1] & K2)]; [auto|injection K1 as -> -> ->; auto|right; exists s', t', w'; auto].
Qed.

Lemma below_iff : forall p n, below p n = true <-> exists a q, n = p ++ a :: q.
Proof.
  induction p as [|x p IH]; intros [|y n]; cbn; split; try discriminate.
  - intros (a & q & H). discriminate.
  - intros _. exists y, n. reflexivity.
  - intros _. reflexivity.
  - intros (a & q & H). discriminate.
  - intros H. apply Bool.andb_true_iff in H. destruct H as [H1 H2]. apply String.eqb_eq in H1. subst y. apply IH in H2. destruct H2 as (a & q & ->). exists a, q. reflexivity.
  - intros (a & q & H). injection H as -> ->. rewrite String.eqb_refl. cbn. apply IH. eauto.
Qed.
Lemma firstn_child : forall (p : path) a q, firstn (length p + 1) (p ++ a :: q) = p ++ [a].
Proof. intros p a q. rewrite firstn_app, firstn_all2 by lia. replace (length p + 1 - length p) with 1 by lia. reflexivity. Qed.

Lemma fold_edges : forall (f : path -> path) (l : list (path * path * nat)) es a b,
    (exists w, In (a, b, w) (fold_left (fun es (e : path * path * nat) => update_edge es (f (fst (fst e))) (f (snd (fst e))) (fun _ => snd e)) l es)) <->
    (exists w, In (a, b, w) es) \/ exists u v w, In (u, v, w) l /\ a = f u /\ b = f v.
Proof.
  intros f. induction l as [|[[u v] w] l IH]; intros es a b; cbn [fold_left].
  - split; [auto|]. intros [K|(? & ? & ? & [] & _)]. exact K.
  - rewrite IH, update_edge_in. cbn [fst snd]. split.
    + intros [[K|K]|(u' & v' & w' & K1 & K2)]; [auto|right; exists u, v, w; split; [left; reflexivity|exact K]|right; exists u', v', w'; split; [right; exact K1|exact K2]].
    + intros [K|(u' & v' & w' & [K1|K1] & K2)]; [auto|injection K1 as -> -> ->; auto|right; exists u', v', w'; auto].
Qed.

Lemma child_graph_ok : forall p g, NoDup (fst g) -> (forall u v, edge g u v -> In u (fst g) /\ In v (fst g)) ->
    let h := child_graph p g in
    wf_graph h /\ (forall x, In x (fst h) <-> exists a q, In (p ++ a :: q) (fst g) /\ x = p ++ [a]) /\
    (forall x y, edge h x y <-> exists a q b r, edge g (p ++ a :: q) (p ++ b :: r) /\ x = p ++ [a] /\ y = p ++ [b] /\ a <> b).
Proof.
  intros p g ND W h. set (sub := subgraph path_dec g (filter (below p) (fst g))).
  destruct (fold_nodes (firstn (length p + 1)) (fst sub) [] (NoDup_nil _)) as [DN IN].
  assert (NI : forall x, In x (fst h) <-> exists a q, In (p ++ a :: q) (fst g) /\ x = p ++ [a]).
  { intros x. unfold h, child_graph. fold sub. cbn [no_self relabel fst]. rewrite IN. split.
    - intros [[]|(n & Hn & ->)]. cbn in Hn. apply filter_In in Hn. destruct Hn as [Hn K]. apply nodein_iff in K. apply filter_In in K. destruct K as [_ K]. apply below_iff in K. destruct K as (a & q & ->).
      exists a, q. split; [exact Hn|apply firstn_child].
    - intros (a & q & Hn & ->). right. exists (p ++ a :: q). split; [|symmetry; apply firstn_child]. cbn. apply filter_In. split; [exact Hn|]. apply nodein_iff. apply filter_In. split; [exact Hn|]. apply below_iff. eauto. }
  assert (EI : forall x y, edge h x y <-> exists a q b r, edge g (p ++ a :: q) (p ++ b :: r) /\ x = p ++ [a] /\ y = p ++ [b] /\ a <> b).
  { intros x y. unfold h, child_graph. fold sub. unfold edge at 1. cbn [no_self relabel fst snd].
    pose proof (fold_edges (firstn (length p + 1)) (snd sub) [] x y) as FE. split.
    - intros [w H]. apply filter_In in H. destruct H as [H K]. cbn [fst snd] in K. destruct (path_dec x y) as [|Hne]; [discriminate|].
      destruct (proj1 FE (ex_intro _ w H)) as [[w' []]|(u & v & w' & Hin & -> & ->)].
      assert (Es : edge sub u v) by (exists w'; exact Hin). apply edge_sub in Es. destruct Es as (Es & Hu & Hv). apply filter_In in Hu, Hv. destruct Hu as [_ Hu], Hv as [_ Hv].
      apply below_iff in Hu, Hv. destruct Hu as (a & q & ->), Hv as (b & r & ->). exists a, q, b, r. split; [exact Es|]. rewrite !firstn_child in *. repeat split; auto. congruence.
    - intros (a & q & b & r & Es & -> & -> & Hne). destruct (W _ _ Es) as [W1 W2].
      assert (Es' : edge sub (p ++ a :: q) (p ++ b :: r)) by (apply edge_sub; split; [exact Es|]; split; apply filter_In; (split; [assumption|apply below_iff; eauto])).
      destruct Es' as [w Hin]. destruct (proj2 FE) as [w' H].
      + right. exists (p ++ a :: q), (p ++ b :: r), w. split; [exact Hin|]. rewrite !firstn_child. auto.
      + exists w'. apply filter_In. split; [exact H|]. cbn [fst snd]. destruct (path_dec (p ++ [a]) (p ++ [b])) as [E|_]; [|reflexivity]. apply app_inv_head in E. congruence. }
  split; [|split; assumption]. split.
  - unfold h, child_graph. fold sub. cbn [no_self relabel fst]. exact DN.
  - intros x y H. apply EI in H. destruct H as (a & q & b & r & Es & -> & -> & Hne). destruct (W _ _ Es) as [W1 W2]. rewrite !NI. split; [exists a, q; auto|]. split; [exists b, r; auto|].
    intros E. apply app_inv_head in E. congruence.
Qed.

(** ** the tree *)
Fixpoint tree_ind' (P : tree -> Prop) (HL : P Leaf) (HN : forall cs, (forall n c, In (n, c) cs -> P c) -> P (Node cs)) (t : tree) : P t :=
  match t with
  | Leaf => HL
  | Node cs => HN cs ((fix go (l : list (string * tree)) : forall n c, In (n, c) l -> P c :=
                         match l with
                         | [] => fun n c H => match H with end
                         | (m, d) :: r => fun n c H => match H with
                                                      | or_introl E => eq_ind d P (tree_ind' P HL HN d) c (f_equal snd E)
                                                      | or_intror K => go r n c K
                                                      end
                         end) cs)
  end.

Lemma subs_iff : forall t, wf_tree t -> forall p n, In n (subsystems p t) <-> exists q, q <> [] /\ n = p ++ q /\ find t q <> None.
Proof.
  intros t. induction t as [|cs IH] using tree_ind'; intros WF p n.
  - split; [intros []|]. intros (q & Hq & _ & K). destruct q; [congruence|]. cbn in K. congruence.
  - inversion WF as [|? ND WC]; subst.
    assert (G : forall cs', incl cs' cs -> (In n ((fix go (cs : list (string * tree)) : list path := match cs with [] => [] | (m, c) :: r => (p ++ [m]) :: subsystems (p ++ [m]) c ++ go r end) cs')
        <-> exists m c q, In (m, c) cs' /\ n = p ++ m :: q /\ find c q <> None)).
    { induction cs' as [|[m c] cs' IHc]; intros I.
      - split; [intros []|]. intros (? & ? & ? & [] & _).
      - assert (Ic : In (m, c) cs) by (apply I; left; reflexivity). cbn [In]. rewrite in_app_iff. rewrite (IH m c Ic (WC m c Ic)). rewrite IHc by (intros z Hz; apply I; right; exact Hz). split.
        + intros [<-|[(q & Hq & -> & K)|(m' & c' & q & K1 & K2 & K3)]].
          * exists m, c, []. split; [left; reflexivity|]. split; [reflexivity|cbn; discriminate].
          * exists m, c, q. split; [left; reflexivity|]. split; [rewrite <- app_assoc; reflexivity|exact K].
          * exists m', c', q. split; [right; exact K1|auto].
        + intros (m' & c' & q & [E|K1] & K2 & K3).
          * injection E as -> ->. destruct q as [|x q]; [left; rewrite K2; reflexivity|]. right. left. exists (x :: q). split; [discriminate|]. split; [rewrite K2, <- app_assoc; reflexivity|exact K3].
          * right. right. exists m', c', q. auto. }
    cbn [subsystems]. rewrite (G cs (incl_refl _)). split.
    + intros (m & c & q & Hin & -> & K). exists (m :: q). split; [discriminate|]. split; [reflexivity|]. cbn. unfold sget. rewrite (in_dget String.eqb String.eqb_eq cs m c ND Hin). exact K.
    + intros (q & Hq & -> & K). destruct q as [|m q]; [congruence|]. cbn in K. destruct (sget cs m) as [c|] eqn:E; [|congruence]. apply (dget_in String.eqb String.eqb_eq) in E. exists m, c, q. auto.
Qed.
Lemma find_app : forall p t q, find t (p ++ q) = match find t p with Some c => find c q | None => None end.
Proof.
  induction p as [|a p IH]; intros t q; [reflexivity|]. cbn. destruct t as [|cs]; [reflexivity|]. destruct (sget cs a) as [c|]; [apply IH|reflexivity].
Qed.

Lemma nodup_map_inj : forall A B (f : A -> B) l, (forall x y, In x l -> In y l -> f x = f y -> x = y) -> NoDup l -> NoDup (map f l).
Proof.
  intros A B f l. induction l as [|a l IH]; intros I ND; [constructor|]. inversion ND; subst. cbn. constructor.
  - rewrite in_map_iff. intros (x & E & Hx). apply I in E; [subst; contradiction|right; exact Hx|left; reflexivity].
  - apply IH; [|assumption]. intros x y Hx Hy. apply I; right; assumption.
Qed.
Lemma before_map : forall A B (f : A -> B) l u v, before l u v -> before (map f l) (f u) (f v).
Proof. intros A B f l u v (a & b & c & ->). exists (map f a), (map f b), (map f c). rewrite map_app. cbn. rewrite map_app. reflexivity. Qed.

Lemma auto_order_l : forall lt sccs topo t conns p cs, scc_spec sccs -> topo_spec topo -> wf_tree t -> conns_ok t conns -> find t p = Some (Node cs) ->
    exists order broken, list_auto_order lt sccs topo (sys_graph (subsystems [] t) conns) p = Some (order, broken) /\
      Permutation order (map fst cs) /\
      (forall a b, feeds p conns a b -> before order a b \/ In (p ++ [a], p ++ [b]) broken) /\
      (forall u v, In (u, v) broken -> exists a b, u = p ++ [a] /\ v = p ++ [b] /\ feeds p conns a b /\ depends p conns b a).
Proof.
  intros lt sccs topo t conns p cs SCC TOPO WT CO FP.
  destruct (fold_nodes (fun n => n) (subsystems [] t) [] (NoDup_nil _)) as [DN IN].
  set (g0 := (fold_left (fun ns n => add_node ns n) (subsystems [] t) [], @nil (path * path * nat))) in *.
  destruct (sys_graph_ok conns g0) as (G1 & G2 & G3 & G4); [exact DN|intros u v [w []]|]. fold (sys_graph (subsystems [] t) conns) in G1, G2, G3, G4.
  change (fold_left add_conn conns g0) with (sys_graph (subsystems [] t) conns) in *. set (g := sys_graph (subsystems [] t) conns) in *.
  assert (GN : forall x, In x (fst g) <-> x <> [] /\ find t x <> None).
  { intros x. rewrite G2. split.
    - intros [K|(s & d & w & K1 & K2)].
      + cbn [g0 fst] in K. apply IN in K. destruct K as [[]|(n & K & ->)]. apply (subs_iff t WT) in K. destruct K as (q & Hq & -> & K). auto.
      + destruct (CO s d w K1) as (ps & vs & pd & vd & -> & -> & H1 & H2 & H3 & H4). rewrite !removelast_last in K2. destruct K2 as [->| ->]; auto.
    - intros [H1 H2]. left. apply IN. right. exists x. split; [|reflexivity]. apply (subs_iff t WT). exists x. auto. }
  destruct (child_graph_ok p g G1 G4) as (CW & CN & CE). set (h := child_graph p g) in *.
  assert (HN : forall x, In x (fst h) <-> exists a, In a (map fst cs) /\ x = p ++ [a]).
  { intros x. rewrite CN. split.
    - intros (a & q & Hin & ->). exists a. split; [|reflexivity]. apply GN in Hin. destruct Hin as [_ Hin]. rewrite find_app, FP in Hin. cbn in Hin.
      destruct (sget cs a) as [c|] eqn:E; [|congruence]. apply (dget_some_in_keys String.eqb String.eqb_eq) in E. exact E.
    - intros (a & Ha & ->). exists a, []. split; [|reflexivity]. apply GN. split; [intros E; destruct p; discriminate|]. rewrite find_app, FP. cbn.
      destruct (sget cs a) as [c|] eqn:E; [discriminate|]. apply (dget_none String.eqb String.eqb_eq) in E. contradiction. }
  assert (FE : forall a b, feeds p conns a b <-> edge h (p ++ [a]) (p ++ [b])).
  { intros a b. rewrite CE. split.
    - intros (Hne & s & d & w & Hs & Hd & Hin). destruct (exists_last Hs) as (s' & xs & ->). destruct (exists_last Hd) as (d' & xd & ->).
      exists a, s', b, d'. split; [|auto]. apply G3. right. exists (p ++ a :: s' ++ [xs]), (p ++ b :: d' ++ [xd]), w. split; [exact Hin|].
      rewrite !app_comm_cons, !app_assoc, !removelast_last. auto.
    - intros (a' & q & b' & r & E & Ea & Eb & Hne). apply app_inv_head in Ea, Eb. injection Ea as <-. injection Eb as <-. split; [exact Hne|].
      apply G3 in E. destruct E as [[w []]|(s & d & w & Hin & E1 & E2)]. destruct (CO s d w Hin) as (ps & vs & pd & vd & -> & -> & _). rewrite !removelast_last in E1, E2. subst ps pd.
      exists (q ++ [vs]), (r ++ [vd]), w. split; [destruct q; discriminate|]. split; [destruct r; discriminate|]. rewrite <- !app_assoc in Hin. exact Hin. }
  assert (HR : forall x y, reach h x y -> forall a, x = p ++ [a] -> forall b, y = p ++ [b] -> depends p conns a b).
  { intros x y R. induction R as [x|x y z Exy R IH]; intros a Ea b Eb.
    - subst x. apply app_inv_head in Eb. injection Eb as <-. apply dep_refl.
    - destruct (proj1 (CE x y) Exy) as (a' & _ & c & _ & _ & _ & -> & _). subst x. apply (dep_step _ _ a c); [apply FE; exact Exy|]. apply IH; [reflexivity|exact Eb]. }
  destruct (sorted_ok path_dec lt sccs SCC topo TOPO h CW) as (o & broken & E & P & B & X).
  set (nm := fun n : path => String.concat "." (skipn (length p) n)).
  assert (NM : forall a, nm (p ++ [a]) = a) by (intros a; unfold nm; rewrite skipn_app, skipn_all, Nat.sub_diag; reflexivity).
  exists (map nm o), broken. split; [unfold list_auto_order; fold h; rewrite E; reflexivity|]. split; [|split].
  -
    assert (NDc : NoDup (map fst cs)).
    { clear -WT FP. revert FP WT. generalize t. induction p as [|a p IH]; intros u F W; [injection F as ->; inversion W; assumption|].
      cbn in F. destruct u as [|us]; [discriminate|]. destruct (sget us a) as [c|] eqn:E; [|discriminate]. apply (dget_in String.eqb String.eqb_eq) in E. inversion W as [|? _ WC]; subst. apply (IH c F). exact (WC a c E). }
    apply NoDup_Permutation.
    + apply nodup_map_inj; [|apply (Permutation_NoDup (Permutation_sym P)); apply (proj1 CW)]. intros x y Hx Hy Exy.
      apply (Permutation_in _ P) in Hx, Hy. apply HN in Hx, Hy. destruct Hx as (a & _ & ->), Hy as (b & _ & ->). rewrite !NM in Exy. congruence.
    + exact NDc.
    + intros x. rewrite in_map_iff. split.
      * intros (n & <- & Hn). apply (Permutation_in _ P) in Hn. apply HN in Hn. destruct Hn as (a & Ha & ->). rewrite NM. exact Ha.
      * intros Hx. exists (p ++ [x]). split; [apply NM|]. apply (Permutation_in _ (Permutation_sym P)). apply HN. eauto.
  - intros a b F. destruct (in_dec (fun x y : path * path => ltac:(decide equality; apply path_dec)) (p ++ [a], p ++ [b]) broken) as [Hin|Hn]; [right; exact Hin|]. left.
    rewrite <- (NM a), <- (NM b). apply before_map. apply B; [apply FE; exact F|exact Hn].
  - intros u v Hin. destruct (X u v Hin) as [Euv R]. destruct (proj1 (CE u v) Euv) as (a & q & b & r & _ & -> & -> & _). exists a, b. split; [reflexivity|]. split; [reflexivity|].
    split; [apply FE; exact Euv|]. eapply HR; [exact R|reflexivity|reflexivity].
Qed.

(** ** set_order *)
Section SetOrder.
  Context {S : Type}.
  Lemma subset_iff : forall a b, subset a b = true <-> incl a b.
  Proof.
    intros a b. unfold subset. rewrite forallb_forall. unfold inb, incl. split; intros H x Hx; specialize (H x Hx); destruct (in_dec string_dec x b); congruence || tauto.
  Qed.
  Lemma inb_iff : forall l x, inb l x = true <-> In x l.
  Proof. intros l x. unfold inb. destruct (in_dec string_dec x l); split; congruence || tauto. Qed.
  Lemma nodup_short : forall (l : list string), length l <= length (nodup string_dec l) -> NoDup l.
  Proof.
    induction l as [|a l IH]; intros H; [constructor|]. cbn in H. destruct (in_dec string_dec a l) as [Hin|Hn].
    - exfalso. assert (K : length (nodup string_dec l) <= length l) by (apply NoDup_incl_length; [apply NoDup_nodup|]; intros x Hx; apply nodup_In in Hx; exact Hx). cbn in H. lia.
    - constructor; [exact Hn|]. apply IH. cbn in H. lia.
  Qed.
  Lemma set_order_iff : forall (old new : list string), NoDup old ->
      ((subset old (nodup string_dec new) && subset (nodup string_dec new) old = true /\ length new <= length (nodup string_dec new)) <-> Permutation new old).
  Proof.
    intros old new ND. rewrite Bool.andb_true_iff, !subset_iff. split.
    - intros [[H1 H2] L]. apply nodup_short in L. apply NoDup_Permutation; auto. intros x. split; intros H; [apply H2; apply nodup_In; exact H|]. apply H1 in H. apply nodup_In in H. exact H.
    - intros P. assert (NDn : NoDup new) by (apply (Permutation_NoDup (Permutation_sym P)); exact ND). rewrite nodup_fixed_point by exact NDn. split; [|reflexivity].
      split; intros x Hx; [apply (Permutation_in _ (Permutation_sym P)); exact Hx|apply (Permutation_in _ P); exact Hx].
  Qed.
  Lemma perm_dec : forall old new : list string, NoDup old -> Permutation new old \/ ~ Permutation new old.
  Proof.
    intros old new ND. pose proof (set_order_iff old new ND) as SI. destruct (subset old (nodup string_dec new) && subset (nodup string_dec new) old) eqn:E.
    - destruct (Nat.le_gt_cases (length new) (length (nodup string_dec new))) as [L|L]; [left; apply SI; auto|right; intros P; apply SI in P; lia].
    - right. intros P. apply SI in P. destruct P as [P _]. discriminate.
  Qed.
  Lemma reorder_ok : forall (old : list (string * S)) new acc, NoDup (dkeys acc ++ new) -> (forall n, In n new -> In n (dkeys old)) ->
      exists r, reorder old new acc = Some r /\ dkeys r = dkeys acc ++ new /\ (forall n, In n new -> sget r n = sget old n) /\ (forall n, ~ In n new -> sget r n = sget acc n).
  Proof.
    intros old. induction new as [|n new IH]; intros acc ND I; cbn [reorder].
    - exists acc. rewrite app_nil_r. repeat split; auto. intros n [].
    - destruct (sget old n) as [s|] eqn:E; [|exfalso; apply (dget_none String.eqb String.eqb_eq) in E; apply E; apply I; left; reflexivity].
      assert (Hn : ~ In n (dkeys acc)) by (apply NoDup_remove_2 in ND; intros K; apply ND; apply in_or_app; left; exact K).
      assert (DK : dkeys (sset acc n s) = dkeys acc ++ [n]) by (apply (dkeys_dset_new String.eqb String.eqb_eq); exact Hn).
      destruct (IH (sset acc n s)) as (r & R1 & R2 & R3 & R4).
      + rewrite DK, <- app_assoc. exact ND.
      + intros x Hx. apply I. right. exact Hx.
      + exists r. split; [exact R1|]. split; [rewrite R2, DK, <- app_assoc; reflexivity|].
        assert (Hnn : ~ In n new) by (apply NoDup_remove_2 in ND; intros K; apply ND; apply in_or_app; right; exact K). split.
        * intros x [<-|Hx]; [|apply R3; exact Hx]. rewrite R4 by exact Hnn. rewrite E. rewrite sget_sset. rewrite String.eqb_refl. reflexivity.
        * intros x Hx. rewrite R4 by (intros K; apply Hx; right; exact K). rewrite sget_sset. destruct (String.eqb_spec x n) as [->|]; [exfalso; apply Hx; left; reflexivity|reflexivity].
  Qed.

  Lemma set_order_ok : forall (g : group S) new, NoDup (list_order g) ->
      (Permutation new (list_order g) -> exists g', set_order g new = (g', None) /\ list_order g' = new /\ (forall n, sget (subs g') n = sget (subs g) n) /\
          order_set g' = true /\ local g' = filter (inb (list_order g)) (local g)) /\
      (~ Permutation new (list_order g) -> set_order g new = (g, Some ValueError)).
  Proof.
    intros g new ND. unfold set_order. fold (list_order g). pose proof (set_order_iff (list_order g) new ND) as SI. split.
    - intros P. destruct (proj2 SI P) as [H1 H2]. rewrite H1. cbn [negb]. destruct (Nat.ltb_spec (length (nodup string_dec new)) (length new)); [lia|].
      destruct (reorder_ok (subs g) new []) as (r & R1 & R2 & R3 & R4).
      + cbn. apply (Permutation_NoDup (Permutation_sym P)). exact ND.
      + intros n Hn. apply (Permutation_in _ P). exact Hn.
      + rewrite R1. eexists. split; [reflexivity|]. cbn [list_order subs]. split; [exact R2|]. split; [|split; [reflexivity|]].
        * intros n. destruct (in_dec string_dec n new) as [Hin|Hn]; [apply R3; exact Hin|]. rewrite R4 by exact Hn. cbn. symmetry. apply (dget_none String.eqb String.eqb_eq).
          intros K. apply Hn. apply (Permutation_in _ (Permutation_sym P)). exact K.
        * cbn [local]. apply filter_ext. intros x. destruct (inb (nodup string_dec new) x) eqn:E1, (inb (list_order g) x) eqn:E2; try reflexivity.
          -- apply inb_iff in E1. apply nodup_In in E1. apply (Permutation_in _ P) in E1. apply inb_iff in E1. congruence.
          -- apply inb_iff in E2. apply (Permutation_in _ (Permutation_sym P)) in E2. assert (K : In x (nodup string_dec new)) by (apply nodup_In; exact E2). apply inb_iff in K. congruence.
    - intros NP. destruct (subset (list_order g) (nodup string_dec new) && subset (nodup string_dec new) (list_order g)) eqn:E; [|reflexivity]. cbn [negb].
      destruct (Nat.ltb_spec (length (nodup string_dec new)) (length new)); [reflexivity|]. exfalso. apply NP. apply SI. auto.
  Qed.
End SetOrder.

(** ** histories *)
Definition step {S} reserved (g : group S) (o : op S) : group S := fst (match o with Add n s => add reserved g n s | SetOrder l => set_order g l end).
Lemma add_ok : forall S reserved (g : group S) n s, let r := add reserved g n s in
    (snd r = None <-> order_set g = false /\ ~ In n (list_order g) /\ reserved n = false /\ valid_name n = true) /\
    (snd r = None -> subs (fst r) = subs g ++ [(n, s)] /\ order_set (fst r) = false) /\
    (snd r <> None -> fst r = g).
Proof.
  intros S reserved g n s r. unfold r, add, list_order. destruct (order_set g) eqn:O; [cbn; intuition congruence|].
  unfold smem, dmem. destruct (dget String.eqb (subs g) n) as [x|] eqn:D.
  - assert (K : In n (dkeys (subs g))) by (apply (dget_some_in_keys String.eqb String.eqb_eq) in D; exact D). cbn. intuition congruence.
  - apply (dget_none String.eqb String.eqb_eq) in D. destruct (reserved n); [cbn; intuition congruence|]. destruct (valid_name n); [|cbn; intuition congruence]. cbn.
    split; [tauto|]. split; [|congruence]. intros _. split; [|reflexivity]. unfold sset. clear -D.
    induction (subs g) as [|[k v] l IH]; [reflexivity|]. cbn in *. destruct (String.eqb_spec n k) as [->|]; [exfalso; apply D; left; reflexivity|]. rewrite IH; [reflexivity|]. intros K. apply D. right. exact K.
Qed.
Lemma history_l : forall S reserved (ops : list (op S)), let g := fold_left (step reserved) ops (mkGroup [] [] false) in
    NoDup (list_order g) /\ Forall (fun n => valid_name n = true) (list_order g).
Proof.
  intros S reserved ops. cbv zeta. assert (G : forall g : group S, NoDup (list_order g) -> Forall (fun n => valid_name n = true) (list_order g) ->
      NoDup (list_order (fold_left (step reserved) ops g)) /\ Forall (fun n => valid_name n = true) (list_order (fold_left (step reserved) ops g))).
  { induction ops as [|o ops IH]; intros g ND V; [auto|]. cbn [fold_left]. apply IH; clear IH.
    - destruct o as [n s|l]; unfold step.
      + destruct (add_ok S reserved g n s) as (A1 & A2 & A3). destruct (snd (add reserved g n s)) eqn:E; [rewrite A3 by congruence; exact ND|].
        destruct (A2 eq_refl) as [K _]. unfold list_order, dkeys in *. rewrite K, map_app. apply NoDup_snoc; [exact ND|]. destruct A1 as [A1 _]. destruct (A1 eq_refl) as (_ & Hn & _). exact Hn.
      + destruct (set_order_ok g l ND) as [S1 S2]. destruct (perm_dec (list_order g) l ND) as [P|NP].
        * destruct (S1 P) as (g' & E & L & _). rewrite E. cbn. rewrite L. apply (Permutation_NoDup (Permutation_sym P)). exact ND.
        * rewrite (S2 NP). exact ND.
    - destruct o as [n s|l]; unfold step.
      + destruct (add_ok S reserved g n s) as (A1 & A2 & A3). destruct (snd (add reserved g n s)) eqn:E; [rewrite A3 by congruence; exact V|].
        destruct (A2 eq_refl) as [K _]. unfold list_order, dkeys in *. rewrite K, map_app. apply Forall_app. split; [exact V|]. constructor; [|constructor]. destruct A1 as [A1 _]. destruct (A1 eq_refl) as (_ & _ & _ & Hv). exact Hv.
      + destruct (set_order_ok g l ND) as [S1 S2]. destruct (perm_dec (list_order g) l ND) as [P|NP].
        * destruct (S1 P) as (g' & E & L & _). rewrite E. cbn. rewrite L. apply Forall_forall. intros x Hx. apply (Permutation_in _ P) in Hx. revert x Hx. apply Forall_forall. exact V.
        * rewrite (S2 NP). exact V. }
  apply G; cbn; constructor.
Qed.

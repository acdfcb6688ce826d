(** Lemmas about connections: the depth first search, the declared connections. *)
From Verif Require Import Base BaseFacts GraphSpec GraphProofs OrderModel PathModel OrderProofs2 NameModel NameSpec NameProofs ConnModel ConnSpec.
Local Open Scope nat_scope.

(** ** the depth first search of networkx *)
Section Dfs.
  Variable g : igraph.
  Lemma children_iff : forall s t, In t (children g s) <-> edge (shape g) s t.
  Proof.
    intros s t. unfold children, edge, shape. cbn [snd]. rewrite in_map_iff. split.
    - intros ([[a b] i] & E & H). apply filter_In in H. destruct H as [H K]. cbn in *. apply peqb_eq in K. subst. exists 0. apply in_map_iff. exists (s, t, i). auto.
    - intros (w & H). apply in_map_iff in H. destruct H as ([[a b] i] & E & H). cbn in E. injection E as E1 E2 E3. subst. exists (s, t, i). split; [reflexivity|]. apply filter_In. split; [exact H|].
      cbn. apply peqb_eq. reflexivity.
  Qed.
  Definition targets : list path := nodup path_dec (map (fun e : (path * path) * idxs => snd (fst e)) (snd g)).
  Definition free (vis : list path) : nat := length (filter (fun t => if in_dec path_dec t vis then false else true) targets).
  Lemma free_le : forall a b, incl a b -> free b <= free a.
  Proof.
    intros a b I. unfold free. apply NoDup_incl_length; [apply NoDup_filter; apply NoDup_nodup|]. intros x Hx. apply filter_In in Hx. apply filter_In. split; [tauto|].
    destruct (in_dec path_dec x a) as [Ha|Ha]; [|reflexivity]. destruct (in_dec path_dec x b) as [|Hb]; [destruct Hx; discriminate|]. exfalso. apply Hb. apply I. exact Ha.
  Qed.
  Lemma free_lt : forall vis t, ~ In t vis -> In t targets -> free (t :: vis) < free vis.
  Proof.
    intros vis t Hn Ht. assert (K : S (free (t :: vis)) <= free vis); [|lia]. unfold free.
    change (S (length (filter (fun x => if in_dec path_dec x (t :: vis) then false else true) targets))) with (length (t :: filter (fun x => if in_dec path_dec x (t :: vis) then false else true) targets)).
    apply NoDup_incl_length.
    - constructor; [|apply NoDup_filter; apply NoDup_nodup]. intros K. apply filter_In in K. destruct (in_dec path_dec t (t :: vis)) as [|N]; [destruct K; discriminate|]. apply N. left. reflexivity.
    - intros x [<-|Hx].
      + apply filter_In. split; [exact Ht|]. destruct (in_dec path_dec t vis); [contradiction|reflexivity].
      + apply filter_In in Hx. apply filter_In. split; [tauto|]. destruct (in_dec path_dec x (t :: vis)) as [|N]; [destruct Hx; discriminate|]. destruct (in_dec path_dec x vis); [exfalso; apply N; right; assumption|reflexivity].
  Qed.
  Lemma target_in : forall s t, edge (shape g) s t -> In t targets.
  Proof.
    intros s t (w & H). unfold shape in H. cbn [snd] in H. apply in_map_iff in H. destruct H as ([[a b] i] & E & H). cbn in E. injection E as E1 E2 E3. subst. apply nodup_In. apply in_map_iff. exists (s, t, i). auto.
  Qed.

  (** the result es, vis' of a visit of s with vis *)
  Definition visited (s : path) (vis : list path) (es : list (path * path)) (vis' : list path) : Prop :=
    NoDup (map snd es) /\ (forall x, In x vis' <-> In x vis \/ In x (map snd es)) /\ (forall x, In x (map snd es) -> ~ In x vis) /\
    (forall pre a b post, es = pre ++ (a, b) :: post -> edge (shape g) a b /\ (a = s \/ In a (map snd pre))) /\
    (forall x y, In x (map snd es) -> edge (shape g) x y -> In y vis').
  Lemma visit_ok : forall fuel s vis, In s vis -> free vis < fuel ->
      let '(es, vis') := dfs_visit g fuel vis s in visited s vis es vis' /\ forall y, edge (shape g) s y -> In y vis'.
  Proof.
    induction fuel as [|f IH]; intros s vis Hs Hf; [lia|]. cbn [dfs_visit].
    set (step := fun (acc : list (path * path) * list path) t => if in_dec path_dec t (snd acc) then acc else let '(es, vis') := dfs_visit g f (t :: snd acc) t in (fst acc ++ (s, t) :: es, vis')).
    assert (G : forall cs acc, incl cs (children g s) -> visited s vis (fst acc) (snd acc) ->
               visited s vis (fst (fold_left step cs acc)) (snd (fold_left step cs acc)) /\ incl (snd acc) (snd (fold_left step cs acc)) /\ forall y, In y cs -> In y (snd (fold_left step cs acc))).
    { induction cs as [|t cs IHc]; intros acc I V; cbn [fold_left].
      - split; [exact V|]. split; [apply incl_refl|]. intros y [].
      - assert (NXT : visited s vis (fst (step acc t)) (snd (step acc t)) /\ incl (snd acc) (snd (step acc t)) /\ In t (snd (step acc t))).
        { unfold step. destruct (in_dec path_dec t (snd acc)) as [Hin|Hn]; [split; [exact V|]; split; [apply incl_refl|exact Hin]|].
          destruct acc as [es vis1]. cbn [fst snd] in *. destruct V as (V1 & V2 & V3 & V4 & V5).
          assert (ET : edge (shape g) s t) by (apply children_iff; apply I; left; reflexivity).
          assert (FR : free (t :: vis1) < f).
          { pose proof (free_lt vis1 t Hn (target_in s t ET)). assert (free vis1 <= free vis) by (apply free_le; intros x Hx; apply V2; auto). lia. }
          specialize (IH t (t :: vis1) (or_introl eq_refl) FR). destruct (dfs_visit g f (t :: vis1) t) as [es2 vis2]. destruct IH as [(W1 & W2 & W3 & W4 & W5) W6]. cbn [fst snd].
          assert (D : forall x, In x (map snd es) -> In x vis1) by (intros x Hx; apply V2; auto).
          split; [|split].
          - unfold visited. rewrite map_app. cbn [map snd]. split; [|split; [|split; [|split]]].
            + assert (N2 : NoDup (t :: map snd es2)) by (constructor; [intros K; apply (W3 t K); left; reflexivity|exact W1]).
              assert (DD : forall x, In x (map snd es) -> ~ In x (t :: map snd es2)).
              { intros x Hx [<-|K]; [apply Hn; apply D; exact Hx|]. apply (W3 x K). right. apply D. exact Hx. }
              clear -V1 N2 DD. induction (map snd es) as [|x l IH]; [exact N2|]. inversion V1; subst. cbn. constructor.
              * intros K. apply in_app_or in K. destruct K as [K|K]; [contradiction|]. exact (DD x (or_introl eq_refl) K).
              * apply IH; [assumption|]. intros y Hy. apply DD. right. exact Hy.
            + intros x. rewrite W2. cbn [In]. rewrite V2, in_app_iff. cbn [In]. tauto.
            + intros x Hx K. apply in_app_or in Hx. destruct Hx as [Hx|[<-|Hx]].
              * exact (V3 x Hx K).
              * apply Hn. apply V2. auto.
              * apply (W3 x Hx). right. apply V2. auto.
            + intros pre a b post E.
              assert (SPL : (exists post', es = pre ++ (a, b) :: post') \/ (pre = es /\ (a, b) = (s, t)) \/ exists pre', pre = es ++ (s, t) :: pre' /\ exists post', es2 = pre' ++ (a, b) :: post').
              { clear -E. revert pre E. induction es as [|e es IH]; intros pre E.
                - destruct pre as [|p pre]; cbn in E; [right; left; split; [reflexivity|congruence]|]. injection E as <- E. right. right. exists pre. split; [reflexivity|]. exists post. exact E.
                - destruct pre as [|p pre]; cbn in E; [injection E as <- E; left; exists es; reflexivity|]. injection E as <- E. destruct (IH pre E) as [(post' & K)|[(K1 & K2)|(pre' & K1 & post' & K2)]].
                  + left. exists post'. cbn. congruence.
                  + right. left. split; congruence.
                  + right. right. exists pre'. split; [cbn; congruence|]. exists post'. exact K2. }
              destruct SPL as [(post' & K)|[(K1 & K2)|(pre' & K1 & post' & K2)]].
              * exact (V4 _ _ _ _ K).
              * injection K2 as -> ->. split; [exact ET|]. left. reflexivity.
              * destruct (W4 _ _ _ _ K2) as [X1 X2]. split; [exact X1|]. right. subst pre. rewrite map_app. cbn [map snd]. apply in_or_app. right. destruct X2 as [->|X2]; [left; reflexivity|right; exact X2].
            + intros x y Hx Exy. apply in_app_or in Hx. destruct Hx as [Hx|[<-|Hx]].
              * apply W2. left. right. exact (V5 x y Hx Exy).
              * exact (W6 y Exy).
              * exact (W5 x y Hx Exy).
          - intros x Hx. apply W2. left. right. exact Hx.
          - apply W2. left. left. reflexivity. }
        destruct NXT as (N1 & N2 & N3). destruct (IHc (step acc t)) as (R1 & R2 & R3); [intros x Hx; apply I; right; exact Hx|exact N1|]. split; [exact R1|]. split; [eapply incl_tran; eassumption|].
        intros y [<-|Hy]; [apply R2; exact N3|apply R3; exact Hy]. }
    destruct (G (children g s) ([], vis) (incl_refl _)) as (R1 & _ & R3).
    { split; [constructor|]. split; [cbn; intuition|]. split; [intros x []|]. split; [intros pre a b post E; destruct pre; discriminate|intros x y []]. }
    destruct (fold_left step (children g s) ([], vis)) as [es vis']. cbn [fst snd] in *. split; [exact R1|]. intros y Hy. apply R3. apply children_iff. exact Hy.
  Qed.
End Dfs.
Lemma dfs_edges_spec : dfs_tree_spec dfs_edges.
Proof.
  intros g u. unfold dfs_edges. pose proof (visit_ok g (S (length (snd g))) u [u] (or_introl eq_refl)) as H.
  assert (F : free g [u] < S (length (snd g))).
  { unfold free. eapply Nat.le_lt_trans with (length (targets g)).
    - apply NoDup_incl_length; [apply NoDup_filter; apply NoDup_nodup|]. intros x Hx. apply filter_In in Hx. tauto.
    - unfold targets. apply Nat.lt_succ_r. etransitivity; [apply NoDup_incl_length; [apply NoDup_nodup|]; intros x Hx; apply nodup_In in Hx; exact Hx|]. rewrite map_length. reflexivity. }
  specialize (H F). destruct (dfs_visit g (S (length (snd g))) [u] u) as [es vis']. cbn [fst]. destruct H as [(V1 & V2 & V3 & V4 & V5) V6]. split; [exact V1|]. split; [|exact V4].
  assert (INR : forall l pre, es = pre ++ l -> (forall x, In x (map snd pre) -> reach (shape g) u x) -> forall x, In x (map snd l) -> reach (shape g) u x).
  { induction l as [|[a b] l IH]; intros pre E HP x Hx; [destruct Hx|]. destruct (V4 _ _ _ _ E) as [X1 X2].
    assert (RB : reach (shape g) u b) by (eapply reach_snoc; [|exact X1]; destruct X2 as [->|X2]; [apply reach_refl|apply HP; exact X2]).
    destruct Hx as [<-|Hx]; [exact RB|]. apply (IH (pre ++ [(a, b)])); [rewrite <- app_assoc; exact E| |exact Hx]. intros y Hy. rewrite map_app in Hy. apply in_app_or in Hy. destruct Hy as [Hy|[<-|[]]]; [apply HP; exact Hy|exact RB]. }
  intros t. split.
  - intros Ht. split; [apply (INR es [] eq_refl); [intros x []|exact Ht]|]. intros ->. apply (V3 u Ht). left. reflexivity.
  - intros [R Hne]. assert (ALL : forall x, reach (shape g) u x -> In x vis').
    { intros x Rx. assert (GEN : forall a b, reach (shape g) a b -> In a vis' -> In b vis').
      { intros a b Rab. induction Rab as [|a b c Eab Rbc IH]; [auto|]. intros Ha. apply IH. apply V2 in Ha. destruct Ha as [[<-|[]]|Ha]; [apply V6; exact Eab|eapply V5; eassumption]. }
      apply (GEN u x Rx). apply V2. left. left. reflexivity. }
    specialize (ALL t R). apply V2 in ALL. destruct ALL as [[->|[]]|K]; [congruence|exact K].
Qed.

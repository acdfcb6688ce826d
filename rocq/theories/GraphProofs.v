(** Facts about directed graphs, and functions that meet the specifications. *)
From Coq Require Import Permutation.
From Verif Require Import Base GraphSpec.
Local Open Scope nat_scope.

Section Graph.
  Context {N : Type}.
  Variable N_dec : forall x y : N, {x = y} + {x <> y}.
  Notation graph := (graph N).

  Lemma reach_trans : forall (g : graph) u v w, reach g u v -> reach g v w -> reach g u w.
  Proof. intros g u v w H K. induction H; [exact K|]. eapply reach_step; eauto. Qed.
  Lemma reach_edge : forall (g : graph) u v, edge g u v -> reach g u v.
  Proof. intros g u v H. eapply reach_step; [exact H|apply reach_refl]. Qed.
  Lemma reach_snoc : forall (g : graph) u v w, reach g u v -> edge g v w -> reach g u w.
  Proof. intros. eapply reach_trans; [eassumption|apply reach_edge; assumption]. Qed.
  Lemma reach_last : forall (g : graph) u w, reach g u w -> u = w \/ exists v, reach g u v /\ edge g v w.
  Proof.
    intros g u w H. induction H as [u|u v w E H IH]; [left; reflexivity|]. right. destruct IH as [->|(x & R & E')].
    - exists u. split; [apply reach_refl|exact E].
    - exists x. split; [eapply reach_step; eauto|exact E'].
  Qed.
  Lemma reach_first : forall (g : graph) u w, reach g u w -> u = w \/ exists v, edge g u v /\ reach g v w.
  Proof. intros g u w H. destruct H as [u|u v w E H]; [left; reflexivity|right; exists v; auto]. Qed.
  Lemma reach_mono : forall (g h : graph), (forall u v, edge g u v -> edge h u v) -> forall u v, reach g u v -> reach h u v.
  Proof. intros g h M u v H. induction H; [apply reach_refl|]. eapply reach_step; eauto. Qed.

  (** ** simple paths *)
  Fixpoint walk (g : graph) (u : N) (p : list N) : Prop := match p with [] => True | v :: q => edge g u v /\ walk g v q end.
  Definition wend (u : N) (p : list N) : N := List.last p u.
  Lemma last_indep : forall (p : list N) x d d', List.last (x :: p) d = List.last (x :: p) d'.
  Proof. induction p as [|a p IH]; intros x d d'; [reflexivity|]. change (List.last (a :: p) d = List.last (a :: p) d'). apply IH. Qed.
  Lemma wend_cons : forall u v p, wend u (v :: p) = wend v p.
  Proof. intros u v [|x p]; [reflexivity|]. apply (last_indep p x u v). Qed.
  Lemma walk_reach : forall (g : graph) p u, walk g u p -> reach g u (wend u p).
  Proof. intros g. induction p as [|v p IH]; intros u H; [apply reach_refl|]. destruct H as [E H]. rewrite wend_cons. eapply reach_step; [exact E|apply IH; exact H]. Qed.
  Lemma cut_walk : forall (g : graph) p u x, walk g u p -> In x (u :: p) -> NoDup (u :: p) -> exists q, walk g x q /\ wend x q = wend u p /\ NoDup (x :: q).
  Proof.
    intros g. induction p as [|v p IH]; intros u x H [->|Hin] ND; try contradiction.
    - exists []. cbn. auto.
    - exists (v :: p). auto.
    - destruct H as [E H]. inversion ND; subst. destruct (IH v x H Hin) as (q & Q1 & Q2 & Q3); [assumption|]. exists q. rewrite wend_cons. auto.
  Qed.
  Lemma simple_walk : forall (g : graph) u w, reach g u w -> exists p, walk g u p /\ wend u p = w /\ NoDup (u :: p).
  Proof.
    intros g u w H. induction H as [u|u v w E H (p & P1 & P2 & P3)].
    - exists []. split; [exact I|]. split; [reflexivity|]. constructor; [intros []|constructor].
    - destruct (in_dec N_dec u (v :: p)) as [Hin|Hn].
      + destruct (cut_walk g p v u P1 Hin P3) as (q & Q1 & Q2 & Q3). exists q. split; [exact Q1|]. split; [congruence|exact Q3].
      + exists (v :: p). split; [split; assumption|]. split; [rewrite wend_cons; exact P2|]. constructor; assumption.
  Qed.
  Lemma walk_nodes : forall (g : graph), wf_graph g -> forall p u, walk g u p -> forall x, In x p -> In x (fst g).
  Proof. intros g WF. induction p as [|v p IH]; intros u H x Hin; [destruct Hin|]. destruct H as [E H]. destruct Hin as [<-|Hin]; [apply (proj2 WF) in E; tauto|]. exact (IH v H x Hin). Qed.

  (** ** deciding reachability *)
  Definition succs (g : graph) (u : N) : list N := flat_map (fun e : N * N * nat => if N_dec (fst (fst e)) u then [snd (fst e)] else []) (snd g).
  Lemma in_succs : forall g u v, In v (succs g u) <-> edge g u v.
  Proof.
    intros g u v. unfold succs, edge. rewrite in_flat_map. split.
    - intros ([[a b] w] & Hin & H). cbn in H. destruct (N_dec a u) as [->|]; [|destruct H]. destruct H as [<-|[]]. exists w. exact Hin.
    - intros [w Hin]. exists (u, v, w). split; [exact Hin|]. cbn. destruct (N_dec u u); [left; reflexivity|congruence].
  Qed.
  Fixpoint within (k : nat) (g : graph) (u v : N) : bool :=
    (if N_dec u v then true else false) || match k with 0 => false | S k' => existsb (fun x => within k' g x v) (succs g u) end.
  Lemma within_reach : forall g k u v, within k g u v = true -> reach g u v.
  Proof.
    intros g. induction k as [|k IH]; intros u v H; cbn in H; destruct (N_dec u v) as [->|Hne]; try apply reach_refl; try discriminate.
    cbn in H. apply existsb_exists in H. destruct H as (x & Hin & H). eapply reach_step; [apply in_succs; exact Hin|apply IH; exact H].
  Qed.
  Lemma walk_within : forall g p u k, walk g u p -> length p <= k -> within k g u (wend u p) = true.
  Proof.
    intros g. induction p as [|v p IH]; intros u k H L.
    - cbn. destruct k; cbn; destruct (N_dec u u); [reflexivity|congruence|reflexivity|congruence].
    - destruct k as [|k]; [cbn in L; lia|]. destruct H as [E H]. rewrite wend_cons. cbn. destruct (N_dec u (wend v p)); [reflexivity|]. cbn. apply existsb_exists. exists v.
      split; [apply in_succs; exact E|]. apply IH; [exact H|cbn in L; lia].
  Qed.
  Definition reachb (g : graph) (u v : N) : bool := within (length (fst g)) g u v.
  Lemma reachb_iff : forall g u v, wf_graph g -> (reachb g u v = true <-> reach g u v).
  Proof.
    intros g u v WF. split; [apply within_reach|]. intros H. destruct (simple_walk g u v H) as (p & P1 & <- & P3). unfold reachb. apply walk_within; [exact P1|].
    inversion P3; subst. apply NoDup_incl_length; [assumption|]. intros x. apply (walk_nodes g WF p u P1).
  Qed.

  (** ** strongly connected components *)
  Definition same (g : graph) (u v : N) : bool := reachb g u v && reachb g v u.
  Fixpoint classes (fuel : nat) (g : graph) (ns : list N) : list (list N) :=
    match fuel, ns with
    | S f, n :: _ => filter (same g n) ns :: classes f g (filter (fun x => negb (same g n x)) ns)
    | _, _ => []
    end.
  Definition sccs_of (g : graph) : list (list N) := classes (length (fst g)) g (fst g).
  Lemma filter_perm : forall (f : N -> bool) l, Permutation (filter f l ++ filter (fun x => negb (f x)) l) l.
  Proof. intros f. induction l as [|a l IH]; [constructor|]. cbn. destruct (f a); cbn; [constructor; exact IH|]. rewrite <- Permutation_middle. constructor. exact IH. Qed.
  Lemma filter_le : forall (f : N -> bool) l, length (filter f l) <= length l.
  Proof. intros f. induction l as [|a l IH]; cbn; [lia|]. destruct (f a); cbn; lia. Qed.
  Lemma same_refl : forall g u, same g u u = true.
  Proof. intros g u. assert (R : reachb g u u = true) by (unfold reachb; destruct (length (fst g)); cbn; destruct (N_dec u u); try congruence; reflexivity). unfold same. rewrite R. reflexivity. Qed.
  Lemma same_iff : forall g u v, wf_graph g -> (same g u v = true <-> reach g u v /\ reach g v u).
  Proof. intros g u v WF. unfold same. rewrite Bool.andb_true_iff, !reachb_iff by exact WF. reflexivity. Qed.
  Lemma classes_perm : forall g fuel ns, length ns <= fuel -> Permutation (concat (classes fuel g ns)) ns.
  Proof.
    intros g. induction fuel as [|f IH]; intros ns L; [destruct ns; [constructor|cbn in L; lia]|]. destruct ns as [|n ns]; [constructor|]. cbn [classes concat].
    rewrite IH; [apply filter_perm|]. cbn [filter]. rewrite same_refl. cbn. pose proof (filter_le (fun x => negb (same g n x)) ns). cbn in L. lia.
  Qed.
  Lemma classes_same : forall g, wf_graph g -> forall fuel ns, length ns <= fuel -> forall u v, In u ns -> In v ns ->
      ((exists s, In s (classes fuel g ns) /\ In u s /\ In v s) <-> same g u v = true).
  Proof.
    intros g WF. induction fuel as [|f IH]; intros ns L u v Hu Hv; [destruct ns; [destruct Hu|cbn in L; lia]|]. destruct ns as [|n ns]; [destruct Hu|]. cbn [classes].
    assert (L' : length (filter (fun x => negb (same g n x)) (n :: ns)) <= f).
    { cbn [filter]. rewrite same_refl. cbn. pose proof (filter_le (fun x => negb (same g n x)) ns). cbn in L. lia. }
    assert (T : forall a b c, same g a b = true -> same g b c = true -> same g a c = true).
    { intros a b c. rewrite !same_iff by exact WF. intros [H1 H2] [H3 H4]. split; eapply reach_trans; eauto. }
    assert (SY : forall a b, same g a b = true -> same g b a = true) by (intros a b; rewrite !same_iff by exact WF; tauto).
    assert (IN : forall s, In s (classes f g (filter (fun x => negb (same g n x)) (n :: ns))) -> forall x, In x s -> In x (n :: ns) /\ same g n x = false).
    { intros s Hs x Hx. assert (K : In x (concat (classes f g (filter (fun x => negb (same g n x)) (n :: ns))))) by (apply in_concat; eauto).
      apply (Permutation_in _ (classes_perm g f _ L')) in K. apply filter_In in K. destruct K as [K1 K2]. split; [exact K1|]. apply Bool.negb_true_iff in K2. exact K2. }
    split.
    - intros (s & [<-|Hs] & H1 & H2).
      + apply filter_In in H1, H2. destruct H1 as [_ H1], H2 as [_ H2]. apply (T u n v); auto.
      + destruct (IN s Hs u H1) as [I1 J1], (IN s Hs v H2) as [I2 J2].
        apply (IH _ L' u v); [apply filter_In; rewrite J1; auto|apply filter_In; rewrite J2; auto|]. exists s. auto.
    - intros H. destruct (same g n u) eqn:E.
      + eexists. split; [left; reflexivity|]. split; apply filter_In; split; auto. apply (T n u v); assumption.
      + assert (E2 : same g n v = false) by (destruct (same g n v) eqn:E2; [|reflexivity]; rewrite (T n v u E2 (SY u v H)) in E; discriminate).
        destruct (proj2 (IH _ L' u v ltac:(apply filter_In; rewrite E; auto) ltac:(apply filter_In; rewrite E2; auto)) H) as (s & S1 & S2). exists s. split; [right; exact S1|exact S2].
  Qed.
  Lemma sccs_of_spec : scc_spec sccs_of.
  Proof.
    intros g WF. split; [apply classes_perm; reflexivity|]. intros u v Hu Hv. unfold sccs_of. rewrite (classes_same g WF _ _ (le_n _) u v Hu Hv). apply same_iff. exact WF.
  Qed.

  (** ** topological sorting *)
  Definition source (g : graph) (ns : list N) (n : N) : bool := forallb (fun m => negb (if in_dec N_dec n (succs g m) then true else false)) ns.
  Fixpoint topo_sort (fuel : nat) (g : graph) (ns : list N) : option (list N) :=
    match fuel, ns with
    | _, [] => Some []
    | 0, _ :: _ => None
    | S f, _ :: _ =>
        match find (source g ns) ns with
        | Some n => option_map (cons n) (topo_sort f g (remove N_dec n ns))
        | None => None
        end
    end.
  Definition topo_of (g : graph) : option (list N) := topo_sort (length (fst g)) g (fst g).
  (** walking backwards *)
  Lemma back_walk : forall g ns, (forall n, In n ns -> exists m, In m ns /\ edge g m n) -> forall k n, In n ns ->
      exists u p, walk g u p /\ wend u p = n /\ length p = k /\ incl (u :: p) ns.
  Proof.
    intros g ns H. induction k as [|k IH]; intros n Hn.
    - exists n, []. repeat split; auto. intros x [<-|[]]. exact Hn.
    - destruct (IH n Hn) as (u & p & W & E & L & I). destruct (H u (I u (or_introl eq_refl))) as (m & Hm & Em).
      exists m, (u :: p). split; [split; assumption|]. split; [rewrite wend_cons; exact E|]. split; [cbn; lia|]. intros x [<-|Hx]; [exact Hm|exact (I x Hx)].
  Qed.
  Lemma walk_app : forall g p u q, walk g u (p ++ q) -> walk g u p /\ walk g (wend u p) q.
  Proof.
    intros g. induction p as [|v p IH]; intros u q H; [split; [exact I|exact H]|]. destruct H as [E H]. destruct (IH v q H) as [H1 H2].
    split; [split; assumption|]. rewrite wend_cons. exact H2.
  Qed.
  Lemma dup_split : forall (l : list N), ~ NoDup l -> exists a x b c, l = a ++ x :: b ++ x :: c.
  Proof.
    induction l as [|y l IH]; intros H; [destruct H; constructor|]. destruct (in_dec N_dec y l) as [Hin|Hn].
    - apply in_split in Hin. destruct Hin as (b & c & ->). exists [], y, b, c. reflexivity.
    - destruct IH as (a & x & b & c & ->); [intros K; apply H; constructor; assumption|]. exists (y :: a), x, b, c. reflexivity.
  Qed.
  Lemma long_walk_cycle : forall g u p, walk g u p -> ~ NoDup (u :: p) -> exists x y, edge g x y /\ reach g y x.
  Proof.
    intros g u p W D. apply dup_split in D. destruct D as (a & x & b & c & E).
    assert (K : walk g x (b ++ x :: c)).
    { destruct a as [|a0 a]; [injection E as -> ->; exact W|]. injection E as -> ->. replace (a ++ x :: b ++ x :: c) with ((a ++ [x]) ++ b ++ x :: c) in W by (rewrite <- app_assoc; reflexivity).
      apply walk_app in W. destruct W as [_ W]. unfold wend in W. rewrite last_last in W. exact W. }
    destruct b as [|y b].
    - destruct K as [K _]. exists x, x. split; [exact K|apply reach_refl].
    - destruct K as [K1 K2]. exists x, y. split; [exact K1|]. replace (b ++ x :: c) with ((b ++ [x]) ++ c) in K2 by (rewrite <- app_assoc; reflexivity).
      apply walk_app in K2. destruct K2 as [K2 _]. apply walk_reach in K2. unfold wend in K2. rewrite last_last in K2. exact K2.
  Qed.
  Lemma has_source : forall g ns, acyclic g -> ns <> [] -> exists n, In n ns /\ source g ns n = true.
  Proof.
    intros g ns AC NE. destruct (existsb (source g ns) ns) eqn:E; [apply existsb_exists in E; destruct E as (n & H1 & H2); exists n; auto|].
    exfalso. assert (H : forall n, In n ns -> exists m, In m ns /\ edge g m n).
    { intros n Hn. assert (K : source g ns n = false).
      { destruct (source g ns n) eqn:K; [|reflexivity]. assert (existsb (source g ns) ns = true) by (apply existsb_exists; eauto). congruence. }
      unfold source in K. assert (X : exists m, In m ns /\ In n (succs g m)).
      { clear -K. induction ns as [|m ns IH]; [discriminate|]. cbn in K. destruct (in_dec N_dec n (succs g m)) as [Hin|]; [exists m; split; [left; reflexivity|exact Hin]|].
        cbn in K. destruct (IH K) as (m' & H1 & H2). exists m'. split; [right; exact H1|exact H2]. }
      destruct X as (m & Hm & Hs). exists m. split; [exact Hm|]. apply in_succs. exact Hs. }
    destruct ns as [|n0 ns0]; [congruence|]. destruct (back_walk g _ H (length (n0 :: ns0)) n0 (or_introl eq_refl)) as (u & p & W & _ & L & I).
    destruct (long_walk_cycle g u p W) as (x & y & Exy & R).
    - intros ND. pose proof (NoDup_incl_length ND I) as K. cbn in K, L. lia.
    - exact (AC x y Exy R).
  Qed.
  Lemma source_iff : forall g ns n, source g ns n = true <-> forall m, In m ns -> ~ edge g m n.
  Proof.
    intros g ns n. unfold source. rewrite forallb_forall. split; intros H m Hm.
    - specialize (H m Hm). destruct (in_dec N_dec n (succs g m)) as [Hin|Hn]; [discriminate|]. rewrite in_succs in Hn. exact Hn.
    - specialize (H m Hm). destruct (in_dec N_dec n (succs g m)) as [Hin|Hn]; [apply in_succs in Hin; contradiction|reflexivity].
  Qed.
  Lemma remove_perm : forall (l : list N) n, NoDup l -> In n l -> Permutation (n :: remove N_dec n l) l.
  Proof.
    induction l as [|a l IH]; intros n ND Hin; [destruct Hin|]. inversion ND; subst. cbn. destruct (N_dec n a) as [->|Hne].
    - rewrite notin_remove by assumption. reflexivity.
    - destruct Hin as [->|Hin]; [congruence|]. rewrite perm_swap. constructor. apply IH; assumption.
  Qed.
  Lemma topo_sort_ok : forall g, acyclic g -> forall fuel ns, NoDup ns -> length ns <= fuel ->
      exists o, topo_sort fuel g ns = Some o /\ Permutation o ns /\ forall u v, In u ns -> In v ns -> edge g u v -> before o u v.
  Proof.
    intros g AC. induction fuel as [|f IH]; intros ns ND L.
    - destruct ns as [|n ns]; [|cbn in L; lia]. exists []. split; [reflexivity|]. split; [constructor|]. intros u v [].
    - destruct ns as [|n0 ns0]; [exists []; split; [reflexivity|]; split; [constructor|]; intros u v []|]. cbn [topo_sort].
      set (ns := n0 :: ns0) in *. destruct (find (source g ns) ns) as [n|] eqn:F.
      + apply find_some in F. destruct F as [Hn Hs]. pose proof (remove_perm ns n ND Hn) as RP.
        assert (ND' : NoDup (remove N_dec n ns)) by (apply (Permutation_NoDup (Permutation_sym RP)) in ND; inversion ND; assumption).
        assert (L' : length (remove N_dec n ns) <= f) by (apply Permutation_length in RP; cbn in RP; subst ns; cbn in *; lia).
        destruct (IH _ ND' L') as (o & E & P & B). rewrite E. cbn. exists (n :: o). split; [reflexivity|]. split; [rewrite P; exact RP|].
        intros u v Hu Hv Ee. assert (Hvn : v <> n) by (intros ->; apply (proj1 (source_iff g ns n) Hs u Hu Ee)).
        assert (Hv' : In v (remove N_dec n ns)) by (apply in_in_remove; assumption). destruct (N_dec u n) as [->|Hun].
        * assert (Hvo : In v o) by (apply (Permutation_in _ (Permutation_sym P)); exact Hv'). apply in_split in Hvo. destruct Hvo as (b & c & ->). exists [], b, c. reflexivity.
        * destruct (B u v) as (a & b & c & ->); [apply in_in_remove; assumption|exact Hv'|exact Ee|]. exists (n :: a), b, c. reflexivity.
      + destruct (has_source g ns AC) as (n & Hn & Hs); [discriminate|]. exfalso. pose proof (find_none _ _ F n Hn). congruence.
  Qed.
  Lemma topo_of_spec : topo_spec topo_of.
  Proof.
    intros g WF AC. destruct (topo_sort_ok g AC (length (fst g)) (fst g) (proj1 WF) (le_n _)) as (o & E & P & B). exists o. split; [exact E|]. split; [exact P|].
    intros u v Ee. destruct (proj2 WF u v Ee) as (Hu & Hv & _). apply B; assumption.
  Qed.

  (** ** acyclic graphs and order *)
  Lemma before_acyclic : forall (g : graph) o, NoDup o -> (forall u v, edge g u v -> before o u v) -> acyclic g.
  Proof.
    intros g o ND B u v E R.
    assert (T : forall x y z, before o x y -> before o y z -> before o x z).
    { intros x y z (a & b & c & E1) (a' & b' & c' & E2).
      assert (K : a ++ x :: b = a').
      { rewrite E1 in E2. replace (a ++ x :: b ++ y :: c) with ((a ++ x :: b) ++ y :: c) in E2 by (rewrite <- app_assoc; reflexivity).
        rewrite E1 in ND. replace (a ++ x :: b ++ y :: c) with ((a ++ x :: b) ++ y :: c) in ND by (rewrite <- app_assoc; reflexivity).
        revert ND E2. generalize (a ++ x :: b) c a' (b' ++ z :: c'). clear. induction l as [|h l IH]; intros c [|h' a'] d ND E; cbn in *.
        - reflexivity.
        - injection E as -> ->. inversion ND as [|? ? NI _]; subst. destruct NI. apply in_or_app. right. left. reflexivity.
        - injection E as -> E. inversion ND as [|? ? NI _]; subst. destruct NI. apply in_or_app. right. left. reflexivity.
        - injection E as -> E. inversion ND; subst. f_equal. eapply IH; eassumption. }
      subst a'. exists a, (b ++ y :: b'), c'. rewrite E2. rewrite <- !app_assoc. cbn. rewrite <- ?app_assoc. reflexivity. }
    assert (RB : forall x y, reach g x y -> x = y \/ before o x y).
    { intros x y H. induction H as [x|x y z Exy H IH]; [left; reflexivity|]. right. destruct IH as [->|IH]; [apply B; exact Exy|]. eapply T; [apply B; exact Exy|exact IH]. }
    assert (IR : forall x, ~ before o x x).
    { intros x (a & b & c & E1). rewrite E1 in ND. apply NoDup_remove_2 in ND. apply ND. apply in_or_app. right. apply in_or_app. right. left. reflexivity. }
    destruct (RB v u R) as [->|K]; [exact (IR u (B u u E))|]. exact (IR u (T u v u (B u v E) K)).
  Qed.
End Graph.

(** Lemmas about the check of the execution order. *)
From Coq Require Import Permutation Sorted.
From Verif Require Import Base BaseFacts RunProofs GraphSpec GraphProofs OrderModel OrderSpec OrderProofs OrderProofs2 CksModel CksSpec CksProofs.
Local Open Scope string_scope.
Local Open Scope nat_scope.
Local Open Scope list_scope.

(** ** positions *)
Lemma nth_split2 : forall A (l : list A) i j a b, i < j -> nth_error l i = Some a -> nth_error l j = Some b -> before l a b.
Proof.
  intros A l i j a b L Hi Hj. apply nth_error_split in Hi. destruct Hi as (l1 & l2 & -> & E). rewrite nth_error_app2 in Hj by lia. destruct (j - length l1) as [|k] eqn:K; [lia|]. cbn in Hj. apply nth_error_split in Hj. destruct Hj as (m1 & m2 & -> & _). exists l1, m1, m2. reflexivity.
Qed.
Lemma before_nth : forall A (l : list A) a b, before l a b -> exists i j, i < j /\ nth_error l i = Some a /\ nth_error l j = Some b.
Proof.
  intros A l a b (x & y & z & ->). exists (length x), (length x + S (length y)). split; [lia|]. split.
  - rewrite nth_error_app2 by lia. rewrite Nat.sub_diag. reflexivity.
  - rewrite nth_error_app2 by lia. replace (length x + S (length y) - length x) with (S (length y)) by lia. cbn. rewrite nth_error_app2 by lia. rewrite Nat.sub_diag. reflexivity.
Qed.
Lemma nth_unique : forall A (l : list A) i j a, NoDup l -> nth_error l i = Some a -> nth_error l j = Some a -> i = j.
Proof. intros A l i j a ND Hi Hj. apply (proj1 (NoDup_nth_error l) ND); [apply nth_error_Some; congruence|congruence]. Qed.
Lemma before_trans : forall A (l : list A) a b c, NoDup l -> before l a b -> before l b c -> before l a c.
Proof. intros A l a b c ND H1 H2. apply before_nth in H1, H2. destruct H1 as (i & j & L1 & A1 & B1), H2 as (j' & k & L2 & B2 & C2). pose proof (nth_unique _ _ _ _ _ ND B1 B2). subst j'. apply (nth_split2 _ l i k); auto. lia. Qed.
Lemma before_irrefl : forall A (l : list A) a b, NoDup l -> before l a b -> before l b a -> False.
Proof. intros A l a b ND H1 H2. pose proof (before_trans _ _ _ _ _ ND H1 H2) as H. apply before_nth in H. destruct H as (i & j & L & X & Y). pose proof (nth_unique _ _ _ _ _ ND X Y). lia. Qed.
Lemma before_total : forall A (l : list A) a b, In a l -> In b l -> a <> b -> before l a b \/ before l b a.
Proof.
  intros A l a b Ha Hb N. apply In_nth_error in Ha, Hb. destruct Ha as (i & Hi), Hb as (j & Hj). destruct (Nat.lt_trichotomy i j) as [L|[E|L]]; [left; apply (nth_split2 _ l i j); auto|subst; congruence|right; apply (nth_split2 _ l j i); auto].
Qed.
Lemma before_in : forall A (l : list A) a b, before l a b -> In a l /\ In b l.
Proof. intros A l a b (x & y & z & ->). split; apply in_or_app; right; [left; reflexivity|right; apply in_or_app; right; left; reflexivity]. Qed.
Lemma before_snoc : forall A (l : list A) x a b, ~ In x l -> before (l ++ [x]) a b <-> before l a b \/ (b = x /\ In a l).
Proof.
  intros A l x a b Nx. split.
  - intros (u & v & w & E). destruct (exists_last (l := b :: w)) as (w' & y & Ew); [discriminate|]. assert (E' : l ++ [x] = (u ++ a :: v ++ w') ++ [y]) by (rewrite E, Ew, <- app_assoc; cbn; rewrite <- app_assoc; reflexivity). apply app_inj_tail in E'. destruct E' as [-> ->].
    destruct w' as [|z w']; cbn in Ew; injection Ew as -> Ew; [right; split; [reflexivity|]; apply in_or_app; right; left; reflexivity|left; exists u, v, w'; reflexivity].
  - intros [(u & v & w & ->)|[-> I]]; [exists u, v, (w ++ [x]); rewrite <- app_assoc; cbn; rewrite <- app_assoc; reflexivity|]. apply in_split in I. destruct I as (u & v & ->). exists u, v, []. rewrite <- app_assoc. reflexivity.
Qed.

(** ** the members of a cycle *)
Lemma child_app : forall p a, child_of p (p ++ [a]) = a.
Proof. intros p a. unfold child_of. rewrite app_nth2 by lia. rewrite Nat.sub_diag. reflexivity. Qed.
Lemma index_ok : forall l x, In x l -> exists k, index l x = Ok k /\ nth_error l k = Some x.
Proof.
  induction l as [|y l IH]; intros x I; [destruct I|]. cbn [index]. destruct (String.eqb_spec x y) as [->|N]; [exists 0; auto|]. destruct I as [I|I]; [congruence|]. destruct (IH x I) as (k & E & K). rewrite E. exists (S k). auto.
Qed.
Lemma insert_perm : forall e l, Permutation (insert e l) (e :: l).
Proof. intros e. induction l as [|f l IH]; [reflexivity|]. cbn. destruct (_ <=? _); [reflexivity|]. rewrite IH. apply perm_swap. Qed.
Lemma insert_sorted : forall e l, StronglySorted (fun a b : nat * string => fst a <= fst b) l -> StronglySorted (fun a b => fst a <= fst b) (insert e l).
Proof.
  intros e. induction l as [|f l IH]; intros S; [repeat constructor|]. inversion S as [|? ? S' F]; subst. cbn [insert]. destruct (fst e <=? fst f) eqn:L.
  - apply Nat.leb_le in L. constructor; [exact S|]. constructor; [exact L|]. eapply Forall_impl; [|exact F]. cbn. intros a H. lia.
  - apply Nat.leb_gt in L. constructor; [apply IH; exact S'|]. apply (Permutation_Forall (Permutation_sym (insert_perm e l))). constructor; [lia|exact F].
Qed.
Lemma indexed_ok : forall order l, incl l order -> exists r, indexed order l = Ok r /\ Permutation (map snd r) l /\ StronglySorted (fun a b => fst a <= fst b) r /\ forall e, In e r -> nth_error order (fst e) = Some (snd e).
Proof.
  intros order. induction l as [|x l IH]; intros I; cbn [indexed]; [exists []; split; [reflexivity|]; split; [constructor|]; split; [constructor|intros e []]|].
  destruct (index_ok order x (I x (or_introl eq_refl))) as (k & E & K). destruct IH as (r & R & P & S & N); [intros y Y; apply I; right; exact Y|]. rewrite E, R. cbn [bind]. eexists. split; [reflexivity|]. split; [|split].
  - rewrite (Permutation_map snd (insert_perm (k, x) r)). cbn. rewrite P. reflexivity.
  - apply insert_sorted. exact S.
  - intros e H. apply (Permutation_in _ (insert_perm (k, x) r)) in H. destruct H as [<-|H]; [exact K|apply N; exact H].
Qed.
Lemma in_order_ok : forall order l, incl l order -> NoDup l -> exists c, in_order order l = Ok c /\ Permutation c l /\ StronglySorted (before order) c.
Proof.
  intros order l I ND. destruct (indexed_ok order l I) as (r & R & P & S & N). unfold in_order. rewrite R. cbn [bind]. exists (map snd r). split; [reflexivity|]. split; [exact P|].
  apply (Permutation_NoDup (Permutation_sym P)) in ND. clear -S N ND. induction S as [|e r S IH F]; [constructor|]. cbn [map]. cbn [map] in ND. inversion ND as [|? ? Ne ND']; subst. constructor; [apply IH; [exact ND'|intros x X; apply N; right; exact X]|].
  apply Forall_forall. intros y Y. apply in_map_iff in Y. destruct Y as (f & <- & Hf). rewrite Forall_forall in F. pose proof (F f Hf) as L. pose proof (N e (or_introl eq_refl)) as K1. pose proof (N f (or_intror Hf)) as K2.
  assert (fst e <> fst f). { intros Q. rewrite Q, K2 in K1. injection K1 as K1. apply Ne. rewrite <- K1. apply in_map. exact Hf. } apply (nth_split2 _ order (fst e) (fst f)); auto. lia.
Qed.
Lemma cycles_ok : forall p order strong, (forall s x, In s strong -> In x s -> exists a, In a order /\ x = p ++ [a]) -> (forall s, In s strong -> NoDup s) ->
    exists c, cycles_of p order strong = Ok c /\ Forall2 (fun l s => Permutation (map (fun a => p ++ [a]) l) s /\ StronglySorted (before order) l) c strong.
Proof.
  intros p order. induction strong as [|s strong IH]; intros H ND; cbn [cycles_of]; [exists []; split; [reflexivity|constructor]|].
  assert (MP : map (fun a => p ++ [a]) (map (child_of p) s) = s).
  { rewrite map_map. rewrite <- (map_id s) at 2. apply map_ext_in. intros x X. destruct (H s x (or_introl eq_refl) X) as (a & _ & ->). rewrite child_app. reflexivity. }
  destruct (in_order_ok order (map (child_of p) s)) as (l & L & P & S).
  - intros y Y. apply in_map_iff in Y. destruct Y as (x & <- & X). destruct (H s x (or_introl eq_refl) X) as (a & A & ->). rewrite child_app. exact A.
  - apply (NoDup_map_inv (fun a => p ++ [a])). rewrite MP. apply ND. left. reflexivity.
  - destruct IH as (c & C & F); [intros s' x S' X; apply (H s' x); [right; exact S'|exact X]|intros s' S'; apply ND; right; exact S'|]. rewrite L. cbn [bind]. rewrite C. cbn [bind]. eexists. split; [reflexivity|]. constructor; [|exact F]. split; [|exact S]. rewrite (Permutation_map _ P), MP. reflexivity.
Qed.

(** ** out of order *)
Section Visit.
  Variable dfs : graph path -> path -> list path.
  Variables (p : path) (h : graph path).
  Definition noted (d : list (string * list path)) (b : string) (u : path) : Prop := exists l, sget d b = Some l /\ In u l.
  Lemma sget_sset' : forall V (d : list (string * V)) k v j, sget (sset d k v) j = if String.eqb j k then Some v else sget d j.
  Proof. intros V d k v j. unfold sget, sset. apply (dget_dset String.eqb String.eqb_eq). Qed.
  Lemma note_ok : forall sub d v b u, noted (note p sub d v) b u <-> noted d b u \/ (b = child_of p v /\ u = sub).
  Proof.
    intros sub d v b u. unfold noted, note. setoid_rewrite sget_sset'. destruct (String.eqb_spec b (child_of p v)) as [->|N].
    - split.
      + intros (l & E & I). injection E as <-. destruct (sget d (child_of p v)) as [l0|] eqn:S.
        * destruct (pmem sub l0); [left; exists l0; auto|]. apply in_app_or in I. destruct I as [I|[<-|[]]]; [left; exists l0; auto|auto].
        * destruct (pmem sub []); [destruct I|]. destruct I as [<-|[]]. auto.
      + intros K. eexists. split; [reflexivity|]. destruct K as [(l & E & I)|[_ ->]].
        * rewrite E. destruct (pmem sub l); [exact I|apply in_or_app; left; exact I].
        * match goal with |- In _ (if pmem sub ?x then _ else _) => destruct (pmem sub x) eqn:M end; [apply pmem_in; exact M|apply in_or_app; right; left; reflexivity].
    - split; [auto|]. intros [K|[K _]]; [exact K|congruence].
  Qed.
  Definition dict_ok (d : list (string * list path)) : Prop := NoDup (dkeys d) /\ forall b l, sget d b = Some l -> l <> [].
  Lemma note_dict : forall sub d v, dict_ok d -> dict_ok (note p sub d v).
  Proof.
    intros sub d v [ND N]. split; [apply (NoDup_dkeys_dset String.eqb String.eqb_eq); exact ND|]. intros b l. unfold note. rewrite sget_sset'. destruct (String.eqb_spec b (child_of p v)) as [->|Nb]; [|apply N].
    intros E. injection E as <-. destruct (sget d (child_of p v)) as [l0|] eqn:S; [|discriminate]. destruct (pmem sub l0); [exact (N _ _ S)|destruct l0; discriminate].
  Qed.
  Lemma inner : forall sub vis V d, (forall v, In v vis -> exists a, v = p ++ [a]) -> let d' := fold_left (fun d v => if pmem v vis then note p sub d v else d) V d in
      (dict_ok d -> dict_ok d') /\ forall b u, noted d' b u <-> noted d b u \/ (u = sub /\ In (p ++ [b]) V /\ In (p ++ [b]) vis).
  Proof.
    intros sub vis V. induction V as [|v V IH]; intros d H; [cbn; split; [auto|intros b u; tauto]|]. cbn [fold_left]. destruct (pmem v vis) eqn:M.
    - destruct (IH (note p sub d v) H) as [D K]. split; [intros X; apply D, note_dict; exact X|]. intros b u. rewrite K, note_ok. apply pmem_in in M. destruct (H v M) as (a & ->). rewrite child_app. cbn [In]. split.
      + intros [[X|[-> ->]]|X]; tauto.
      + intros [X|(-> & [E|X] & Y)]; [tauto| |tauto]. apply app_inv_head in E. injection E as ->. tauto.
    - destruct (IH d H) as [D K]. split; [exact D|]. intros b u. rewrite K. apply pmem_out in M. cbn [In]. split; [tauto|]. intros [X|(-> & [E|X] & Y)]; [tauto|subst v; contradiction|tauto].
  Qed.
  Lemma visit_ok : forall order, NoDup order -> let st := fold_left (visit dfs p h) order ([], []) in
      dict_ok (snd st) /\ (forall x, In x (fst st) <-> exists a, In a order /\ x = p ++ [a]) /\
      forall b u, noted (snd st) b u <-> exists a, u = p ++ [a] /\ In a order /\ In (p ++ [b]) (dfs h (p ++ [a])) /\ (before order b a \/ b = a).
  Proof.
    induction order as [|x order IH] using rev_ind; intros ND.
    - cbn. split; [split; [constructor|discriminate]|]. split; [intros x; split; [intros []|intros (a & [] & _)]|]. intros b u. split; [intros (l & E & _); discriminate|intros (a & _ & [] & _)].
    - apply NoDup_app_inv in ND. destruct ND as (N1 & _ & D). assert (Nx : ~ In x order) by (intros K; apply (D x K); left; reflexivity). destruct (IH N1) as (DK & VI & NT). rewrite fold_left_app. set (st := fold_left (visit dfs p h) order ([], [])) in *. cbn [fold_left]. unfold visit. cbn [fst snd].
      assert (VI' : forall y, In y ((p ++ [x]) :: fst st) <-> exists a, In a (order ++ [x]) /\ y = p ++ [a]).
      { intros y. cbn [In]. rewrite VI. split.
        - intros [<-|(a & A & ->)]; [exists x; split; [apply in_or_app; right; left; reflexivity|reflexivity]|exists a; split; [apply in_or_app; left; exact A|reflexivity]].
        - intros (a & A & ->). apply in_app_or in A. destruct A as [A|[<-|[]]]; [right; eauto|left; reflexivity]. }
      destruct (inner (p ++ [x]) ((p ++ [x]) :: fst st) (dfs h (p ++ [x])) (snd st)) as [D' K]; [intros v V; apply VI' in V; destruct V as (a & _ & ->); eauto|].
      split; [apply D'; exact DK|]. split; [exact VI'|]. intros b u. rewrite K, NT. setoid_rewrite before_snoc; [|exact Nx..]. rewrite VI'. split.
      + intros [(a & -> & A & R & O)|(-> & R & (b' & B & E))]; [exists a; split; [reflexivity|]; split; [apply in_or_app; left; exact A|]; split; [exact R|tauto]|]. apply app_inv_head in E. injection E as <-. exists x. split; [reflexivity|]. split; [apply in_or_app; right; left; reflexivity|]. split; [exact R|]. apply in_app_or in B. destruct B as [B|[B|[]]]; auto.
      + intros (a & -> & A & R & O). destruct (string_dec a x) as [->|Nax].
        * right. split; [reflexivity|]. split; [exact R|]. exists b. split; [|reflexivity]. apply in_or_app. destruct O as [[O|[_ O]]|O]; [left; apply (before_in _ _ _ _ O)|left; exact O|right; left; auto].
        * left. exists a. split; [reflexivity|]. apply in_app_or in A. destruct A as [A|[A|[]]]; [|congruence]. split; [exact A|]. split; [exact R|]. destruct O as [[O|[O _]]|O]; [auto|congruence|auto].
  Qed.
  Lemma out_ok : forall order, NoDup order -> (forall b l, In (b, l) (out_of_order dfs p h order) -> l <> []) /\ NoDup (map fst (out_of_order dfs p h order)) /\
      forall a b, (exists l, In (b, l) (out_of_order dfs p h order) /\ In a l) <-> In a order /\ In (p ++ [b]) (dfs h (p ++ [a])) /\ (before order b a \/ b = a).
  Proof.
    intros order ND. destruct (visit_ok order ND) as ([DN DE] & _ & NT). unfold out_of_order. set (d := snd (fold_left (visit dfs p h) order ([], []))) in *.
    assert (G : forall b l, In (b, l) d <-> sget d b = Some l). { intros b l. split; [intros I; apply (in_dget String.eqb String.eqb_eq); assumption|apply (dget_in String.eqb String.eqb_eq)]. }
    split; [|split].
    - intros b l I. apply in_map_iff in I. destruct I as ([b' l'] & E & I). cbn in E. injection E as <- <-. apply G in I. pose proof (DE _ _ I). destruct l'; [congruence|discriminate].
    - rewrite map_map. exact DN.
    - intros a b. split.
      + intros (l & I & A). apply in_map_iff in I. destruct I as ([b' l'] & E & I). cbn in E. injection E as <- <-. apply in_map_iff in A. destruct A as (u & E & A). apply G in I. assert (N : noted d b' u) by (exists l'; auto). apply NT in N. destruct N as (a' & -> & O). rewrite child_app in E. subst a'. exact O.
      + intros O. assert (N : noted d b (p ++ [a])) by (apply NT; exists a; auto). destruct N as (l & E & I). exists (map (child_of p) l). split; [apply in_map_iff; exists (b, l); split; [reflexivity|apply G; exact E]|]. apply in_map_iff. exists (p ++ [a]). split; [apply child_app|exact I].
  Qed.
End Visit.

(** ** one group *)
Section Group.
  Variable sccs : graph path -> list (list path).
  Variable lt : path -> path -> bool.
  Variable dfs : graph path -> path -> list path.
  Hypothesis SCC : scc_spec sccs.
  Hypothesis DFS : dfs_spec dfs.
  Variables (t : stree) (conns : list (path * path * nat)) (p : path) (g : ginfo) (cs : list (string * stree)).
  Hypothesis W : wf_stree t.
  Hypothesis CO : conns_ok (erase t) conns.
  Hypothesis AP : at_path t p (SGrp g cs).
  Let sg := sys_graph (subsystems [] (erase t)) conns.
  Let order := map fst cs.
  Lemma order_nodup : NoDup order.
  Proof. pose proof (at_wf t p _ W AP) as X. inversion X; assumption. Qed.
  Lemma group_ok : exists c o broken h, graph_of_group sccs lt dfs sg (p, g, cs) = Some (Ok c, (p, o)) /\ break_cycles path_dec lt sccs (child_graph p sg) = Some (h, broken) /\
      Forall2 (fun l s => Permutation (map (fun a => p ++ [a]) l) s /\ StronglySorted (before order) l) c (strong_of sccs sg p) /\
      (forall u v, In (u, v) broken -> exists a b, u = p ++ [a] /\ v = p ++ [b] /\ feeds p conns a b /\ depends p conns b a) /\
      (forall b l, In (b, l) o -> l <> []) /\ NoDup (map fst o) /\
      forall a b, (exists l, In (b, l) o /\ In a l) <-> before order b a /\ needs p conns broken a b.
  Proof.
    destruct (facts t conns p g cs W CO AP) as (WF & HN & FE & FK). fold sg in WF, HN, FE.
    destruct (break_cycles_ok path_dec lt sccs SCC (child_graph p sg) WF) as (h & broken & E & F & D & X & AC).
    destruct (cycles_ok p order (strong_of sccs sg p)) as (c & C & CF); [intros s x S Y; exact (strong_nodes sccs SCC t conns p g cs W CO AP s x S Y)|intros s S; exact (strong_nodup sccs SCC t conns p g cs W CO AP s S)|].
    assert (WH : wf_graph h) by (apply (wf_edges (child_graph p sg)); [exact WF|exact F|intros u v K; apply D in K; tauto]).
    destruct (out_ok dfs p h order order_nodup) as (O1 & O2 & O3).
    exists c, (out_of_order dfs p h order), broken, h. split; [unfold graph_of_group; fold sg; rewrite E; fold order; rewrite C; reflexivity|]. split; [exact E|]. split; [exact CF|]. split; [|split; [exact O1|split; [exact O2|]]].
    - intros u v K. destruct (X u v K) as [Y R]. apply FE in Y. destruct Y as (a & b & -> & -> & Fab). exists a, b. repeat (split; [reflexivity || exact Fab|]). apply (depends_reach (child_graph p sg) p conns FE). exact R.
    - assert (NR : forall a b, needs p conns broken a b <-> reach h (p ++ [a]) (p ++ [b]) /\ a <> b).
      { assert (EH : forall a b, feeds p conns a b -> ~ In (p ++ [a], p ++ [b]) broken -> edge h (p ++ [a]) (p ++ [b])) by (intros a b Fab N; apply D; split; [apply FE; exists a, b; auto|exact N]).
        assert (NE : forall a b, needs p conns broken a b -> exists c, edge h (p ++ [a]) (p ++ [c]) /\ reach h (p ++ [c]) (p ++ [b])).
        { intros a b N. induction N as [a b Fab N|a b d Fab N M IH]; [exists b; split; [apply EH; assumption|constructor]|]. exists b. split; [apply EH; assumption|]. destruct IH as (e & E1 & E2). exact (reach_step _ _ _ _ E1 E2). }
        intros a b. split.
        - intros N. destruct (NE a b N) as (d & E1 & E2). split; [exact (reach_step _ _ _ _ E1 E2)|]. intros ->. exact (AC _ _ E1 E2).
        - intros [R N]. remember (p ++ [a]) as x eqn:Ex. remember (p ++ [b]) as y eqn:Ey. revert a Ex N. induction R as [x|x y z Exy R IH]; intros a Ex N; [rewrite Ex in Ey; apply app_inv_head in Ey; congruence|].
          subst x. pose proof (proj1 (D _ _) Exy) as [Y NB]. apply FE in Y. destruct Y as (a' & d & E1 & -> & Fab). apply app_inv_head in E1. injection E1 as <-. destruct (string_dec d b) as [->|Nd]; [apply needs_one; assumption|]. apply (needs_more _ _ _ a d b Fab NB). exact (IH Ey d eq_refl Nd). }
      intros a b. rewrite O3, NR. split.
      + intros (A & R & O). assert (NA : In (p ++ [a]) (fst h)) by (rewrite F; apply HN; eauto). apply (DFS h (p ++ [a]) (p ++ [b]) NA) in R. destruct R as [R N]. assert (b <> a) by congruence. split; [tauto|]. split; [exact R|congruence].
      + intros (B & R & N). destruct (before_in _ _ _ _ B) as [_ A]. split; [exact A|]. split; [|auto]. apply DFS; [rewrite F; apply HN; eauto|]. split; [exact R|]. intros K. apply app_inv_head in K. congruence.
  Qed.
  (** nothing is reported exactly when every connection that is not broken goes forward *)
  Lemma nothing_iff : forall broken (o : list (string * list string)), (forall b l, In (b, l) o -> l <> []) -> (forall a b, (exists l, In (b, l) o /\ In a l) <-> before order b a /\ needs p conns broken a b) ->
      (o = [] <-> forall a b, feeds p conns a b -> ~ In (p ++ [a], p ++ [b]) broken -> before order a b).
  Proof.
    intros broken o NE H. destruct (facts t conns p g cs W CO AP) as (_ & _ & _ & FK). split.
    - intros -> a b F N. destruct (FK a b F) as [A B]. destruct (before_total _ order a b A B (proj1 F)) as [K|K]; [exact K|]. exfalso. destruct (proj2 (H a b)) as (l & [] & _). split; [exact K|apply needs_one; assumption].
    - intros K. destruct o as [|[b l] o]; [reflexivity|]. exfalso. pose proof (NE b l (or_introl eq_refl)) as N. destruct l as [|a l]; [congruence|]. destruct (proj1 (H a b)) as [B ND]; [exists (a :: l); split; [left; reflexivity|left; reflexivity]|].
      apply (before_irrefl _ order b a order_nodup B). clear B NE H N. induction ND as [a b F M|a b d F M ND IH]; [apply K; assumption|]. apply (before_trans _ _ a b d order_nodup); [apply K; assumption|apply IH].
  Qed.
End Group.

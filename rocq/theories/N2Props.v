(** C127: the data of the N2 diagram. *)
From Coq Require Import Permutation.
From Verif Require Import Base BaseFacts ExprModel PathModel PathSpec PathProofs LcnModel LcnProofs TrvModel TrvSpec TrvProps N2Model N2Spec.
Local Open Scope list_scope.
Local Open Scope nat_scope.

(** * The tree and the order *)
Definition number (ps : list string) (i : nat) : list (string * nat) := combine ps (seq i (length ps)).
Lemma combine_app : forall A B (a c : list A) (b d : list B), length a = length b -> combine (a ++ c) (b ++ d) = combine a b ++ combine c d.
Proof. induction a as [|x a IH]; intros c [|y b] d L; try discriminate L; [reflexivity|]. cbn. rewrite IH by (cbn in L; lia). reflexivity. Qed.
Lemma number_app : forall a b i, number (a ++ b) i = number a i ++ number b (i + length a).
Proof. intros a b i. unfold number. rewrite app_length, seq_app, combine_app by (rewrite seq_length; reflexivity). reflexivity. Qed.
Definition comps (path : string) (x : sys) : list string := map fst (filter (fun e => negb (is_group (snd e))) (subsystems path x)).
Definition own (path : string) (x : sys) : list string := if is_group x then comps path x else [path].
Lemma comps_eq : forall path x, comps path x = flat_map (fun y => own (pathname path (name y)) y) (subs x).
Proof.
  intros path [n k l]. unfold comps. cbn [subsystems subs]. induction l as [|y l IH]; [reflexivity|]. cbn [flat_map]. rewrite filter_app, map_app, IH. f_equal. unfold own, comps. cbn [filter snd]. destruct (is_group y) eqn:G; cbn [negb filter map fst app]; reflexivity.
Qed.
Section Tree.
  Context {V : Type} (vars : sys -> list V).
  Definition children (path : string) := fix children (l : list sys) (st : list (string * nat) * nat) :=
    match l with
    | [] => ([], st)
    | y :: l =>
        let '(t, o, i) := walk vars (pathname path (name y)) y (fst st) (snd st) in
        let '(ts, st) := children l (o, i) in (t :: ts, st)
    end.
  Lemma walk_eq : forall path n k l o i, walk vars path (Sys n k l) o i =
    let r := children path l (if is_group (Sys n k l) then (o, i) else (o ++ [(path, i)], S i)) in
    (TSub n "subsystem" (is_group (Sys n k l)) (fst r ++ (if is_group (Sys n k l) then [] else map TVar (vars (Sys n k l)))), fst (snd r), snd (snd r)).
  Proof. reflexivity. Qed.
  Lemma walk_ok : forall x, tree_ok x -> forall path o i, exists t, walk vars path x o i = (t, o ++ number (own path x) i, i + length (own path x)) /\ depicts vars x t.
  Proof.
    induction x as [n k l IH] using sys_ind'. intros T path o i. rewrite walk_eq. rewrite Forall_forall in IH.
    assert (C : forall m, (forall y, In y m -> In y l) -> forall o i, exists ts, children path m (o, i) = (ts, (o ++ number (flat_map (fun y => own (pathname path (name y)) y) m) i, i + length (flat_map (fun y => own (pathname path (name y)) y) m))) /\ all_depict vars m ts).
    { induction m as [|y m IHm]; intros Im o' i'; [exists []; split; [cbn; rewrite app_nil_r, Nat.add_0_r; reflexivity|constructor]|]. destruct (IH y (Im y (or_introl eq_refl)) (proj1 (tree_child (Sys n k l) y T (Im y (or_introl eq_refl)))) (pathname path (name y)) o' i') as (t & E & D). destruct (IHm (fun z Z => Im z (or_intror Z)) (o' ++ number (own (pathname path (name y)) y) i') (i' + length (own (pathname path (name y)) y))) as (ts & Es & Ds). exists (t :: ts). cbn [children fst snd]. rewrite E. change ((fix children l (st : list (string * nat) * nat) := _) m) with (children path m). rewrite Es. split; [|constructor; assumption]. cbn [flat_map]. rewrite number_app, app_length, app_assoc, Nat.add_assoc. reflexivity. }
    unfold own. rewrite comps_eq. cbn [subs]. destruct (is_group (Sys n k l)) eqn:G.
    - destruct (C l (fun y I => I) o i) as (ts & E & D). rewrite E. cbn [fst snd]. eexists. split; [reflexivity|]. rewrite app_nil_r. apply (d_group vars (Sys n k l) ts G D).
    - assert (l = []) as ->. { destruct (T [] _ (r_here _)) as (K & _). apply K. unfold is_group in G. destruct (solvers (Sys n k l)); [discriminate|reflexivity]. }
      eexists. split; [cbn; rewrite Nat.add_1_r; reflexivity|]. cbn [children fst app]. apply (d_comp vars (Sys n k []) G).
  Qed.
  (** The tree has a node for each system below its group, and the components are numbered in
      the order of the list of all components. *)
  Theorem C127_tree : forall root, tree_ok root -> is_group root = true -> name root = ""%string ->
    exists c, system_tree vars root = (TSub "root" "root" true c, combine (component_paths root) (seq 0 (length (component_paths root)))) /\ all_depict vars (subs root) c.
  Proof.
    intros root T G N. unfold system_tree. destruct (walk_ok root T "" [] 0) as (t & -> & D). unfold own. rewrite G. inversion D as [x c _ A E1 E2|x G' E1 E2]; subst; [|congruence]. exists c. rewrite N. cbn. split; [reflexivity|exact A].
  Qed.
End Tree.
Print Assumptions C127_tree.
Lemma component_paths_nodup : forall root, tree_ok root -> NoDup (component_paths root).
Proof.
  intros root T. pose proof (C124_once root T) as N. unfold component_paths. induction (subsystems "" root) as [|e l IH]; [constructor|]. cbn in N. inversion N as [|? ? Ni N']; subst. cbn [filter]. destruct (negb (is_group (snd e))); [|apply IH; exact N']. cbn [map]. constructor; [|apply IH; exact N']. intros I. apply Ni. apply in_map_iff in I. destruct I as (f & E & I). apply filter_In in I. rewrite <- E. apply in_map. apply I.
Qed.
Lemma find_order : forall orders a o, NoDup (map fst orders) -> (order_of orders a = Ok o <-> In (a, o) orders).
Proof.
  intros orders a o N. unfold order_of. induction orders as [|[b p] l IH]; [split; [discriminate|intros []]|]. inversion N as [|? ? Ni N']; subst. cbn [find fst In]. destruct (String.eqb_spec b a) as [->|Ne].
  - cbn. split; [intros E; injection E as ->; left; reflexivity|intros [E|I]; [injection E as ->; reflexivity|]]. exfalso. apply Ni. exact (in_map fst _ _ I).
  - rewrite (IH N'). split; [right; assumption|intros [E|I]; [congruence|exact I]].
Qed.
Lemma combine_seq : forall (l : list string) i a o, In (a, o) (combine l (seq i (length l))) <-> i <= o /\ nth_error l (o - i) = Some a.
Proof.
  induction l as [|b l IH]; intros i a o; cbn [length seq combine In]; [split; [intros []|intros [_ H]; destruct (o - i); discriminate]|]. rewrite IH. split.
  - intros [E|[H E]]; [injection E as -> ->; split; [lia|rewrite Nat.sub_diag; reflexivity]|]. split; [lia|]. replace (o - i) with (S (o - S i)) by lia. exact E.
  - intros [H E]. destruct (o - i) as [|d] eqn:D; [left; cbn in E; injection E as ->; f_equal; lia|]. right. split; [lia|]. replace (o - S i) with d by lia. exact E.
Qed.
(** the order of a component is its place among all *)
Theorem C127_order : forall V (vars : sys -> list V) root, tree_ok root -> is_group root = true -> name root = ""%string ->
  forall c o, order_of (snd (system_tree vars root)) c = Ok o <-> nth_error (component_paths root) o = Some c.
Proof.
  intros V vars root T G N c o. destruct (C127_tree vars root T G N) as (ch & -> & _). cbn [snd]. rewrite find_order.
  - rewrite combine_seq, Nat.sub_0_r. split; [intros [_ E]; exact E|intros E; split; [lia|exact E]].
  - pose proof (component_paths_nodup root T) as D. revert D. generalize (component_paths root) 0. intros l. induction l as [|a l IH]; intros i D; [constructor|]. inversion D as [|? ? Ni D']; subst. cbn. constructor; [|apply IH; exact D']. intros I. apply Ni. apply in_map_iff in I. destruct I as ([b p] & <- & I). apply in_combine_l in I. exact I.
Qed.
Print Assumptions C127_order.

(** * The loops *)
Lemma before_last_none : forall s, dotless s -> before_last s = None.
Proof. induction s as [|c s IH]; intros H; [reflexivity|]. destruct H as [Hc H]. cbn. rewrite (IH H). destruct (Ascii.eqb_spec c "."%char); [contradiction|reflexivity]. Qed.
Lemma before_last_app : forall a v, dotless v -> before_last (append a (String "." v)) = Some a.
Proof. induction a as [|c a IH]; intros v H; cbn; [rewrite (before_last_none v H); reflexivity|rewrite (IH v H); reflexivity]. Qed.
Theorem C127_component : forall p v, p <> [] -> name_ok v -> rsplit_head (text (p ++ [v])) = text p.
Proof. intros p v P [_ D]. unfold rsplit_head. rewrite (text_last p v P). change (append "." v) with (String "." v). rewrite (before_last_app _ v D). reflexivity. Qed.
Print Assumptions C127_component.
Lemma smem_iff : forall a l, smem a l = true <-> In a l.
Proof. intros a l. unfold smem. rewrite existsb_exists. split; [intros (x & I & E); apply String.eqb_eq in E; subst; exact I|intros I; exists a; split; [exact I|apply String.eqb_refl]]. Qed.
Lemma space_split : forall a b x y, ~ In " "%char a -> ~ In " "%char b -> a ++ " "%char :: x = b ++ " "%char :: y -> a = b /\ x = y.
Proof.
  induction a as [|c a IH]; intros [|d b] x y A B E; cbn in E.
  - injection E as E. split; [reflexivity|exact E].
  - injection E as <- _. exfalso. apply B. left. reflexivity.
  - injection E as -> _. exfalso. apply A. left. reflexivity.
  - injection E as <- E. destruct (IH b x y) as [-> ->]; [intros H; apply A; right; exact H|intros H; apply B; right; exact H|exact E|split; reflexivity].
Qed.
Lemma t_inj : forall a b, t_ a = t_ b -> a = b.
Proof. intros a b E. rewrite <- (string_of_list_ascii_of_string a), <- (string_of_list_ascii_of_string b). unfold t_ in E. rewrite E. reflexivity. Qed.
Lemma edge_inj : forall a b c d, no_space a -> no_space c -> edge_str (a, b) = edge_str (c, d) -> (a, b) = (c, d).
Proof. intros a b c d A C E. unfold edge_str in E. cbn [fst snd] in E. apply (space_split (t_ a) (t_ c) (t_ b) (t_ d) A C) in E. destruct E as [E1 E2]. apply t_inj in E1, E2. congruence. Qed.
Lemma concat_unique : forall (sccs : list (list string)) li lj x, NoDup (concat sccs) -> In li sccs -> In lj sccs -> In x li -> In x lj -> li = lj.
Proof.
  induction sccs as [|l sccs IH]; intros li lj x N I J X Y; [contradiction|]. cbn in N.
  assert (D : forall z m, In m sccs -> In z l -> In z m -> False).
  { intros z m M Z1 Z2. revert N Z1. clear - M Z2. induction l as [|a l IHl]; intros N Z1; [contradiction|]. cbn in N. inversion N as [|? ? Ni N']; subst. destruct Z1 as [->|Z1]; [apply Ni; apply in_or_app; right; apply in_concat; exists m; split; assumption|exact (IHl N' Z1)]. }
  assert (N' : NoDup (concat sccs)) by (revert N; clear; induction l as [|a l IHl]; intros N; [exact N|]; inversion N; apply IHl; assumption).
  destruct I as [<-|I], J as [<-|J]; [reflexivity|exfalso; exact (D x lj J X Y)|exfalso; exact (D x li I Y X)|exact (IH li lj x N' I J X Y)].
Qed.
Section Arrows.
  Context (G : list (string * string)) (orders : list (string * nat)) (sccs : list (list string)).
  Hypothesis SC : scc_ok G sccs.
  Hypothesis OK : orders_ok orders sccs.
  Lemma order_total : forall a, In a (map fst orders) -> exists o, order_of orders a = Ok o /\ In (a, o) orders.
  Proof. intros a I. apply in_map_iff in I. destruct I as ([b o] & <- & I). exists o. cbn. split; [apply find_order; [apply OK|exact I]|exact I]. Qed.
  Lemma kept_ok : forall lo hi l, (forall a, In a l -> In a (map fst orders)) -> exists ns, kept orders lo hi l = Ok ns /\ forall n, In n ns <-> In n l /\ exists o, In (n, o) orders /\ lo <= o <= hi.
  Proof.
    intros lo hi. induction l as [|a l IH]; intros H; [exists []; split; [reflexivity|intros n; cbn; tauto]|]. destruct (order_total a (H a (or_introl eq_refl))) as (o & Eo & Io). destruct IH as (ns & E & I); [intros b B; apply H; right; exact B|]. cbn [kept]. rewrite Eo. cbn [bind]. rewrite E. cbn [bind]. eexists. split; [reflexivity|]. intros n.
    assert (U : forall o', In (a, o') orders -> o' = o) by (intros o' Io'; apply find_order in Io'; [congruence|apply OK]).
    destruct (Nat.ltb_spec o lo); cbn [orb]; [|destruct (Nat.ltb_spec hi o)]; cbn [In]; rewrite I.
    - split; [intros [A B]; split; [right; exact A|exact B]|]. intros [[->|A] B]; [|split; assumption]. destruct B as (o' & B & L). rewrite (U o' B) in L. lia.
    - split; [intros [A B]; split; [right; exact A|exact B]|]. intros [[->|A] B]; [|split; assumption]. destruct B as (o' & B & L). rewrite (U o' B) in L. lia.
    - split; [intros [->|[A B]]; [split; [left; reflexivity|exists o; split; [exact Io|lia]]|split; [right; exact A|exact B]]|]. intros [[->|A] B]; [left; reflexivity|right; split; assumption].
  Qed.
  Lemma cycle_none : forall src tgt l count, (forall li, In li l -> ~ (In src li /\ In tgt li)) -> cycle G orders src tgt l count = Ok [].
  Proof.
    intros src tgt. induction l as [|li l IH]; intros count H; [reflexivity|]. cbn [cycle]. destruct (smem src li && smem tgt li) eqn:B; [apply andb_true_iff in B; rewrite !smem_iff in B; exfalso; apply (H li (or_introl eq_refl) B)|]. apply IH. intros lj J. apply H. right. exact J.
  Qed.
  (** what is between two components in the order *)
  Definition between (src tgt a : string) : Prop := exists o s t, In (a, o) orders /\ In (src, s) orders /\ In (tgt, t) orders /\ Nat.min s t <= o <= Nat.max s t.
  Lemma cycle_ok : forall src tgt, no_space src -> (forall e, In e G -> no_space (fst e)) -> exists l, cycle G orders src tgt sccs 0 = Ok l /\
    forall e, In e l <-> exists a b, e = edge_str (a, b) /\ In (a, b) G /\ (a, b) <> (src, tgt) /\ in_loop G src tgt /\ in_loop G a src /\ in_loop G b src /\ between src tgt a /\ between src tgt b.
  Proof.
    intros src tgt Ns Ng. destruct SC as (N & Loop & Ex). destruct OK as (O1 & O2 & O3).
    assert (D : (exists li, In li sccs /\ In src li /\ In tgt li) \/ (forall li, In li sccs -> ~ (In src li /\ In tgt li))).
    { destruct (existsb (fun li => smem src li && smem tgt li) sccs) eqn:X.
      - left. apply existsb_exists in X. destruct X as (li & I & X). apply andb_true_iff in X. rewrite !smem_iff in X. exists li. tauto.
      - right. intros li I [A B]. assert (existsb (fun li => smem src li && smem tgt li) sccs = true); [|congruence]. apply existsb_exists. exists li. split; [exact I|]. apply andb_true_iff. rewrite !smem_iff. tauto. }
    destruct D as [(li & Il & S & T)|No].
    - destruct (order_total src (O3 li src Il S)) as (os & Es & Is). destruct (order_total tgt (O3 li tgt Il T)) as (ot & Et & It).
      destruct (kept_ok (Nat.min ot os) (Nat.max ot os) li (fun a A => O3 li a Il A)) as (ns & Ek & K).
      set (l := filter (fun s => negb (teqb s (edge_str (src, tgt)))) (map edge_str (filter (fun e => smem (fst e) ns && smem (snd e) ns) G))).
      exists l. split.
      + assert (Cy : forall m, NoDup (concat m) -> (forall lj, In lj m -> In lj sccs) -> In li m -> cycle G orders src tgt m 0 = Ok l).
        { induction m as [|lj m IH]; intros Nm Sub I; [contradiction|]. cbn [cycle]. destruct (smem src lj && smem tgt lj) eqn:B.
          - apply andb_true_iff in B. rewrite !smem_iff in B. assert (lj = li) as -> by (apply (concat_unique sccs lj li src N); [apply Sub; left; reflexivity|exact Il|apply B|exact S]). change (1 <? 1) with false. cbn match. rewrite Et. cbn [bind]. rewrite Es. cbn [bind]. rewrite Ek. cbn [bind]. rewrite cycle_none; [cbn [bind]; rewrite app_nil_r; reflexivity|].
            intros lk J [A _]. cbn in Nm. clear - Nm J A S. induction li as [|z li IHl]; [contradiction|]. cbn in Nm. inversion Nm as [|? ? Ni N']; subst. destruct S as [->|S]; [apply Ni; apply in_or_app; right; apply in_concat; exists lk; split; assumption|exact (IHl S N')].
          - destruct I as [->|I]; [apply not_true_iff_false in B; exfalso; apply B; apply andb_true_iff; rewrite !smem_iff; tauto|]. apply IH; [|intros lk J; apply Sub; right; exact J|exact I]. cbn in Nm. clear - Nm. induction lj as [|z lj IHl]; [exact Nm|]. inversion Nm. apply IHl. assumption. }
        apply (Cy sccs N (fun lj J => J) Il).
      + assert (Bt : forall a, between src tgt a <-> exists o, In (a, o) orders /\ Nat.min ot os <= o <= Nat.max ot os).
        { intros a. split.
          - intros (o & s & t & A & B & C & L). apply (find_order orders src s O1) in B. apply (find_order orders tgt t O1) in C. exists o. split; [exact A|]. assert (s = os) by congruence. assert (t = ot) by congruence. subst. lia.
          - intros (o & A & L). exists o, os, ot. repeat (split; [assumption|]). lia. }
        intros e. unfold l. rewrite filter_In, in_map_iff. split.
        * intros [([a b] & <- & I) Ne]. apply filter_In in I. destruct I as [I M]. cbn [fst snd] in M. apply andb_true_iff in M. rewrite !smem_iff, !K in M. destruct M as [[A Ba] [B Bb]]. exists a, b. split; [reflexivity|]. split; [exact I|]. split; [intros E; rewrite E in Ne; rewrite teqb_refl in Ne; discriminate|]. split; [exact (Loop li src tgt Il S T)|]. split; [exact (Loop li a src Il A S)|]. split; [exact (Loop li b src Il B S)|]. split; apply Bt; assumption.
        * intros (a & b & -> & I & Ne & _ & La & Lb & Ba & Bb).
          assert (M : forall c, in_loop G c src -> In c li). { intros c L. destruct (string_dec c src) as [->|Nc]; [exact S|]. destruct (Ex c src Nc L) as (lj & J & C & S'). rewrite (concat_unique sccs li lj src N Il J S S'). exact C. }
          split.
          -- exists (a, b). split; [reflexivity|]. apply filter_In. split; [exact I|]. cbn [fst snd]. apply andb_true_iff. rewrite !smem_iff, !K. split; (split; [apply M; assumption|apply Bt; assumption]).
          -- destruct (teqb_spec (edge_str (a, b)) (edge_str (src, tgt))) as [E|_]; [|reflexivity]. exfalso. apply Ne. apply edge_inj; [exact (Ng _ I)|exact Ns|exact E].
    - exists []. split; [apply cycle_none; exact No|]. intros e. split; [intros []|]. intros (a & b & -> & I & Ne & L & La & Lb & Ba & Bb). destruct (string_dec src tgt) as [<-|Nt].
      + assert (U : forall c, between src src c -> c = src).
        { intros c (o & s & t & A & B & C & H). apply (find_order orders src s O1) in B as B'. apply (find_order orders src t O1) in C as C'. assert (o = s) as -> by (rewrite B' in C'; injection C' as <-; lia). clear - A B O2. induction orders as [|[x y] l IH]; [contradiction|]. inversion O2 as [|? ? Ni N']; subst. destruct A as [A|A], B as [B|B]; [congruence|injection A as -> ->; exfalso; apply Ni; exact (in_map snd _ _ B)|injection B as -> ->; exfalso; apply Ni; exact (in_map snd _ _ A)|exact (IH N' A B)]. }
        exfalso. apply Ne. rewrite (U a Ba), (U b Bb). reflexivity.
      + exfalso. destruct (Ex src tgt Nt L) as (li & J & S & T). exact (No li J (conj S T)).
  Qed.
End Arrows.
(** A connection between two components of a loop is listed with the other edges of the loop
    that lie between them in the order, sorted; any other connection with none.  An error
    cannot occur. *)
Theorem C127_arrows : forall G orders sccs src tgt, scc_ok G sccs -> orders_ok orders sccs -> no_space (rsplit_head src) -> (forall e, In e G -> no_space (fst e)) ->
  exists l, arrows G orders sccs src tgt = Ok l /\ chain (fun x => x) l /\
  forall e, In e l <-> exists a b, e = edge_str (a, b) /\ In (a, b) G /\ (a, b) <> (rsplit_head src, rsplit_head tgt) /\ in_loop G (rsplit_head src) (rsplit_head tgt) /\
    in_loop G a (rsplit_head src) /\ in_loop G b (rsplit_head src) /\ between orders (rsplit_head src) (rsplit_head tgt) a /\ between orders (rsplit_head src) (rsplit_head tgt) b.
Proof.
  intros G orders sccs src tgt SC OK Ns Ng. destruct (cycle_ok G orders sccs SC OK (rsplit_head src) (rsplit_head tgt) Ns Ng) as (l & E & H). exists (sorted_by (fun x => x) l). unfold arrows. rewrite E. split; [reflexivity|]. split; [apply sorted_chain|]. intros e. rewrite <- H. split; apply Permutation_in; [apply Permutation_sym|]; apply sorted_perm.
Qed.
Print Assumptions C127_arrows.

(** three components in a loop and one after it *)
Definition n2_root : sys := Sys "" (Some (Basic 0%Z, Basic 0%Z)) [Sys "a" None []; Sys "g" (Some (Basic 0%Z, Basic 0%Z)) [Sys "b" None []; Sys "c" None []]; Sys "d" None []].
Definition n2_graph : list (string * string) := [("a", "g.b"); ("g.b", "g.c"); ("g.c", "a"); ("g.c", "d")]%string.
Example C127_ex : snd (system_tree (fun x => [name x]) n2_root) = [("a", 0); ("g.b", 1); ("g.c", 2); ("d", 3)]%string
  /\ arrows n2_graph (snd (system_tree (fun x => [name x]) n2_root)) [["a"; "g.b"; "g.c"]]%string "g.c.y" "a.x" = Ok [t_ "a g.b"; t_ "g.b g.c"]
  /\ arrows n2_graph (snd (system_tree (fun x => [name x]) n2_root)) [["a"; "g.b"; "g.c"]]%string "a.y" "g.b.x" = Ok []
  /\ arrows n2_graph (snd (system_tree (fun x => [name x]) n2_root)) [["a"; "g.b"; "g.c"]]%string "g.c.y" "d.x" = Ok [].
Proof. vm_compute. repeat split. Qed.

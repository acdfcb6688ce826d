(** Lemmas about the checks of linear solvers. *)
From Coq Require Import Permutation.
From Verif Require Import Base BaseFacts GraphSpec GraphProofs OrderModel OrderSpec OrderProofs OrderProofs2 CksModel CksSpec.
Local Open Scope string_scope.
Local Open Scope nat_scope.
Local Open Scope list_scope.

(** ** the tree *)
Fixpoint stree_ind' (P : stree -> Prop) (HC : forall s o, P (SComp s o)) (HG : forall g cs, (forall n c, In (n, c) cs -> P c) -> P (SGrp g cs)) (t : stree) : P t :=
  match t with
  | SComp s o => HC s o
  | SGrp g cs => HG g cs ((fix go (l : list (string * stree)) : forall n c, In (n, c) l -> P c :=
                         match l with
                         | [] => fun n c H => match H with end
                         | (m, d) :: r => fun n c H => match H with
                                                      | or_introl E => eq_ind d P (stree_ind' P HC HG d) c (f_equal snd E)
                                                      | or_intror K => go r n c K
                                                      end
                         end) cs)
  end.
Lemma peqb_eq : forall a b, peqb a b = true <-> a = b.
Proof. intros a b. unfold peqb. destruct (path_dec a b); split; congruence. Qed.
Lemma pmem_in : forall x l, pmem x l = true <-> In x l.
Proof. intros x l. unfold pmem. rewrite existsb_exists. split; [intros (y & A & B); apply peqb_eq in B; subst; exact A|intros A; exists x; split; [exact A|apply peqb_eq; reflexivity]]. Qed.
Lemma pmem_out : forall x l, pmem x l = false <-> ~ In x l.
Proof. intros x l. rewrite <- pmem_in. destruct (pmem x l); split; congruence. Qed.

Lemma getattr_at : forall q t c, wf_stree t -> (getattr t q = Some c <-> at_path t q c).
Proof.
  induction q as [|a q IH]; intros t c W; cbn [getattr].
  - split; [intros E; injection E as ->; constructor|intros H; inversion H; reflexivity].
  - destruct t as [s o|g cs]; [split; [discriminate|intros H; inversion H]|]. inversion W as [|? ? N WC]; subst. split.
    + destruct (sget cs a) as [d|] eqn:E; [|discriminate]. intros H. apply (dget_in String.eqb String.eqb_eq) in E. econstructor; [exact E|]. apply IH; [exact (WC a d E)|exact H].
    + intros H. inversion H as [|? ? ? d ? ? Hin Hq]; subst. replace (sget cs a) with (Some d); [apply IH; [exact (WC a d Hin)|exact Hq]|]. symmetry. clear -N Hin. induction cs as [|[m e] cs IH]; [destruct Hin|]. inversion N as [|? ? Nm N']; subst. unfold sget. cbn [dget].
      destruct Hin as [E|Hin]; [injection E as -> ->; rewrite String.eqb_refl; reflexivity|]. destruct (String.eqb_spec a m) as [->|]; [exfalso; apply Nm; apply (in_map fst) in Hin; exact Hin|apply IH; assumption].
Qed.
Lemma at_fun : forall t q c d, wf_stree t -> at_path t q c -> at_path t q d -> c = d.
Proof. intros t q c d W A B. apply (getattr_at q t c W) in A. apply (getattr_at q t d W) in B. congruence. Qed.
Lemma at_app : forall t p c q d, at_path t p c -> at_path c q d -> at_path t (p ++ q) d.
Proof. intros t p c q d A B. induction A as [|g cs n e p t I A IH]; [exact B|]. econstructor; [exact I|apply IH; exact B]. Qed.
Lemma at_split : forall p t q d, at_path t (p ++ q) d -> exists c, at_path t p c /\ at_path c q d.
Proof.
  induction p as [|a p IH]; intros t q d H; [exists t; split; [constructor|exact H]|]. cbn in H. inversion H as [|g cs n c ? ? I K]; subst. destruct (IH c q d K) as (e & A & B). exists e. split; [econstructor; eassumption|exact B].
Qed.
Lemma at_wf : forall t p c, wf_stree t -> at_path t p c -> wf_stree c.
Proof. intros t p c W A. induction A as [|g cs n e p t I A IH]; [exact W|]. inversion W as [|? ? _ WC]; subst. apply IH. exact (WC n e I). Qed.
(** between the root and a system below it there are groups *)
Lemma at_strict : forall t p r c, r <> [] -> at_path t (p ++ r) c -> exists g cs, at_path t p (SGrp g cs).
Proof. intros t p r c N H. apply at_split in H. destruct H as (d & A & B). inversion B as [|g cs n e q u I K]; subst; [contradiction|]. exists g, cs. exact A. Qed.

Lemma groups_in : forall t p n g cs, In (n, g, cs) (groups p t) <-> exists q, n = p ++ q /\ at_path t q (SGrp g cs).
Proof.
  induction t as [s o|g0 cs0 IH] using stree_ind'; intros p n g cs.
  - cbn. split; [intros []|intros (q & _ & H); inversion H].
  - cbn [groups]. split.
    + intros [E|K]; [injection E as <- <- <-; exists []; rewrite app_nil_r; split; [reflexivity|constructor]|].
      assert (G : exists m c, In (m, c) cs0 /\ In (n, g, cs) (groups (p ++ [m]) c)).
      { clear IH. revert K. generalize cs0. intros l. induction l as [|[m c] l IH]; [intros []|]. intros K. apply in_app_or in K. destruct K as [K|K]; [exists m, c; split; [left; reflexivity|exact K]|]. destruct (IH K) as (m' & c' & A & B). exists m', c'. split; [right; exact A|exact B]. }
      destruct G as (m & c & I & G). apply (IH m c I) in G. destruct G as (q & -> & G). exists (m :: q). rewrite <- app_assoc. split; [reflexivity|]. econstructor; eassumption.
    + intros (q & -> & H). inversion H as [|? ? m c q' ? I A]; subst; [left; rewrite app_nil_r; reflexivity|]. right.
      assert (G : In (p ++ m :: q', g, cs) (groups (p ++ [m]) c)) by (apply (IH m c I); exists q'; rewrite <- app_assoc; split; [reflexivity|exact A]).
      clear IH H A. revert I G. generalize cs0. intros l I G. induction l as [|[m' c'] l IH]; [destruct I|]. apply in_or_app. destruct I as [E|I]; [injection E as -> ->; left; exact G|right; apply IH; exact I].
Qed.
Lemma states_in : forall t p s, In s (states_of p t) <-> exists q sts own r, at_path t q (SComp sts own) /\ In r sts /\ s = p ++ q ++ r.
Proof.
  induction t as [s0 o0|g0 cs0 IH] using stree_ind'; intros p s.
  - cbn [states_of]. rewrite in_map_iff. split; [intros (r & <- & K); exists [], s0, o0, r; split; [constructor|auto]|]. intros (q & sts & own & r & A & K & ->). inversion A; subst. exists r. auto.
  - cbn [states_of]. split.
    + intros K. assert (G : exists m c, In (m, c) cs0 /\ In s (states_of (p ++ [m]) c)).
      { clear IH. revert K. generalize cs0. intros l. induction l as [|[m c] l IH]; [intros []|]. intros K. apply in_app_or in K. destruct K as [K|K]; [exists m, c; split; [left; reflexivity|exact K]|]. destruct (IH K) as (m' & c' & A & B). exists m', c'. split; [right; exact A|exact B]. }
      destruct G as (m & c & I & G). apply (IH m c I) in G. destruct G as (q & sts & own & r & A & R & ->). exists (m :: q), sts, own, r. rewrite <- app_assoc. split; [econstructor; eassumption|auto].
    + intros (q & sts & own & r & A & R & ->). inversion A as [|? ? m c q' ? I A']; subst.
      assert (G : In (p ++ (m :: q') ++ r) (states_of (p ++ [m]) c)) by (apply (IH m c I); exists q', sts, own, r; rewrite <- app_assoc; split; [exact A'|auto]).
      clear IH A A'. revert I G. generalize cs0. intros l I G. induction l as [|[m' c'] l IH]; [destruct I|]. apply in_or_app. destruct I as [E|I]; [injection E as -> ->; left; exact G|right; apply IH; exact I].
Qed.

(** the groups above a group come before it *)
Lemma app_split : forall A (a b c d : list A) x, a ++ b = c ++ x :: d -> (exists d', a = c ++ x :: d' /\ d = d' ++ b) \/ exists c', c = a ++ c' /\ b = c' ++ x :: d.
Proof.
  intros A a. induction a as [|y a IH]; intros b c d x E; [right; exists c; auto|]. destruct c as [|z c]; cbn in E; [injection E as -> <-; left; exists a; auto|]. injection E as -> E. destruct (IH b c d x E) as [(d' & -> & ->)|(c' & -> & ->)]; [left; exists d'; auto|right; exists c'; auto].
Qed.
Lemma groups_order : forall t p l1 n g cs l2, groups p t = l1 ++ (n, g, cs) :: l2 -> forall q1 r, n = p ++ q1 ++ r -> r <> [] -> exists g' cs', In (p ++ q1, g', cs') l1.
Proof.
  induction t as [s o|g0 cs0 IH] using stree_ind'; intros p l1 n g cs l2 E q1 r En Nr; [destruct l1; discriminate|].
  cbn [groups] in E. destruct l1 as [|e l1]; [injection E as <- _ _ _; exfalso; apply Nr; assert (L : length p = length (p ++ q1 ++ r)) by (rewrite <- En; reflexivity); rewrite !app_length in L; destruct r; [reflexivity|cbn in L; lia]|].
  injection E as <- E. destruct q1 as [|m q1]; [exists g0, cs0; left; rewrite app_nil_r; reflexivity|].
  assert (G : exists g' cs', In (p ++ m :: q1, g', cs') l1); [|destruct G as (g' & cs' & G); exists g', cs'; right; exact G].
  revert l1 E IH. generalize cs0 at 1 2. intros l. induction l as [|[m0 c0] l IHl]; intros l1 E IH; [destruct l1; discriminate|].
  apply app_split in E. destruct E as [(d' & E & _)|(c' & -> & E)].
  - assert (K : In (n, g, cs) (groups (p ++ [m0]) c0)) by (rewrite E; apply in_or_app; right; left; reflexivity). apply groups_in in K. destruct K as (q & Eq & _). rewrite Eq in En. rewrite <- app_assoc in En. apply app_inv_head in En. cbn in En. injection En as -> Eq'.
    destruct (IH m c0 (or_introl eq_refl) _ _ _ _ _ _ E q1 r) as (g' & cs' & K); [rewrite Eq, Eq'; reflexivity|exact Nr|]. exists g', cs'. rewrite <- app_assoc in K. exact K.
  - destruct (IHl c' E (fun n c H => IH n c (or_intror H))) as (g' & cs' & K). exists g', cs'. apply in_or_app. right. exact K.
Qed.

(** ** groups above *)
Definition group_iter (t : stree) (q : path) : bool := match getattr t q with Some (SGrp g _) => iterates (g_ln g) | _ => false end.
Definition aboveb (t : stree) (p : path) : bool := existsb (group_iter t) (uppers p).
Lemma iterates_iff : forall k, iterates k = true <-> coupled k.
Proof. intros [n|n|]; unfold iterates, coupled; rewrite ?Nat.ltb_lt; split; auto. Qed.
Lemma uppers_in : forall p q, In q (uppers p) <-> (p = [] /\ q = []) \/ exists r, r <> [] /\ p = q ++ r.
Proof.
  intros p q. unfold uppers. destruct p as [|a p].
  - cbn. split; [intros [<-|[]]; left; auto|]. intros [[_ ->]|(r & N & E)]; [auto|]. symmetry in E. apply app_eq_nil in E. tauto.
  - rewrite in_map_iff. split.
    + intros (i & <- & I). apply in_seq in I. right. exists (skipn i (a :: p)). split; [|symmetry; apply firstn_skipn]. intros K. assert (L : length (skipn i (a :: p)) = 0) by (rewrite K; reflexivity). rewrite skipn_length in L. lia.
    + intros [[E _]|(r & N & E)]; [discriminate|]. exists (length q). split; [rewrite E, firstn_app, firstn_all, Nat.sub_diag; cbn; apply app_nil_r|]. apply in_seq. rewrite E, app_length. destruct r; [contradiction|cbn; lia].
Qed.
Lemma aboveb_iff : forall t p, wf_stree t -> (aboveb t p = true <-> covered t p \/ (p = [] /\ exists g cs, at_path t [] (SGrp g cs) /\ coupled (g_ln g))).
Proof.
  intros t p W. unfold aboveb. rewrite existsb_exists. unfold group_iter. split.
  - intros (q & U & K). destruct (getattr t q) as [[s o|g cs]|] eqn:E; try discriminate. apply (getattr_at q t _ W) in E. apply iterates_iff in K. apply uppers_in in U. destruct U as [[-> ->]|(r & N & ->)]; [right; split; [reflexivity|exists g, cs; auto]|left; exists q, r, g, cs; auto].
  - intros [(q & r & g & cs & -> & N & A & K)|(-> & g & cs & A & K)].
    + exists q. split; [apply uppers_in; right; exists r; auto|]. apply (getattr_at q t _ W) in A. rewrite A. apply iterates_iff. exact K.
    + exists []. split; [left; reflexivity|]. apply (getattr_at [] t _ W) in A. rewrite A. apply iterates_iff. exact K.
Qed.
Lemma any_ok : forall d t l, (forall q, In q l -> dget peqb d q = Some (group_iter t q)) -> any_iterates d l = Ok (existsb (group_iter t) l).
Proof.
  intros d t. induction l as [|q l IH]; intros H; [reflexivity|]. cbn [any_iterates existsb]. rewrite (H q (or_introl eq_refl)). destruct (group_iter t q); [reflexivity|]. cbn. apply IH. intros r K. apply H. right. exact K.
Qed.

(** ** the states *)
Definition own_of (t : stree) (s : path) : bool := match getattr t (removelast s) with Some c => negb (needs_iteration c) | None => false end.
Lemma own_ok : forall t sts it, (forall s, In s sts -> getattr t (removelast s) <> None) -> exists it', own_solvers t sts it = Ok it' /\ forall x, In x it' <-> In x it \/ (In x sts /\ own_of t x = true).
Proof.
  intros t. induction sts as [|s sts IH]; intros it H; cbn [own_solvers]; [exists it; split; [reflexivity|]; intros x; cbn; tauto|]. assert (H' : forall x, In x sts -> getattr t (removelast x) <> None) by (intros x K; apply H; right; exact K). destruct (pmem s it) eqn:E.
  - apply pmem_in in E. destruct (IH it H') as (it' & R & I). exists it'. split; [exact R|]. intros x. rewrite I. cbn. split; [tauto|]. intros [K|[[->|K] O]]; tauto.
  - destruct (getattr t (removelast s)) as [c|] eqn:G; [|exfalso; exact (H s (or_introl eq_refl) G)].
    destruct (IH (if needs_iteration c then it else it ++ [s]) H') as (it' & R & I). exists it'. split; [exact R|]. intros x. rewrite I. assert (O : own_of t s = negb (needs_iteration c)) by (unfold own_of; rewrite G; reflexivity). cbn [In]. destruct (needs_iteration c); cbn [negb] in O.
    + split; [tauto|]. intros [K|[[->|K] OX]]; [tauto|congruence|tauto].
    + rewrite in_app_iff. cbn [In]. split; [intros [[K|[<-|[]]]|K]; tauto|]. intros [K|[[->|K] OX]]; tauto.
Qed.

(** ** the loop over the groups *)
Section Loop.
  Variable sccs : graph path -> list (list path).
  Variables (t : stree) (sg : graph path).
  Hypothesis W : wf_stree t.
  Hypothesis PL : plain_states t.
  Notation entry := (path * ginfo * list (string * stree))%type.
  Definition ge (e : entry) : list problem := let '(p, g, cs) := e in cs_errors t p g ++ if aboveb t p then [] else cycle_errors sccs sg p (g_ln g).
  Definition gg (e : entry) : list (path * list path) := let '(p, g, cs) := e in if aboveb t p then [] else match states_of p (SGrp g cs) with [] => [] | sts => [(p, sts)] end.
  Definition settled (e : entry) (s : path) : Prop := let '(p, g, cs) := e in aboveb t p = false /\ In s (states_of p (SGrp g cs)) /\ (iterates (g_ln g) = true \/ own_of t s = true).
  Record inv (l : list entry) (a : acc) : Prop := {
    i_iter : forall p, (exists g cs, In (p, g, cs) l) -> dget peqb (a_iter a) p = Some (group_iter t p);
    i_errs : a_errs a = flat_map ge l;
    i_groups : a_groups a = flat_map gg l;
    i_states : forall s, In s (a_states a) <-> exists e, In e l /\ settled e s }.
  Lemma state_comp : forall p g cs s, at_path t p (SGrp g cs) -> In s (states_of p (SGrp g cs)) -> exists q v sts own, at_path t q (SComp sts own) /\ In [v] sts /\ s = q ++ [v] /\ exists r, r <> [] /\ q = p ++ r.
  Proof.
    intros p g cs s A K. apply states_in in K. destruct K as (q & sts & own & r & B & R & ->). pose proof (at_app _ _ _ _ _ A B) as C. destruct (PL _ _ _ _ C R) as (v & ->). exists (p ++ q), v, sts, own. split; [exact C|]. split; [exact R|]. split; [apply app_assoc|]. exists q. split; [|reflexivity]. intros ->. inversion B.
  Qed.
  Lemma own_val : forall q v sts own, at_path t q (SComp sts own) -> In [v] sts -> own_of t (q ++ [v]) = own.
  Proof. intros q v sts own A I. unfold own_of. rewrite removelast_last. apply (getattr_at q t _ W) in A. rewrite A. destruct sts; [destruct I|]. cbn. destruct own; reflexivity. Qed.
  Lemma loop : forall l2 l1 a, groups [] t = l1 ++ l2 -> inv l1 a -> exists a', check_groups sccs t sg a l2 = Ok a' /\ inv (l1 ++ l2) a'.
  Proof.
    induction l2 as [|[[p g] cs] l2 IH]; intros l1 a E I; [exists a; rewrite app_nil_r; split; [reflexivity|exact I]|].
    assert (AP : at_path t p (SGrp g cs)). { assert (K : In (p, g, cs) (groups [] t)) by (rewrite E; apply in_or_app; right; left; reflexivity). apply groups_in in K. destruct K as (q & -> & K). exact K. }
    assert (GI : group_iter t p = iterates (g_ln g)) by (unfold group_iter; rewrite (proj2 (getattr_at p t _ W) AP); reflexivity).
    cbn [check_groups]. set (iter := dset peqb (a_iter a) p (iterates (g_ln g))).
    assert (IT : forall q, (exists g' cs', In (q, g', cs') (l1 ++ [(p, g, cs)])) \/ q = p -> dget peqb iter q = Some (group_iter t q)).
    { intros q K. unfold iter. rewrite (dget_dset peqb peqb_eq). destruct (peqb q p) eqn:Q; [apply peqb_eq in Q; subst; rewrite GI; reflexivity|]. assert (Nq : q <> p) by (intros ->; rewrite (proj2 (peqb_eq p p) eq_refl) in Q; discriminate).
      destruct K as [(g' & cs' & K)|K]; [|congruence]. apply (i_iter l1 a I). apply in_app_or in K. destruct K as [K|K]; [exists g', cs'; exact K|]. exfalso. revert K. cbn. intros [K|[]]. congruence. }
    assert (ST : forall s, In s (states_of p (SGrp g cs)) -> getattr t (removelast s) <> None).
    { intros s K. destruct (state_comp p g cs s AP K) as (q & v & sts & own & B & _ & -> & _). rewrite removelast_last. apply (getattr_at q t _ W) in B. rewrite B. discriminate. }
    assert (NX : exists a1, check_group sccs t sg a (p, g, cs) = Ok a1 /\ inv (l1 ++ [(p, g, cs)]) a1).
    { unfold check_group. fold iter. cbv zeta.
      rewrite (any_ok iter t (uppers p)).
    2:{ intros q U. apply IT. apply uppers_in in U. destruct U as [[-> ->]|(r & N & Er)]; [right; reflexivity|]. left. destruct (groups_order t [] l1 p g cs l2 E q r Er N) as (g' & cs' & K). exists g', cs'. apply in_or_app. left. exact K. }
      fold (aboveb t p). cbn [bind]; cbv zeta.
      assert (SX : forall it, (forall s, In s it <-> In s (a_states a) \/ settled (p, g, cs) s) -> forall s, In s it <-> exists e, In e (l1 ++ [(p, g, cs)]) /\ settled e s).
      { intros it H s. rewrite H, (i_states l1 a I). split.
        - intros [(e & K & X)|X]; [exists e; split; [apply in_or_app; left; exact K|exact X]|exists (p, g, cs); split; [apply in_or_app; right; left; reflexivity|exact X]].
        - intros (e & K & X). apply in_app_or in K. destruct K as [K|[<-|[]]]; [left; exists e; auto|right; exact X]. }
      assert (IT' : forall q, (exists g' cs', In (q, g', cs') (l1 ++ [(p, g, cs)])) -> dget peqb iter q = Some (group_iter t q)) by (intros q K; apply IT; left; exact K).
      destruct (aboveb t p) eqn:AB.
      - eexists. split; [reflexivity|]. constructor; cbn [a_iter a_errs a_groups a_states]; [exact IT'| | |].
        + rewrite flat_map_app, (i_errs l1 a I). cbn [flat_map ge]. rewrite AB, !app_nil_r. reflexivity.
        + rewrite flat_map_app, (i_groups l1 a I). cbn [flat_map gg]. rewrite AB, !app_nil_r. reflexivity.
        + apply SX. intros s. cbn [settled]. rewrite AB. split; [auto|intros [K|[K _]]; [exact K|discriminate]].
      - assert (ER : (a_errs a ++ cs_errors t p g) ++ cycle_errors sccs sg p (g_ln g) = flat_map ge (l1 ++ [(p, g, cs)])) by (rewrite flat_map_app, (i_errs l1 a I); cbn [flat_map ge]; rewrite AB, app_nil_r, app_assoc; reflexivity).
        destruct (states_of p (SGrp g cs)) as [|s0 sts] eqn:ES.
        + eexists. split; [reflexivity|]. constructor; cbn [a_iter a_errs a_groups a_states]; [exact IT'|exact ER| |].
          * rewrite flat_map_app, (i_groups l1 a I). cbn [flat_map gg]. rewrite AB, ES, !app_nil_r. reflexivity.
          * apply SX. intros s. cbn [settled]. rewrite ES. cbn [In]. tauto.
        + assert (GR : a_groups a ++ [(p, s0 :: sts)] = flat_map gg (l1 ++ [(p, g, cs)])) by (rewrite flat_map_app, (i_groups l1 a I); cbn [flat_map gg]; rewrite AB, ES; reflexivity).
          destruct (iterates (g_ln g)) eqn:EI.
          * eexists. split; [reflexivity|]. constructor; cbn [a_iter a_errs a_groups a_states]; [exact IT'|exact ER|exact GR|]. apply SX. intros s. cbn [settled]. rewrite in_app_iff, ES, EI, AB. tauto.
          * destruct (own_ok t (s0 :: sts) (a_states a) ST) as (it' & R & H). cbv zeta; rewrite R. cbn [bind]. eexists. split; [reflexivity|]. constructor; cbn [a_iter a_errs a_groups a_states]; [exact IT'|exact ER|exact GR|]. apply SX. intros s. rewrite H. cbn [settled]. rewrite ES, EI, AB. intuition discriminate. }
    destruct NX as (a1 & R & I1). rewrite R. cbn [bind]. destruct (IH (l1 ++ [(p, g, cs)]) a1) as (a' & R' & I'); [rewrite E, <- app_assoc; reflexivity|exact I1|]. exists a'. split; [exact R'|]. rewrite <- app_assoc in I'. exact I'.
  Qed.

  Lemma settled_iff : forall q v sts own, at_path t q (SComp sts own) -> In [v] sts -> (exists e, In e (groups [] t) /\ settled e (q ++ [v])) ->
      covered t q \/ own = true.
  Proof.
    intros q v sts own A I ([[p g] cs] & K & (AB & S & O)). apply groups_in in K. destruct K as (p' & -> & K). cbn [app] in *. rewrite (own_val q v sts own A I) in O. destruct O as [O|O]; [|right; exact O]. left.
    destruct (state_comp p' g cs _ K S) as (q' & v' & sts' & own' & _ & _ & E & r & N & ->). apply app_inj_tail in E. destruct E as [-> _]. exists p', r, g, cs. split; [reflexivity|]. split; [exact N|]. split; [exact K|]. apply iterates_iff. exact O.
  Qed.
  (** the topmost coupled group *)
  Lemma topmost : forall n q, length q <= n -> covered t q -> exists p r g cs, q = p ++ r /\ r <> [] /\ at_path t p (SGrp g cs) /\ coupled (g_ln g) /\ ~ covered t p.
  Proof.
    induction n as [|n IH]; intros q L (p & r & g & cs & -> & N & A & C).
    - exfalso. rewrite app_length in L. destruct r; [contradiction|cbn in L; lia].
    - destruct (aboveb t p) eqn:B.
      + apply (aboveb_iff t p W) in B. destruct B as [B|(-> & _)].
        * destruct (IH p) as (p' & r' & g' & cs' & -> & N' & A' & C' & D); [rewrite app_length in L; destruct r; [contradiction|cbn in L; lia]|exact B|]. exists p', (r' ++ r), g', cs'. split; [symmetry; apply app_assoc|]. split; [destruct r'; [contradiction|discriminate]|auto].
        * exists [], r, g, cs. repeat (split; [assumption || reflexivity|]). intros (p1 & r1 & g1 & cs1 & E & N1 & _). symmetry in E. apply app_eq_nil in E. tauto.
      + exists p, r, g, cs. repeat (split; [assumption || reflexivity|]). intros K. assert (X : aboveb t p = true) by (apply (aboveb_iff t p W); left; exact K). congruence.
  Qed.
  Lemma covered_settled : forall p q v sts own, aboveb t p = false -> (exists g cs, at_path t p (SGrp g cs)) -> (exists r, r <> [] /\ q = p ++ r) -> at_path t q (SComp sts own) -> In [v] sts -> covered t q -> exists e, In e (groups [] t) /\ settled e (q ++ [v]).
  Proof.
    intros p q v sts own AB GP PQ A I C. destruct (topmost (length q) q (le_n _) C) as (p1 & r1 & g1 & cs1 & E1 & N1 & A1 & C1 & D1). exists (p1, g1, cs1). split; [apply groups_in; exists p1; auto|]. cbn [settled].
    assert (AB1 : aboveb t p1 = false).
    { destruct (aboveb t p1) eqn:B; [|reflexivity]. exfalso. apply (aboveb_iff t p1 W) in B. destruct B as [B|(-> & g2 & cs2 & A2 & C2)]; [exact (D1 B)|].
      destruct p as [|a p]; [|assert (X : aboveb t (a :: p) = true); [apply (aboveb_iff t (a :: p) W); left; exists [], (a :: p), g2, cs2; repeat split; auto; discriminate|congruence]].
      assert (X : aboveb t [] = true) by (apply (aboveb_iff t [] W); right; split; [reflexivity|exists g2, cs2; auto]). congruence. }
    split; [exact AB1|]. split; [|left; apply iterates_iff; exact C1]. apply states_in. subst q. apply at_split in A. destruct A as (c & B1 & B2). rewrite (at_fun t p1 c (SGrp g1 cs1) W B1 A1) in B2. exists r1, sts, own, [v]. split; [exact B2|]. split; [exact I|]. symmetry. apply app_assoc.
  Qed.

  Lemma solvers_result : exists errs, check_solvers sccs t sg = Ok errs /\ forall e, In e errs <-> In e (flat_map ge (groups [] t)) \/ exists p sts, In (p, sts) (flat_map gg (groups [] t)) /\
      exists it, (forall s, In s it <-> exists e, In e (groups [] t) /\ settled e s) /\ In e (state_errors it (p, sts)).
  Proof.
    destruct (loop (groups [] t) [] (mkAcc [([], false)] [] [] []) eq_refl) as (a & R & I).
    { constructor; cbn; [intros p (g & cs & [])|reflexivity|reflexivity|]. intros s. split; [intros []|intros (e & [] & _)]. }
    unfold check_solvers. rewrite R. cbn [bind]. eexists. split; [reflexivity|]. intros e. rewrite in_app_iff, (i_errs _ _ I), (i_groups _ _ I). cbn [app]. split; (intros [K|K]; [left; exact K|right]).
    - apply in_flat_map in K. destruct K as ([p sts] & K1 & K2). exists p, sts. split; [exact K1|]. exists (a_states a). split; [exact (i_states _ _ I)|exact K2].
    - destruct K as (p & sts & K1 & it & H & K2). apply in_flat_map. exists (p, sts). split; [exact K1|]. unfold state_errors in *. cbn [fst snd] in *.
      replace (filter (fun s => negb (pmem s (a_states a))) sts) with (filter (fun s => negb (pmem s it)) sts); [exact K2|]. apply filter_ext. intros s. f_equal. destruct (pmem s it) eqn:E1, (pmem s (a_states a)) eqn:E2; try reflexivity.
      + apply pmem_in in E1. apply pmem_out in E2. exfalso. apply E2. apply (i_states _ _ I). apply H. exact E1.
      + apply pmem_in in E2. apply pmem_out in E1. exfalso. apply E1. apply H. apply (i_states _ _ I). exact E2.
  Qed.
  Lemma states_reported : forall errs, check_solvers sccs t sg = Ok errs -> forall p s, (exists l, In (Uniterated p l) errs /\ In s l) <->
      open_state t s /\ ~ covered t (removelast s) /\ (exists g cs, at_path t p (SGrp g cs)) /\ exists r, s = p ++ r.
  Proof.
    intros errs E p s. destruct solvers_result as (errs' & E' & H). rewrite E in E'. injection E' as <-. split.
    - intros (l & K & L). apply H in K. destruct K as [K|(p' & sts' & K & it & HI & K2)].
      { exfalso. apply in_flat_map in K. destruct K as ([[p' g] cs] & _ & K). cbn [ge] in K. apply in_app_or in K. destruct K as [K|K].
        - unfold cs_errors in K. destruct (g_cs g); [|destruct K]. apply in_app_or in K. destruct K as [K|K]; [destruct p'; [destruct K|destruct K as [K|[]]; discriminate]|]. apply in_flat_map in K. destruct K as (e & _ & K). destruct (g_newton _); [destruct K as [K|[]]; discriminate|destruct K].
        - destruct (aboveb t p'); [destruct K|]. unfold cycle_errors in K. destruct (g_ln g) as [[|[|]]| |]; try destruct K. destruct (strong_of sccs sg p'); [destruct K|destruct K as [K|[]]; discriminate]. }
      unfold state_errors in K2. cbn [fst snd] in K2. destruct (filter _ sts') as [|u us] eqn:F; [destruct K2|]. destruct K2 as [K2|[]]. injection K2 as -> <-. rewrite <- F in L. apply filter_In in L. destruct L as [L1 L2]. apply Bool.negb_true_iff, pmem_out in L2. rewrite HI in L2.
      apply in_flat_map in K. destruct K as ([[p1 g1] cs1] & K & G). cbn [gg] in G. destruct (aboveb t p1) eqn:AB; [destruct G|]. destruct (states_of p1 (SGrp g1 cs1)) as [|s0 ss] eqn:ES; [destruct G|]. destruct G as [G|[]]. injection G as -> <-. rewrite <- ES in L1.
      apply groups_in in K. destruct K as (p1 & -> & K). cbn [app] in *. destruct (state_comp p1 g1 cs1 s K L1) as (q & v & sts & own & A & I & -> & r & N & ->). rewrite removelast_last. split; [|split; [|split]].
      + exists (p1 ++ r), v, sts. split; [|auto]. destruct own; [|exact A]. exfalso. apply L2. exists (p1, g1, cs1). split; [apply groups_in; exists p1; auto|]. cbn [settled]. split; [exact AB|]. split; [exact L1|]. right. exact (own_val _ v sts true A I).
      + intros C. apply L2. apply (covered_settled p1 (p1 ++ r) v sts own AB); eauto.
      + exists g1, cs1. exact K.
      + exists (r ++ [v]). symmetry. apply app_assoc.
    - intros ((q & v & sts & A & I & ->) & NC & (g & cs & AP) & (r & Er)). rewrite removelast_last in NC.
      assert (PQ : exists r', r' <> [] /\ q = p ++ r').
      { destruct (exists_last (l := r)) as (r' & x & ->).
        - intros ->. rewrite app_nil_r in Er. subst p. apply at_split in AP. destruct AP as (c & B1 & B2). rewrite (at_fun t q c _ W B1 A) in B2. inversion B2.
        - rewrite app_assoc in Er. apply app_inj_tail in Er. destruct Er as [-> <-]. exists r'. split; [|reflexivity]. intros ->. rewrite app_nil_r in A. pose proof (at_fun t p _ _ W A AP). discriminate. }
      destruct PQ as (r' & N & ->).
      assert (AB : aboveb t p = false). { destruct (aboveb t p) eqn:B; [|reflexivity]. exfalso. apply NC. apply (aboveb_iff t p W) in B. destruct B as [(p1 & r1 & g1 & cs1 & -> & N1 & A1 & C1)|(-> & g1 & cs1 & A1 & C1)].
        - exists p1, (r1 ++ r'), g1, cs1. split; [symmetry; apply app_assoc|]. split; [destruct r1; [contradiction|discriminate]|auto].
        - exists [], r', g1, cs1. auto. }
      assert (S : In ((p ++ r') ++ [v]) (states_of p (SGrp g cs))). { apply states_in. apply at_split in A. destruct A as (c & B1 & B2). rewrite (at_fun t p c _ W B1 AP) in B2. exists r', sts, false, [v]. split; [exact B2|]. split; [exact I|]. symmetry. apply app_assoc. }
      destruct (loop (groups [] t) [] (mkAcc [([], false)] [] [] []) eq_refl) as (a & R & IV).
      { constructor; cbn; [intros ? (? & ? & [])|reflexivity|reflexivity|]. intros ?. split; [intros []|intros (? & [] & _)]. }
      set (F := filter (fun s => negb (pmem s (a_states a))) (states_of p (SGrp g cs))). assert (FI : In ((p ++ r') ++ [v]) F).
      { apply filter_In. split; [exact S|]. apply Bool.negb_true_iff, pmem_out. rewrite (i_states _ _ IV). cbn [app]. intros K. destruct (settled_iff _ _ _ _ A I K) as [K1|K1]; [exact (NC K1)|discriminate]. }
      exists F. split; [|exact FI]. apply H. right. exists p, (states_of p (SGrp g cs)). split.
      + apply in_flat_map. exists (p, g, cs). split; [apply groups_in; exists p; auto|]. cbn [gg]. rewrite AB. destruct (states_of p (SGrp g cs)); [destruct S|left; reflexivity].
      + exists (a_states a). split; [exact (i_states _ _ IV)|]. unfold state_errors. cbn [fst snd]. fold F. destruct F; [destruct FI|left; reflexivity].
  Qed.
  Lemma cs_in : forall e, In e (flat_map ge (groups [] t)) <-> exists p g cs, at_path t p (SGrp g cs) /\ (In e (cs_errors t p g) \/ (aboveb t p = false /\ In e (cycle_errors sccs sg p (g_ln g)))).
  Proof.
    intros e. rewrite in_flat_map. split.
    - intros ([[p g] cs] & K & X). apply groups_in in K. destruct K as (q & -> & K). exists q, g, cs. split; [exact K|]. cbn [ge app] in X. apply in_app_or in X. destruct X as [X|X]; [auto|]. destruct (aboveb t q) eqn:E; [destruct X|auto].
    - intros (p & g & cs & A & X). exists (p, g, cs). split; [apply groups_in; exists p; auto|]. cbn [ge]. apply in_or_app. destruct X as [X|[E X]]; [auto|]. rewrite E. auto.
  Qed.
  Lemma not_states : forall it p sts e, In e (state_errors it (p, sts)) -> exists u, e = Uniterated p u.
  Proof. intros it p sts e K. unfold state_errors in K. cbn [fst snd] in K. destruct (filter _ sts); [destruct K|]. destruct K as [<-|[]]. eexists. reflexivity. Qed.
  Lemma other_errors : forall errs, check_solvers sccs t sg = Ok errs -> forall e, (forall p u, e <> Uniterated p u) -> In e errs <-> exists p g cs, at_path t p (SGrp g cs) /\ (In e (cs_errors t p g) \/ (aboveb t p = false /\ In e (cycle_errors sccs sg p (g_ln g)))).
  Proof.
    intros errs E e N. destruct solvers_result as (errs' & E' & H). rewrite E in E'. injection E' as <-. rewrite H, cs_in. split; [|auto]. intros [K|(p & sts & _ & it & _ & K)]; [exact K|]. destruct (not_states _ _ _ _ K) as (u & ->). exfalso. exact (N _ _ eq_refl).
  Qed.
  Lemma uniterated_some : forall errs, check_solvers sccs t sg = Ok errs -> forall p l, In (Uniterated p l) errs -> exists s, In s l.
  Proof.
    intros errs E p l K. destruct solvers_result as (errs' & E' & H). rewrite E in E'. injection E' as <-. apply H in K. destruct K as [K|(p' & sts & _ & it & _ & K)].
    - exfalso. apply cs_in in K. destruct K as (q & g & cs & _ & [K|[_ K]]).
      + unfold cs_errors in K. destruct (g_cs g); [|destruct K]. apply in_app_or in K. destruct K as [K|K]; [destruct q; [destruct K|destruct K as [K|[]]; discriminate]|]. apply in_flat_map in K. destruct K as (e & _ & K). destruct (g_newton _); [destruct K as [K|[]]; discriminate|destruct K].
      + unfold cycle_errors in K. destruct (g_ln g) as [[|[|]]| |]; try destruct K. destruct (strong_of sccs sg q); [destruct K|destruct K as [K|[]]; discriminate].
    - unfold state_errors in K. cbn [fst snd] in K. destruct (filter _ sts) as [|u us]; [destruct K|]. destruct K as [K|[]]. injection K as _ <-. exists u. left. reflexivity.
  Qed.
End Loop.

(** ** the graph of the children *)
Lemma erase_find : forall t p g cs, wf_stree t -> at_path t p (SGrp g cs) -> find (erase t) p = Some (erase (SGrp g cs)).
Proof.
  intros t p g cs W A. remember (SGrp g cs) as u eqn:U. induction A as [|g0 cs0 n c q u I A IH]; [reflexivity|]. inversion W as [|? ? N WC]; subst. cbn [erase find].
  replace (sget _ n) with (Some (erase c)); [apply IH; [exact (WC n c I)|reflexivity]|]. symmetry. clear -N I. induction cs0 as [|[m e] l IH]; [destruct I|]. inversion N as [|? ? Nm N']; subst. unfold sget. cbn [dget]. destruct I as [E|I]; [injection E as -> ->; rewrite String.eqb_refl; reflexivity|].
  destruct (String.eqb_spec n m) as [->|]; [exfalso; apply Nm; apply (in_map fst) in I; exact I|apply IH; assumption].
Qed.
Lemma erase_fst : forall cs, map fst ((fix go (cs : list (string * stree)) : list (string * tree) := match cs with [] => [] | (n, c) :: r => (n, erase c) :: go r end) cs) = map fst cs.
Proof. induction cs as [|[n c] cs IH]; [reflexivity|]. cbn. rewrite IH. reflexivity. Qed.
Lemma erase_in : forall cs n c, In (n, c) ((fix go (cs : list (string * stree)) : list (string * tree) := match cs with [] => [] | (n, c) :: r => (n, erase c) :: go r end) cs) -> exists d, c = erase d /\ In (n, d) cs.
Proof. induction cs as [|[m d] cs IH]; intros n c K; [destruct K|]. destruct K as [E|K]; [injection E as <- <-; exists d; split; [reflexivity|left; reflexivity]|]. destruct (IH n c K) as (e & E & I). exists e. split; [exact E|right; exact I]. Qed.
Lemma erase_wf : forall t, wf_stree t -> wf_tree (erase t).
Proof.
  induction t as [s o|g cs IH] using stree_ind'; intros W; [constructor|]. inversion W as [|? ? N WC]; subst. cbn [erase]. constructor; [rewrite erase_fst; exact N|]. intros n c K. apply erase_in in K. destruct K as (d & -> & I). apply (IH n d I). exact (WC n d I).
Qed.

Lemma child_facts : forall t conns p cs, wf_tree t -> conns_ok t conns -> find t p = Some (Node cs) ->
    let h := child_graph p (sys_graph (subsystems [] t) conns) in
    wf_graph h /\ (forall x, In x (fst h) <-> exists a, In a (map fst cs) /\ x = p ++ [a]) /\
    (forall x y, edge h x y <-> exists a b, x = p ++ [a] /\ y = p ++ [b] /\ feeds p conns a b) /\
    (forall a b, feeds p conns a b -> In a (map fst cs) /\ In b (map fst cs)).
Proof.
  intros t conns p cs WT CO FP.
  destruct (fold_nodes (fun n => n) (subsystems [] t) [] (NoDup_nil _)) as [DN IN].
  set (g0 := (fold_left (fun ns n => add_node ns n) (subsystems [] t) [], @nil (path * path * nat))) in *.
  destruct (sys_graph_ok conns g0) as (G1 & G2 & G3 & G4); [exact DN|intros u v [w []]|]. fold (sys_graph (subsystems [] t) conns) in G1, G2, G3, G4.
  change (fold_left add_conn conns g0) with (sys_graph (subsystems [] t) conns) in *. set (g := sys_graph (subsystems [] t) conns) in *.
  assert (GN : forall x, In x (fst g) <-> x <> [] /\ find t x <> None).
  { intros x. rewrite G2. split.
    - intros [K|(s & d & w & K1 & K2)].
      + cbn [g0 fst] in K. apply IN in K. destruct K as [[]|(n & K & ->)]. apply (subs_iff t WT) in K. destruct K as (q & Hq & -> & K). auto.
      + destruct (CO s d w K1) as (ps & vs & pd & vd & -> & -> & H1 & H2 & H3 & H4). rewrite !removelast_last in K2. destruct K2 as [->| ->]; auto.
    - intros [H1 H2]. left. apply IN. right. exists x. split; [|reflexivity]. apply (subs_iff t WT). exists x. auto. }
  destruct (child_graph_ok p g G1 G4) as (CW & CN & CE). intros h. fold h in CW, CN, CE.
  assert (HN : forall x, In x (fst h) <-> exists a, In a (map fst cs) /\ x = p ++ [a]).
  { intros x. rewrite CN. split.
    - intros (a & q & Hin & ->). exists a. split; [|reflexivity]. apply GN in Hin. destruct Hin as [_ Hin]. rewrite find_app, FP in Hin. cbn in Hin.
      destruct (sget cs a) as [c|] eqn:E; [|congruence]. apply (dget_some_in_keys String.eqb String.eqb_eq) in E. exact E.
    - intros (a & Ha & ->). exists a, []. split; [|reflexivity]. apply GN. split; [intros E; destruct p; discriminate|]. rewrite find_app, FP. cbn.
      destruct (sget cs a) as [c|] eqn:E; [discriminate|]. apply (dget_none String.eqb String.eqb_eq) in E. contradiction. }
  assert (FE : forall a b, feeds p conns a b <-> edge h (p ++ [a]) (p ++ [b])).
  { intros a b. rewrite CE. split.
    - intros (Hne & s & d & w & Hs & Hd & Hin). destruct (exists_last Hs) as (s' & xs & ->). destruct (exists_last Hd) as (d' & xd & ->).
      exists a, s', b, d'. split; [|auto]. apply G3. right. exists (p ++ a :: s' ++ [xs]), (p ++ b :: d' ++ [xd]), w. split; [exact Hin|].
      rewrite !app_comm_cons, !app_assoc, !removelast_last. auto.
    - intros (a' & q & b' & r & E & Ea & Eb & Hne). apply app_inv_head in Ea, Eb. injection Ea as <-. injection Eb as <-. split; [exact Hne|].
      apply G3 in E. destruct E as [[w []]|(s & d & w & Hin & E1 & E2)]. destruct (CO s d w Hin) as (ps & vs & pd & vd & -> & -> & _). rewrite !removelast_last in E1, E2. subst ps pd.
      exists (q ++ [vs]), (r ++ [vd]), w. split; [destruct q; discriminate|]. split; [destruct r; discriminate|]. rewrite <- !app_assoc in Hin. exact Hin. }
  split; [exact CW|]. split; [exact HN|]. split.
  - intros x y. split; [intros E|intros (a & b & -> & -> & F); apply FE; exact F]. destruct (proj1 (CE x y) E) as (a & q & b & r & _ & -> & -> & _). exists a, b. split; [reflexivity|]. split; [reflexivity|]. apply FE. exact E.
  - intros a b F. apply FE in F. apply (proj2 CW) in F. destruct F as (F1 & F2 & _). apply HN in F1, F2. destruct F1 as (a' & F1 & E1), F2 as (b' & F2 & E2). apply app_inv_head in E1, E2. injection E1 as <-. injection E2 as <-. auto.
Qed.
Lemma depends_reach : forall h p conns, (forall x y, edge h x y <-> exists a b, x = p ++ [a] /\ y = p ++ [b] /\ feeds p conns a b) -> forall a b, depends p conns a b <-> reach h (p ++ [a]) (p ++ [b]).
Proof.
  intros h p conns FE a b. split.
  - intros D. induction D as [a|a b c F D IH]; [constructor|]. apply (reach_step _ _ (p ++ [b])); [apply FE; exists a, b; auto|exact IH].
  - intros R. remember (p ++ [a]) as x eqn:X. remember (p ++ [b]) as y eqn:Y. revert a b X Y. induction R as [x|x y z E R IH]; intros a b X Y.
    + subst x. apply app_inv_head in Y. injection Y as <-. constructor.
    + apply FE in E. destruct E as (a' & c & E1 & E2 & F). rewrite X in E1. apply app_inv_head in E1. injection E1 as <-. apply (dep_step _ _ a c); [exact F|]. apply IH; [exact E2|exact Y].
Qed.
Lemma depends_known : forall p conns (cs : list string), (forall a b, feeds p conns a b -> In a cs /\ In b cs) -> forall a b, a <> b -> depends p conns a b -> In a cs /\ In b cs.
Proof. intros p conns cs H a b N D. induction D as [a|a b c F D IH]; [congruence|]. destruct (H a b F) as [H1 H2]. split; [exact H1|]. destruct (string_dec b c) as [->|Nbc]; [exact H2|apply IH; exact Nbc]. Qed.

Section Strong.
  Variable sccs : graph path -> list (list path).
  Hypothesis SCC : scc_spec sccs.
  Variables (t : stree) (conns : list (path * path * nat)) (p : path) (g : ginfo) (cs : list (string * stree)).
  Hypothesis W : wf_stree t.
  Hypothesis CO : conns_ok (erase t) conns.
  Hypothesis AP : at_path t p (SGrp g cs).
  Let sg := sys_graph (subsystems [] (erase t)) conns.
  Let h := child_graph p sg.
  Lemma facts : wf_graph h /\ (forall x, In x (fst h) <-> exists a, In a (map fst cs) /\ x = p ++ [a]) /\
    (forall x y, edge h x y <-> exists a b, x = p ++ [a] /\ y = p ++ [b] /\ feeds p conns a b) /\ (forall a b, feeds p conns a b -> In a (map fst cs) /\ In b (map fst cs)).
  Proof. pose proof (child_facts (erase t) conns p _ (erase_wf t W) CO (erase_find t p g cs W AP)) as F. rewrite erase_fst in F. exact F. Qed.
  Lemma strong_nodes : forall s x, In s (strong_of sccs sg p) -> In x s -> exists a, In a (map fst cs) /\ x = p ++ [a].
  Proof. intros s x S X. destruct facts as (WF & HN & _). apply filter_In in S. destruct S as [S _]. apply HN. fold h in S. destruct (scc_nodup sccs SCC h s WF S) as [_ I]. apply I. exact X. Qed.
  Lemma strong_nodup : forall s, In s (strong_of sccs sg p) -> NoDup s.
  Proof. intros s S. destruct facts as (WF & _). apply filter_In in S. destruct S as [S _]. apply (scc_nodup sccs SCC h s WF S). Qed.
  Lemma strong_iff : forall a b, a <> b -> (exists s, In s (strong_of sccs sg p) /\ In (p ++ [a]) s /\ In (p ++ [b]) s) <-> depends p conns a b /\ depends p conns b a.
  Proof.
    intros a b N. destruct facts as (WF & HN & FE & FK). destruct (SCC h WF) as [_ C]. split.
    - intros (s & S & A & B). destruct (strong_nodes s _ S A) as (a' & A' & _). pose proof (proj1 (filter_In _ _ _) S) as [S' _]. destruct (scc_nodup sccs SCC h s WF S') as [_ I].
      pose proof (proj1 (C _ _ (I _ A) (I _ B)) (ex_intro _ s (conj S' (conj A B)))) as [R1 R2]. split; apply (depends_reach h p conns FE); assumption.
    - intros [D1 D2]. destruct (depends_known p conns (map fst cs) FK a b N D1) as [Ka Kb]. assert (NA : In (p ++ [a]) (fst h)) by (apply HN; eauto). assert (NB : In (p ++ [b]) (fst h)) by (apply HN; eauto).
      destruct (proj2 (C _ _ NA NB)) as (s & S & A & B); [split; apply (depends_reach h p conns FE); assumption|]. exists s. split; [|auto]. apply filter_In. split; [exact S|]. apply Nat.ltb_lt. apply (one_in s _ _ A B). intros E. apply app_inv_head in E. congruence.
  Qed.
  Lemma strong_cyclic : strong_of sccs sg p <> [] <-> cyclic conns p.
  Proof.
    split.
    - intros N. destruct (strong_of sccs sg p) as [|s l] eqn:E; [contradiction|]. assert (S : In s (strong_of sccs sg p)) by (rewrite E; left; reflexivity). pose proof (proj1 (filter_In _ _ _) S) as [_ L]. apply Nat.ltb_lt in L.
      destruct s as [|x [|y s]]; cbn in L; try lia. destruct (strong_nodes _ x S (or_introl eq_refl)) as (a & _ & ->). destruct (strong_nodes _ y S (or_intror (or_introl eq_refl))) as (b & _ & ->). pose proof (strong_nodup _ S) as ND. assert (Nab : a <> b) by (intros ->; inversion ND as [|? ? K _]; apply K; left; reflexivity).
      exists a, b. split; [exact Nab|]. apply (strong_iff a b Nab). exists ((p ++ [a]) :: (p ++ [b]) :: s). cbn. auto.
    - intros (a & b & N & D) E. apply (strong_iff a b N) in D. destruct D as (s & S & _). rewrite E in S. destruct S.
  Qed.
End Strong.

(** Lemmas about connections: the declared connections. *)
From Verif Require Import Base BaseFacts GraphSpec GraphProofs OrderModel PathModel OrderProofs2 NameModel NameSpec NameProofs ConnModel ConnSpec.
Local Open Scope nat_scope.

Definition cin (cs : conns_dict) (a b : path) (i : idxs) : Prop := exists l, pget cs b = Some l /\ In (a, i) l.

Lemma cin_append : forall cs t x a b i, cin (append cs t x) a b i <-> cin cs a b i \/ (b = t /\ (a, i) = x).
Proof.
  intros cs t x a b i. unfold cin, append. rewrite pget_pset. destruct (peqb b t) eqn:E.
  - apply peqb_eq in E. subst b. split.
    + intros (l & El & H). injection El as <-. destruct (pget cs t) as [l|]; [|destruct H as [H|[]]; auto]. apply in_app_or in H. destruct H as [H|[H|[]]]; [left; exists l; auto|auto].
    + intros [(l & El & H)|[_ <-]]; eexists; (split; [reflexivity|]).
      * rewrite El. apply in_or_app. auto.
      * destruct (pget cs t); [apply in_or_app; right|]; left; reflexivity.
  - split; [auto|]. intros [H|[-> _]]; [exact H|]. exfalso. rewrite (proj2 (peqb_eq t t) eq_refl) in E. discriminate.
Qed.
Lemma keys_append : forall V (cs : list (path * list V)) t x k, In k (dkeys (append cs t x)) <-> In k (dkeys cs) \/ k = t.
Proof.
  intros V cs t x k. unfold append.
  assert (K : forall (d : list (path * list V)) k, In k (dkeys d) <-> pget d k <> None).
  { intros d k0. destruct (in_dec path_dec k0 (dkeys d)) as [H|H]; [split; [intros _ E; apply pget_none in E; contradiction|auto]|]. split; [contradiction|]. intros E. exfalso. apply E. apply pget_none. exact H. }
  rewrite !K, pget_pset. destruct (peqb k t) eqn:E; [apply peqb_eq in E; subst; split; [auto|]; intros _; discriminate|]. split; [auto|]. intros [H| ->]; [exact H|]. rewrite (proj2 (peqb_eq t t) eq_refl) in E. discriminate.
Qed.
Lemma nodup_append : forall V (cs : list (path * list V)) t x, NoDup (dkeys cs) -> NoDup (dkeys (append cs t x)).
Proof. intros. apply NoDup_dkeys_dset; [apply peqb_eq|assumption]. Qed.

Lemma fold_srcs : forall i t srcs cs, let r := fold_left (fun cs s => append cs t (s, i)) srcs cs in
    (forall a b j, cin r a b j <-> cin cs a b j \/ (b = t /\ In a srcs /\ j = i)) /\ (forall k, In k (dkeys r) -> In k (dkeys cs) \/ k = t) /\ (NoDup (dkeys cs) -> NoDup (dkeys r)).
Proof.
  intros i t. induction srcs as [|s srcs IH]; intros cs; cbv zeta; cbn [fold_left].
  - split; [cbn; intuition|]. auto.
  - destruct (IH (append cs t (s, i))) as (I1 & I2 & I3). split; [|split].
    + intros a b j. rewrite I1, cin_append. cbn [In]. split.
      * intros [[H|[-> H]]|(-> & H & ->)]; auto. injection H as -> ->. auto.
      * intros [H|(-> & [ ->|H] & ->)]; auto.
    + intros k Hk. apply I2 in Hk. rewrite keys_append in Hk. tauto.
    + intros N. apply I3. apply nodup_append. exact N.
Qed.
Lemma fold_tgts : forall i srcs tgts cs, let r := fold_left (fun cs t => fold_left (fun cs s => append cs t (s, i)) srcs cs) tgts cs in
    (forall a b j, cin r a b j <-> cin cs a b j \/ (In b tgts /\ In a srcs /\ j = i)) /\ (forall k, In k (dkeys r) -> In k (dkeys cs) \/ In k tgts) /\ (NoDup (dkeys cs) -> NoDup (dkeys r)).
Proof.
  intros i srcs. induction tgts as [|t tgts IH]; intros cs; cbv zeta; cbn [fold_left].
  - split; [cbn; intuition|]. auto.
  - destruct (IH (fold_left (fun cs s => append cs t (s, i)) srcs cs)) as (I1 & I2 & I3). destruct (fold_srcs i t srcs cs) as (F1 & F2 & F3). split; [|split].
    + intros a b j. rewrite I1, F1. cbn [In]. split; intros H; decompose [or and] H; subst; auto.
    + intros k Hk. apply I2 in Hk. cbn [In]. destruct Hk as [Hk|Hk]; [apply F2 in Hk; intuition|auto].
    + auto.
Qed.

Section Group.
  Variable c : sys.
  Variable pth : path.
  Variable d : data.
  Hypothesis W : wf_sys c.
  Hypothesis E : setup_variables pth c = Ok d.

  Definition own (src : list (path * list (path * idxs))) (a b : path) (i : idxs) : Prop :=
    exists t srcs name q1 q2, In (t, srcs) src /\ In (name, i) srcs /\ source_var c name q1 /\ target_var c t q2 /\ a = pth ++ q1 /\ b = pth ++ q2.
  Definition bad_here (src : list (path * list (path * idxs))) : Prop :=
    exists t srcs name i, In (t, srcs) src /\ In (name, i) srcs /\ ((forall q, ~ source_var c name q) \/ (forall q, ~ target_var c t q)).

  Lemma abs_p_iff : forall m l, pget (abs_p d) m = Some l -> l <> [] /\ forall x, In x l <-> exists q, target_var c m q /\ x = pth ++ q.
  Proof.
    intros m l G. destruct (names_ok c pth d W E) as (_ & _ & _ & _ & _ & AP). specialize (AP m). rewrite G in AP. destruct AP as [H1 H2]. split; [exact H1|]. intros x. rewrite H2, in_map_iff. split.
    - intros (q & <- & H). apply filter_In in H. destruct H as [A B]. apply peqb_eq in B. exists q. unfold target_var. auto.
    - intros (q & (A & B) & ->). exists q. split; [reflexivity|]. apply filter_In. split; [exact B|apply peqb_eq; exact A].
  Qed.
  Lemma abs_p_none : forall m, pget (abs_p d) m = None -> forall q, ~ target_var c m q.
  Proof.
    intros m G q (A & B). destruct (names_ok c pth d W E) as (_ & _ & _ & _ & _ & AP). specialize (AP m). rewrite G in AP. exact (AP q B A).
  Qed.
  Lemma sources_iff : forall name, match (match pget (abs_u d) name with Some u => Ok [u] | None => match pget (abs_p d) name with Some l => Ok l | None => Err NameError end end) with
      | Ok l => l <> [] /\ forall x, In x l <-> exists q, source_var c name q /\ x = pth ++ q
      | Err e => e = NameError /\ forall q, ~ source_var c name q
      end.
  Proof.
    intros name. destruct (names_ok c pth d W E) as (_ & _ & _ & _ & AU & _). destruct (pget (abs_u d) name) as [u|] eqn:G.
    - split; [discriminate|]. destruct (proj1 (AU name u) G) as (q & Hq & Eu & EN). intros x. cbn [In]. split.
      + intros [<-|[]]. exists q. split; [split; [exact EN|left; exact Hq]|exact Eu].
      + intros (q' & [A B] & ->). left. destruct B as [B|[_ B]]; [|exfalso; exact (B q Hq EN)].
        assert (K : pget (abs_u d) name = Some (pth ++ q')) by (apply AU; exists q'; auto). congruence.
    - assert (NU : forall q, In q (ulist c) -> prom_of c q <> name) by (intros q Hq EN; assert (K : pget (abs_u d) name = Some (pth ++ q)) by (apply AU; exists q; auto); congruence).
      destruct (pget (abs_p d) name) as [l|] eqn:GP.
      + destruct (abs_p_iff name l GP) as [H1 H2]. split; [exact H1|]. intros x. rewrite H2. split; intros (q & K & ->); exists q; (split; [|reflexivity]).
        * destruct K as [A B]. split; [exact A|right; auto].
        * destruct K as [A [B|[B _]]]; [exfalso; exact (NU q B A)|split; assumption].
      + split; [reflexivity|]. intros q [A [B|[B _]]]; [exact (NU q B A)|]. apply (abs_p_none name GP q). split; assumption.
  Qed.

  Definition result_ok (src : list (path * list (path * idxs))) (cs : conns_dict) (r : res conns_dict) : Prop :=
    (bad_here src /\ r = Err NameError) \/
    (~ bad_here src /\ exists cs', r = Ok cs' /\ (forall a b i, cin cs' a b i <-> cin cs a b i \/ own src a b i) /\
       (forall k, In k (dkeys cs') -> In k (dkeys cs) \/ exists q, In q (plist c) /\ k = pth ++ q) /\ (NoDup (dkeys cs) -> NoDup (dkeys cs'))).
  Lemma connect_one_ok : forall t name i cs, result_ok [(t, [(name, i)])] cs (connect_one d t name i cs).
  Proof.
    intros t name i cs. unfold connect_one. pose proof (sources_iff name) as S. destruct (match pget (abs_u d) name with Some u => Ok [u] | None => _ end) as [l|e]; cbn [bind].
    2:{ destruct S as [-> S]. left. split; [|reflexivity]. exists t, [(name, i)], name, i. cbn. auto. }
    destruct S as [S1 S2]. destruct (pget (abs_p d) t) as [tgts|] eqn:GP.
    - right. destruct (abs_p_iff t tgts GP) as [T1 T2]. split.
      + intros (t' & srcs & name' & i' & [H|[]] & H1 & H2). injection H as <- <-. destruct H1 as [H1|[]]. injection H1 as <- <-. destruct H2 as [H2|H2].
        * destruct l as [|x l]; [congruence|]. destruct (proj1 (S2 x) (or_introl eq_refl)) as (q & K & _). exact (H2 q K).
        * destruct tgts as [|x tgts]; [congruence|]. destruct (proj1 (T2 x) (or_introl eq_refl)) as (q & K & _). exact (H2 q K).
      + eexists. split; [reflexivity|]. destruct (fold_tgts i l tgts cs) as (F1 & F2 & F3). split; [|split; [|exact F3]].
        * intros a b j. rewrite F1, S2, T2. split.
          -- intros [H|((q2 & H2 & ->) & (q1 & H1 & ->) & ->)]; [auto|]. right. exists t, [(name, i)], name, q1, q2. cbn. intuition.
          -- intros [H|(t' & srcs & name' & q1 & q2 & [H|[]] & H1 & H2 & H3 & -> & ->)]; [auto|]. injection H as <- <-. destruct H1 as [H1|[]]. injection H1 as <- <-. right. split; [exists q2; auto|]. split; [exists q1; auto|reflexivity].
        * intros k Hk. apply F2 in Hk. destruct Hk as [Hk|Hk]; [auto|]. right. apply T2 in Hk. destruct Hk as (q & [_ K] & ->). exists q. auto.
    - left. split; [|reflexivity]. exists t, [(name, i)], name, i. cbn. split; [auto|]. split; [auto|]. right. intros q. apply abs_p_none. exact GP.
  Qed.
  Lemma result_seq : forall src1 src2 src cs (r1 : res conns_dict) (k : conns_dict -> res conns_dict),
      (forall a b i, own src a b i <-> own src1 a b i \/ own src2 a b i) -> (bad_here src <-> bad_here src1 \/ bad_here src2) ->
      result_ok src1 cs r1 -> (forall cs', result_ok src2 cs' (k cs')) -> result_ok src cs (bind r1 k).
  Proof.
    intros src1 src2 src cs r1 k HO HB H1 H2. destruct H1 as [[B ->]|(B & cs' & -> & C1 & C2 & C3)]; cbn [bind].
    - left. split; [apply HB; auto|reflexivity].
    - destruct (H2 cs') as [[B' E']|(B' & cs'' & E' & D1 & D2 & D3)].
      + left. split; [apply HB; auto|exact E'].
      + right. split; [rewrite HB; tauto|]. exists cs''. split; [exact E'|]. split; [|split; [|auto]].
        * intros a b i. rewrite D1, C1, HO. tauto.
        * intros x Hx. apply D2 in Hx. destruct Hx as [Hx|Hx]; [apply C2; exact Hx|auto].
  Qed.
  Lemma connect_srcs_ok : forall t srcs cs, result_ok [(t, srcs)] cs (connect_srcs d t srcs cs).
  Proof.
    intros t. induction srcs as [|[name i] srcs IH]; intros cs; cbn [connect_srcs].
    - right. split; [intros (t' & s & n & i & [H|[]] & H1 & _); injection H as <- <-; destruct H1|]. exists cs. split; [reflexivity|]. split; [|split; auto].
      intros a b i. split; [auto|]. intros [H|(t' & s & n & q1 & q2 & [H|[]] & H1 & _)]; [exact H|]. injection H as <- <-. destruct H1.
    - apply (result_seq [(t, [(name, i)])] [(t, srcs)]); [| |apply connect_one_ok|exact IH].
      + intros a b j. split.
        * intros (t' & s & n & q1 & q2 & [H|[]] & H1 & H2); injection H as <- <-; destruct H1 as [H1|H1]; [left|right]; do 5 eexists; (split; [left; reflexivity|]); (split; [|exact H2]); [left; exact H1|exact H1].
        * intros [(t' & s & n & q1 & q2 & [H|[]] & H1 & H2)|(t' & s & n & q1 & q2 & [H|[]] & H1 & H2)]; injection H as <- <-; do 5 eexists; (split; [left; reflexivity|]); (split; [|exact H2]).
          -- destruct H1 as [H1|[]]. left. exact H1.
          -- right. exact H1.
      + split.
        * intros (t' & s & n & j & [H|[]] & H1 & H2); injection H as <- <-; destruct H1 as [H1|H1]; [left|right]; do 4 eexists; (split; [left; reflexivity|]); (split; [|exact H2]); [left; exact H1|exact H1].
        * intros [(t' & s & n & j & [H|[]] & H1 & H2)|(t' & s & n & j & [H|[]] & H1 & H2)]; injection H as <- <-; do 4 eexists; (split; [left; reflexivity|]); (split; [|exact H2]).
          -- destruct H1 as [H1|[]]. left. exact H1.
          -- right. exact H1.
  Qed.
  Lemma connect_all_ok : forall src cs, result_ok src cs (connect_all d src cs).
  Proof.
    induction src as [|[t srcs] src IH]; intros cs; cbn [connect_all].
    - right. split; [intros (t' & s & n & i & [] & _)|]. exists cs. split; [reflexivity|]. split; [|split; auto]. intros a b i. split; [auto|]. intros [H|(t' & s & n & q1 & q2 & [] & _)]. exact H.
    - apply (result_seq [(t, srcs)] src); [| |apply connect_srcs_ok|exact IH].
      + intros a b j. split.
        * intros (t' & s & n & q1 & q2 & [H|H] & H1); [left; injection H as <- <-; do 5 eexists; split; [left; reflexivity|exact H1]|right; do 5 eexists; split; [exact H|exact H1]].
        * intros [(t' & s & n & q1 & q2 & [H|[]] & H1)|(t' & s & n & q1 & q2 & H & H1)]; do 5 eexists; (split; [|exact H1]); [left; exact H|right; exact H].
      + split.
        * intros (t' & s & n & j & [H|H] & H1); [left; injection H as <- <-; do 4 eexists; split; [left; reflexivity|exact H1]|right; do 4 eexists; split; [exact H|exact H1]].
        * intros [(t' & s & n & j & [H|[]] & H1)|(t' & s & n & j & H & H1)]; do 4 eexists; (split; [|exact H1]); [left; exact H|right; exact H].
  Qed.
End Group.

(** ** the tree *)
Lemma explicit_conn_iff : forall subs src a b i, explicit_conn (Grp subs src) a b i <->
    own (Grp subs src) [] src a b i \/ exists n pats c a' b', In (n, (pats, c)) subs /\ explicit_conn c a' b' i /\ a = n :: a' /\ b = n :: b'.
Proof.
  intros subs src a b i. split.
  - intros (p & subs' & src' & t & srcs & name & q1 & q2 & SA & H). inversion SA; subst.
    + left. exists t, srcs, name, q1, q2. exact H.
    + right. destruct H as (K1 & K2 & K3 & K4 & -> & ->). exists n, pats, b0, (p0 ++ q1), (p0 ++ q2). split; [assumption|]. split; [|auto]. exists p0, subs', src', t, srcs, name, q1, q2. auto 10.
  - intros [(t & srcs & name & q1 & q2 & H)|(n & pats & c & a' & b' & HI & (p & subs' & src' & t & srcs & name & q1 & q2 & SA & H1 & H2 & H3 & H4 & -> & ->) & -> & ->)].
    + exists [], subs, src, t, srcs, name, q1, q2. split; [apply at_self|exact H].
    + exists (n :: p), subs', src', t, srcs, name, q1, q2. split; [eapply at_sub; eassumption|]. auto 10.
Qed.
Lemma bad_name_iff : forall subs src, bad_name (Grp subs src) <-> bad_here (Grp subs src) src \/ exists n pats c, In (n, (pats, c)) subs /\ bad_name c.
Proof.
  intros subs src. split.
  - intros (p & subs' & src' & t & srcs & name & i & SA & H). inversion SA; subst.
    + left. exists t, srcs, name, i. exact H.
    + right. exists n, pats, b. split; [assumption|]. exists p0, subs', src', t, srcs, name, i. auto.
  - intros [(t & srcs & name & i & H)|(n & pats & c & HI & (p & subs' & src' & t & srcs & name & i & SA & H))].
    + exists [], subs, src, t, srcs, name, i. split; [apply at_self|exact H].
    + exists (n :: p), subs', src', t, srcs, name, i. split; [eapply at_sub; eassumption|exact H].
Qed.
Lemma cin_update : forall b a, NoDup (dkeys b) -> (forall k, In k (dkeys a) -> ~ In k (dkeys b)) ->
    (forall x y i, cin (update_all a b) x y i <-> cin a x y i \/ cin b x y i) /\ (forall k, In k (dkeys (update_all a b)) <-> In k (dkeys a) \/ In k (dkeys b)) /\ (NoDup (dkeys a) -> NoDup (dkeys (update_all a b))).
Proof.
  induction b as [|[k l] b IH]; intros a ND DJ; cbn [update_all fold_left].
  - split; [|split; [cbn; intuition|auto]]. intros x y i. split; [auto|]. intros [H|(l & H & _)]; [exact H|discriminate].
  - inversion ND; subst. assert (NK : ~ In k (dkeys a)) by (intros K; apply (DJ k K); left; reflexivity).
    destruct (IH (pset a k l)) as (I1 & I2 & I3); [assumption| |].
    + intros x Hx. rewrite (pset_new _ a k l NK) in Hx. unfold dkeys in Hx. rewrite map_app in Hx. apply in_app_or in Hx. destruct Hx as [Hx|[<-|[]]]; [intros K; apply (DJ x Hx); right; exact K|assumption].
    + cbn [fst snd]. fold (update_all (pset a k l) b). split; [|split].
      * intros x y i. rewrite I1. unfold cin. rewrite pget_pset. assert (PB : forall y, pget ((k, l) :: b) y = if peqb y k then Some l else pget b y) by reflexivity. rewrite PB.
        destruct (peqb y k) eqn:E.
        -- apply peqb_eq in E. subst y. split; [intros [H|(l' & H & _)]; [auto|]|].
           ++ exfalso. apply H1. eapply (dget_some_in_keys peqb peqb_eq). exact H.
           ++ intros [(l' & H & _)|H]; [exfalso; apply NK; eapply (dget_some_in_keys peqb peqb_eq); exact H|auto].
        -- tauto.
      * intros x. rewrite I2. rewrite (pset_new _ a k l NK). unfold dkeys. rewrite map_app, in_app_iff. cbn. intuition.
      * intros N. apply I3. apply NoDup_dkeys_dset; [apply peqb_eq|exact N].
Qed.

Lemma explicit_ok : forall s, wf_sys s -> ~ faulty s -> forall pth,
    (bad_name s /\ explicit pth s = Err NameError) \/
    (~ bad_name s /\ exists cs, explicit pth s = Ok cs /\ NoDup (dkeys cs) /\ (forall k, In k (dkeys cs) -> exists q, In q (plist s) /\ k = pth ++ q) /\
       forall a b i, cin cs a b i <-> exists a' b', explicit_conn s a' b' i /\ a = pth ++ a' /\ b = pth ++ b').
Proof.
  intros s. induction s as [ps us|subs src IH] using sys_ind'; intros W NF pth.
  - right. split; [intros (p & subs & src & t & srcs & name & i & SA & _); inversion SA|]. exists []. split; [reflexivity|]. split; [constructor|]. split; [intros k []|]. intros a b i. split; [intros (l & K & _); discriminate|].
    intros (a' & b' & (p & subs & src & t & srcs & name & q1 & q2 & SA & _) & _). inversion SA.
  - inversion W as [|subs' src' ND WS]; subst. rewrite Forall_forall in IH. cbn [explicit].
    set (go := fix go (subs : list (string * (list pattern * sys))) (acc : conns_dict) : res conns_dict :=
                 match subs with [] => Ok acc | (n, (_, c)) :: r => let! sc := explicit (pth ++ [n]) c in go r (update_all acc sc) end).
    assert (G : forall post pre acc, subs = pre ++ post -> NoDup (dkeys acc) -> (forall k, In k (dkeys acc) -> exists n pats c q, In (n, (pats, c)) pre /\ In q (plist c) /\ k = pth ++ n :: q) ->
               (forall a b i, cin acc a b i <-> exists n pats c a' b', In (n, (pats, c)) pre /\ explicit_conn c a' b' i /\ a = pth ++ n :: a' /\ b = pth ++ n :: b') ->
               ((exists n pats c, In (n, (pats, c)) post /\ bad_name c) /\ go post acc = Err NameError) \/
               (~ (exists n pats c, In (n, (pats, c)) post /\ bad_name c) /\ exists cs, go post acc = Ok cs /\ NoDup (dkeys cs) /\
                  (forall k, In k (dkeys cs) -> exists n pats c q, In (n, (pats, c)) subs /\ In q (plist c) /\ k = pth ++ n :: q) /\
                  (forall a b i, cin cs a b i <-> exists n pats c a' b', In (n, (pats, c)) subs /\ explicit_conn c a' b' i /\ a = pth ++ n :: a' /\ b = pth ++ n :: b'))).
    { induction post as [|[n [pats c]] post IHp]; intros pre acc ES NA KA CA.
      - rewrite app_nil_r in ES. subst pre. right. split; [intros (n & pats & c & [] & _)|]. exists acc. cbn. auto.
      - cbn [go]. fold go. assert (HI : In (n, (pats, c)) subs) by (rewrite ES; apply in_or_app; right; left; reflexivity).
        assert (WC : wf_sys c) by (eapply WS; exact HI). assert (NFC : ~ faulty c) by (intros F; apply NF; eapply f_sub; eassumption).
        destruct (IH (n, (pats, c)) HI WC NFC (pth ++ [n])) as [[B E]|(NB & sc & E & N1 & K1 & C1)]; cbn [snd] in *; rewrite E; cbn [bind].
        { left. split; [|reflexivity]. exists n, pats, c. split; [left; reflexivity|exact B]. }
        destruct (cin_update sc acc N1) as (U1 & U2 & U3).
        { intros k Hk Hk'. apply KA in Hk. destruct Hk as (m & pats' & c' & q & Hm & _ & ->). apply K1 in Hk'. destruct Hk' as (q' & _ & Ek). rewrite <- app_assoc in Ek. apply app_inv_head in Ek. cbn in Ek. injection Ek as -> _.
          rewrite ES, map_app in ND. cbn in ND. apply NoDup_remove_2 in ND. apply ND. apply in_or_app. left. apply (in_map fst) in Hm. exact Hm. }
        destruct (IHp (pre ++ [(n, (pats, c))]) (update_all acc sc)) as [[B E']|(NB' & cs & E' & R1 & R2 & R3)].
        + rewrite <- app_assoc. exact ES.
        + apply U3. exact NA.
        + intros k Hk. apply U2 in Hk. destruct Hk as [Hk|Hk].
          * apply KA in Hk. destruct Hk as (m & pats' & c' & q & Hm & Hq & ->). exists m, pats', c', q. split; [apply in_or_app; auto|auto].
          * apply K1 in Hk. destruct Hk as (q & Hq & ->). exists n, pats, c, q. split; [apply in_or_app; right; left; reflexivity|]. split; [exact Hq|]. rewrite <- app_assoc. reflexivity.
        + intros a b i. rewrite U1, CA, C1. split.
          * intros [(m & pats' & c' & a' & b' & Hm & H)|(a' & b' & H & -> & ->)].
            -- exists m, pats', c', a', b'. split; [apply in_or_app; auto|exact H].
            -- exists n, pats, c, a', b'. split; [apply in_or_app; right; left; reflexivity|]. split; [exact H|]. rewrite <- !app_assoc. auto.
          * intros (m & pats' & c' & a' & b' & Hm & H & Ha & Hb). apply in_app_or in Hm. destruct Hm as [Hm|[Hm|[]]].
            -- left. exists m, pats', c', a', b'. auto.
            -- injection Hm as <- <- <-. right. exists a', b'. split; [exact H|]. rewrite <- !app_assoc. auto.
        + left. split; [|exact E']. destruct B as (m & pats' & c' & Hm & B). exists m, pats', c'. split; [right; exact Hm|exact B].
        + right. split; [|exists cs; auto]. intros (m & pats' & c' & [Hm|Hm] & B); [injection Hm as <- <- <-; contradiction|]. apply NB'. exists m, pats', c'. auto. }
    destruct (G subs [] [] eq_refl) as [[B E]|(NB & cs & E & R1 & R2 & R3)].
    + constructor.
    + intros k [].
    + intros a b i. split; [intros (l & K & _); discriminate|intros (n & pats & c & a' & b' & [] & _)].
    + left. rewrite E. split; [|reflexivity]. apply bad_name_iff. right. exact B.
    + rewrite E. cbn [bind]. destruct (setup_ok (Grp subs src) W pth) as [[F _]|(_ & d & ED & _)]; [contradiction|]. rewrite ED. cbn [bind].
      destruct (connect_all_ok (Grp subs src) pth d W ED src cs) as [[B E']|(NB' & cs' & E' & D1 & D2 & D3)]; rewrite E'.
      * left. split; [|reflexivity]. apply bad_name_iff. left. exact B.
      * right. split; [rewrite bad_name_iff; tauto|]. exists cs'. split; [reflexivity|]. split; [auto|]. split.
        -- intros k Hk. apply D2 in Hk. destruct Hk as [Hk|Hk]; [|exact Hk]. apply R2 in Hk. destruct Hk as (n & pats & c & q & HI & Hq & ->). exists (n :: q). split; [|reflexivity].
           cbn [plist]. apply in_flat_map. exists (n, (pats, c)). split; [exact HI|]. cbn. apply in_map. exact Hq.
        -- intros a b i. rewrite D1, R3. split.
           ++ intros [(n & pats & c & a' & b' & HI & H & -> & ->)|(t & srcs & name & q1 & q2 & H1 & H2 & H3 & H4 & -> & ->)].
              ** exists (n :: a'), (n :: b'). split; [|auto]. apply explicit_conn_iff. right. exists n, pats, c, a', b'. auto.
              ** exists q1, q2. split; [|auto]. apply explicit_conn_iff. left. exists t, srcs, name, q1, q2. auto 10.
           ++ intros (a' & b' & H & -> & ->). apply explicit_conn_iff in H. destruct H as [(t & srcs & name & q1 & q2 & H1 & H2 & H3 & H4 & -> & ->)|(n & pats & c & a'' & b'' & HI & H & -> & ->)].
              ** right. exists t, srcs, name, q1, q2. auto 10.
              ** left. exists n, pats, c, a'', b''. auto.
Qed.

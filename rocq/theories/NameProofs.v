(** Lemmas about promoted names. *)
From Verif Require Import Base BaseFacts OrderModel PathModel NameModel NameSpec.
Local Open Scope nat_scope.

Lemma peqb_eq : forall p q, peqb p q = true <-> p = q.
Proof. intros p q. unfold peqb. destruct (path_dec p q); intuition discriminate. Qed.
Lemma pget_pset : forall V (d : list (path * V)) k k' v, pget (pset d k v) k' = if peqb k' k then Some v else pget d k'.
Proof. intros. apply dget_dset. apply peqb_eq. Qed.
Lemma pget_none : forall V (d : list (path * V)) k, pget d k = None <-> ~ In k (map fst d).
Proof. intros. apply (dget_none peqb peqb_eq). Qed.
Lemma pget_in : forall V (d : list (path * V)) k v, pget d k = Some v -> In (k, v) d.
Proof. intros V d k v. apply (dget_in peqb peqb_eq). Qed.
Lemma in_pget : forall V (d : list (path * V)) k v, NoDup (map fst d) -> In (k, v) d -> pget d k = Some v.
Proof. intros V d k v. apply (in_dget peqb peqb_eq). Qed.
Lemma pset_new : forall V (d : list (path * V)) k v, ~ In k (map fst d) -> pset d k v = d ++ [(k, v)].
Proof.
  intros V. induction d as [|[a b] d IH]; intros k v H; [reflexivity|]. unfold pset in *. cbn in *. destruct (peqb k a) eqn:E; [exfalso; apply peqb_eq in E; subst; auto|].
  f_equal. apply IH. auto.
Qed.

Fixpoint sys_ind' (P : sys -> Prop) (HC : forall ps us, P (Comp ps us))
         (HG : forall subs src, Forall (fun e : string * (list pattern * sys) => P (snd (snd e))) subs -> P (Grp subs src)) (s : sys) : P s :=
  let go := fix go (l : list (string * (list pattern * sys))) : Forall (fun e : string * (list pattern * sys) => P (snd (snd e))) l :=
              match l with [] => Forall_nil _ | (n, (pats, c)) :: r => Forall_cons (n, (pats, c)) (sys_ind' P HC HG c) (go r) end in
  match s with Comp ps us => HC ps us | Grp subs src => HG subs src (go subs) end.

Lemma nodup_app_l : forall A (a b : list A), NoDup (a ++ b) -> NoDup a.
Proof. intros A a b. induction a as [|x a IH]; intros H; [constructor|]. cbn in H. inversion H; subst. constructor; [|auto]. intros K. apply H2. apply in_or_app. auto. Qed.

(** ** distinct variables *)
Lemma nodup_cons_map : forall (n : string) l, NoDup l -> NoDup (map (cons n) l).
Proof. intros n l H. apply FinFun.Injective_map_NoDup; [|exact H]. intros a b E. congruence. Qed.
Lemma nodup_flat : forall (f : list pattern * sys -> list path) (subs : list (string * (list pattern * sys))), NoDup (map fst subs) ->
    (forall e, In e subs -> NoDup (f (snd e))) -> NoDup (flat_map (fun e => map (cons (fst e)) (f (snd e))) subs).
Proof.
  intros f. induction subs as [|[n e] subs IH]; intros ND H; [constructor|]. inversion ND; subst. cbn [flat_map fst snd].
  assert (DISJ : forall x, In x (map (cons n) (f e)) -> ~ In x (flat_map (fun e => map (cons (fst e)) (f (snd e))) subs)).
  { intros x Hx K. apply in_map_iff in Hx. destruct Hx as (q & <- & _). apply in_flat_map in K. destruct K as ([m e'] & Hm & K). apply in_map_iff in K. destruct K as (q' & E & _).
    cbn in E. injection E as E _. subst m. apply H2. apply (in_map fst) in Hm. exact Hm. }
  assert (N1 : NoDup (map (cons n) (f e))) by (apply nodup_cons_map; apply (H (n, e)); left; reflexivity).
  assert (N2 : NoDup (flat_map (fun e => map (cons (fst e)) (f (snd e))) subs)) by (apply IH; [assumption|intros x Hx; apply H; right; exact Hx]).
  clear - DISJ N1 N2. induction N1 as [|x l Hx N1 IH]; [exact N2|]. cbn. constructor.
  - intros K. apply in_app_or in K. destruct K as [K|K]; [contradiction|]. exact (DISJ x (or_introl eq_refl) K).
  - apply IH. intros y Hy. apply DISJ. right. exact Hy.
Qed.
Lemma vars_nodup : forall s, wf_sys s -> NoDup (plist s) /\ NoDup (ulist s) /\ forall q, In q (plist s) -> In q (ulist s) -> False.
Proof.
  intros s. induction s as [ps us|subs src IH] using sys_ind'; intros W; inversion W; subst.
  - cbn [plist ulist]. assert (I : FinFun.Injective (fun n : string => [n])) by (intros a b E; congruence). pose proof (nodup_app_l _ _ _ H0) as NP.
    assert (NU : NoDup us) by (revert H0; clear; induction ps as [|p ps IH]; [auto|]; cbn; intros H; inversion H; auto).
    split; [apply FinFun.Injective_map_NoDup; assumption|]. split; [apply FinFun.Injective_map_NoDup; assumption|]. intros q H1 H2.
    apply in_map_iff in H1. apply in_map_iff in H2. destruct H1 as (a & <- & Ha). destruct H2 as (b & E & Hb). injection E as ->. clear - H0 Ha Hb.
    induction ps as [|p ps IH]; [destruct Ha|]. cbn in H0. inversion H0; subst. destruct Ha as [->|Ha]; [apply H2; apply in_or_app; auto|auto].
  - rewrite Forall_forall in IH. cbn [plist ulist].
    assert (K : forall e, In e subs -> NoDup (plist (snd (snd e))) /\ NoDup (ulist (snd (snd e))) /\ forall q, In q (plist (snd (snd e))) -> In q (ulist (snd (snd e))) -> False).
    { intros [n [pats c]] He. apply (IH (n, (pats, c)) He). eapply H2. exact He. }
    split; [apply (nodup_flat (fun x => plist (snd x))); [assumption|intros e He; apply K; exact He]|].
    split; [apply (nodup_flat (fun x => ulist (snd x))); [assumption|intros e He; apply K; exact He]|].
    intros q Q1 Q2. apply in_flat_map in Q1. apply in_flat_map in Q2. destruct Q1 as ([n e] & Hn & Q1). destruct Q2 as ([m e'] & Hm & Q2). apply in_map_iff in Q1. apply in_map_iff in Q2.
    destruct Q1 as (q1 & <- & Q1). destruct Q2 as (q2 & E & Q2). cbn in E. injection E as -> ->. assert (e = e').
    { pose proof (in_dget String.eqb String.eqb_eq _ _ _ H1 Hn) as G1. pose proof (in_dget String.eqb String.eqb_eq _ _ _ H1 Hm) as G2. congruence. }
    subst. eapply (proj2 (proj2 (K _ Hn))); eassumption.
Qed.

(** ** the dictionaries *)
Definition group_by (P : list (path * path)) (m : path) : option (list path) :=
  match filter (fun e : path * path => peqb (snd e) m) P with [] => None | l => Some (map fst l) end.
Record acc_ok (P U : list (path * path)) (d : data) : Prop := {
  ok_params : params d = map fst P;
  ok_unknowns : unknowns d = map fst U;
  ok_prom_p : prom_p d = P;
  ok_prom_u : prom_u d = U;
  ok_abs_u : abs_u d = map (fun e => (snd e, fst e)) U;
  ok_nodup : NoDup (map snd U);
  ok_abs_p : forall m, pget (abs_p d) m = group_by P m;
  ok_keys : NoDup (dkeys (abs_p d)) }.

Lemma add_param_ok : forall P U d p m, acc_ok P U d -> ~ In p (map fst P) -> acc_ok (P ++ [(p, m)]) U (add_param d p m).
Proof.
  intros P U d p m [H1 H2 H3 H4 H5 H6 H7 H8] Hp. constructor; cbn.
  - rewrite map_app, H1. reflexivity.
  - exact H2.
  - rewrite H3. apply pset_new. exact Hp.
  - exact H4.
  - exact H5.
  - exact H6.
  - intros k. rewrite pget_pset. unfold group_by. rewrite filter_app. cbn. destruct (peqb k m) eqn:E.
    + apply peqb_eq in E. subst k. assert (R : peqb m m = true) by (apply peqb_eq; reflexivity). rewrite R. rewrite H7. unfold group_by. destruct (filter _ P) as [|x l]; [reflexivity|].
      cbn. rewrite map_app. reflexivity.
    + assert (R : peqb m k = false) by (destruct (peqb m k) eqn:F; [apply peqb_eq in F; subst; rewrite (proj2 (peqb_eq k k) eq_refl) in E; discriminate|reflexivity]).
      rewrite R, app_nil_r. rewrite H7. reflexivity.
  - apply NoDup_dkeys_dset; [apply peqb_eq|exact H8].
Qed.
Lemma add_unknown_ok : forall P U d u m, acc_ok P U d -> ~ In u (map fst U) ->
    (In m (map snd U) /\ add_unknown d u m = Err RuntimeError) \/ (~ In m (map snd U) /\ exists d', add_unknown d u m = Ok d' /\ acc_ok P (U ++ [(u, m)]) d').
Proof.
  intros P U d u m [H1 H2 H3 H4 H5 H6 H7 H8] Hu. unfold add_unknown. destruct (pget (abs_u d) m) as [v|] eqn:E.
  - left. split; [|reflexivity]. apply pget_in in E. rewrite H5 in E. apply in_map_iff in E. destruct E as ([a b] & E & HI). cbn in E. injection E as -> ->. apply in_map_iff. exists (v, m). auto.
  - right. assert (NI : ~ In m (map snd U)) by (apply pget_none in E; rewrite H5, map_map in E; exact E). split; [exact NI|]. eexists. split; [reflexivity|]. constructor; cbn.
    + exact H1.
    + rewrite map_app, H2. reflexivity.
    + exact H3.
    + rewrite H4. apply pset_new. exact Hu.
    + rewrite map_app. cbn. rewrite H5. apply pset_new. rewrite map_map. exact NI.
    + rewrite map_app. apply NoDup_snoc; assumption.
    + exact H7.
    + exact H8.
Qed.
Lemma fold_params : forall (name : path -> path) ps P U d, acc_ok P U d -> NoDup (map fst P ++ ps) ->
    acc_ok (P ++ map (fun p => (p, name p)) ps) U (fold_left (fun a p => add_param a p (name p)) ps d).
Proof.
  intros name. induction ps as [|p ps IH]; intros P U d H ND; cbn [fold_left map]; [rewrite app_nil_r; exact H|].
  replace (P ++ (p, name p) :: map (fun p => (p, name p)) ps) with ((P ++ [(p, name p)]) ++ map (fun p => (p, name p)) ps) by (rewrite <- app_assoc; reflexivity).
  apply IH; [|rewrite map_app, <- app_assoc; exact ND]. apply add_param_ok; [exact H|]. apply NoDup_remove_2 in ND. intros K. apply ND. apply in_or_app. auto.
Qed.
Lemma fold_unknowns : forall (name : path -> path) us P U d, acc_ok P U d -> NoDup (map fst U ++ us) ->
    (~ NoDup (map snd (U ++ map (fun u => (u, name u)) us)) /\ add_unknowns name us d = Err RuntimeError) \/
    exists d', add_unknowns name us d = Ok d' /\ acc_ok P (U ++ map (fun u => (u, name u)) us) d'.
Proof.
  intros name. induction us as [|u us IH]; intros P U d H ND; cbn [add_unknowns map]; [right; exists d; rewrite app_nil_r; auto|].
  assert (Hu : ~ In u (map fst U)) by (apply NoDup_remove_2 in ND; intros K; apply ND; apply in_or_app; auto).
  destruct (add_unknown_ok P U d u (name u) H Hu) as [[HI E]|(NI & d' & E & H')]; rewrite E; cbn [bind].
  - left. split; [|reflexivity]. rewrite map_app. cbn. intros K. apply NoDup_remove_2 in K. apply K. apply in_or_app. auto.
  - destruct (IH P (U ++ [(u, name u)]) d' H') as [[N E']|(d'' & E' & H'')]; [rewrite map_app, <- app_assoc; exact ND| |].
    + left. rewrite <- app_assoc in N. auto.
    + right. exists d''. rewrite <- app_assoc in H''. auto.
Qed.

(** ** a subsystem *)
Definition pairs (pth : path) (s : sys) (l : list path) : list (path * path) := map (fun q => (pth ++ q, prom_of s q)) l.
Definition pname (n : string) (pats : list pattern) (m : path) : path := if promotes pats m then m else n :: m.

Lemma map_fst_pairs : forall pth s l, map fst (pairs pth s l) = map (app pth) l.
Proof. intros. unfold pairs. rewrite map_map. reflexivity. Qed.
Lemma map_snd_pairs : forall pth s l, map snd (pairs pth s l) = map (prom_of s) l.
Proof. intros. unfold pairs. rewrite map_map. reflexivity. Qed.
Lemma nodup_app_pth : forall (pth : path) l, NoDup l -> NoDup (map (app pth) l).
Proof. intros pth l H. apply FinFun.Injective_map_NoDup; [|exact H]. intros a b E. apply app_inv_head in E. exact E. Qed.

Lemma abs_p_present : forall P U d m, acc_ok P U d -> In m (map snd P) -> pget (abs_p d) m <> None.
Proof.
  intros P U d m H Hm. rewrite (ok_abs_p _ _ _ H). unfold group_by. apply in_map_iff in Hm. destruct Hm as (e & <- & He).
  assert (K : In e (filter (fun x : path * path => peqb (snd x) (snd e)) P)) by (apply filter_In; split; [exact He|apply peqb_eq; reflexivity]). destruct (filter _ P); [destruct K|discriminate].
Qed.
Lemma abs_u_present : forall P U d m, acc_ok P U d -> In m (map snd U) -> pget (abs_u d) m <> None.
Proof. intros P U d m H Hm E. apply pget_none in E. apply E. rewrite (ok_abs_u _ _ _ H), map_map. exact Hm. Qed.
Lemma promoted_iff : forall P U d pats m, acc_ok P U d -> In m (map snd P) \/ In m (map snd U) -> promoted pats d m = promotes pats m.
Proof.
  intros P U d pats m H Hm. unfold promoted, promotes.
  assert (E : (match pget (abs_p d) m with Some _ => true | None => false end || match pget (abs_u d) m with Some _ => true | None => false end) = true).
  { destruct Hm as [Hm|Hm]; [pose proof (abs_p_present P U d m H Hm)|pose proof (abs_u_present P U d m H Hm)].
    - destruct (pget (abs_p d) m); [reflexivity|congruence].
    - destruct (pget (abs_u d) m); [apply Bool.orb_true_r|congruence]. }
  rewrite E. clear E. induction pats as [|f pats IH]; [reflexivity|]. cbn. rewrite Bool.andb_true_r, IH. reflexivity.
Qed.

Definition sub_pairs (pth : path) (l : sys -> list path) (subs : list (string * (list pattern * sys))) : list (path * path) :=
  flat_map (fun e : string * (list pattern * sys) => map (fun x : path * path => (fst x, pname (fst e) (fst (snd e)) (snd x))) (pairs (pth ++ [fst e]) (snd (snd e)) (l (snd (snd e))))) subs.
Lemma sub_pairs_ok : forall pth subs src l, NoDup (map fst subs) ->
    sub_pairs pth l subs = pairs pth (Grp subs src) (flat_map (fun e : string * (list pattern * sys) => map (cons (fst e)) (l (snd (snd e)))) subs).
Proof.
  intros pth subs src l ND. unfold sub_pairs, pairs.
  assert (G : forall post, incl post subs -> flat_map (fun e : string * (list pattern * sys) => map (fun x : path * path => (fst x, pname (fst e) (fst (snd e)) (snd x)))
        (map (fun q => ((pth ++ [fst e]) ++ q, prom_of (snd (snd e)) q)) (l (snd (snd e))))) post =
      map (fun q => (pth ++ q, prom_of (Grp subs src) q)) (flat_map (fun e : string * (list pattern * sys) => map (cons (fst e)) (l (snd (snd e)))) post)).
  { induction post as [|[n [pats c]] post IH]; intros I; [reflexivity|]. cbn [flat_map]. rewrite map_app, IH by (intros x Hx; apply I; right; exact Hx). f_equal.
    cbn [fst snd]. rewrite !map_map. apply map_ext. intros q. cbn [fst snd prom_of].
    unfold sget. rewrite (in_dget String.eqb String.eqb_eq subs n (pats, c) ND (I _ (or_introl eq_refl))). rewrite <- app_assoc. reflexivity. }
  apply G. apply incl_refl.
Qed.
Lemma pairs_sub_eq : forall pth n pats c l d P U (m : list (path * path)), acc_ok P U d -> (forall x, In x (pairs (pth ++ [n]) c l) -> In x m) -> NoDup (map fst m) ->
    (forall x, In x (pairs (pth ++ [n]) c l) -> In (snd x) (map snd P) \/ In (snd x) (map snd U)) ->
    map (fun p => (p, promoted_name n pats d (at_ m p))) (map fst (pairs (pth ++ [n]) c l)) = map (fun x : path * path => (fst x, pname n pats (snd x))) (pairs (pth ++ [n]) c l).
Proof.
  intros pth n pats c l d P U m H I ND IN. rewrite map_map. apply map_ext_in. intros [a b] Hx. cbn [fst snd]. f_equal. unfold at_. rewrite (in_pget _ m a b ND (I _ Hx)).
  unfold promoted_name, pname. rewrite (promoted_iff P U d pats b H); [reflexivity|apply (IN _ Hx)].
Qed.

Lemma check_promotes_iff : forall pth c pats d, wf_sys c -> acc_ok (pairs pth c (plist c)) (pairs pth c (ulist c)) d ->
    (check_promotes pats d = true -> ~ idle pats c) /\ (check_promotes pats d = false -> idle pats c).
Proof.
  intros pth c pats d W H. destruct (vars_nodup c W) as (NP & NU & DJ).
  assert (LP : forall q, In q (plist c) -> to_prom_name d (pth ++ q) = prom_of c q).
  { intros q Hq. unfold to_prom_name. rewrite (ok_prom_p _ _ _ H). rewrite (in_pget _ _ (pth ++ q) (prom_of c q)); [reflexivity|rewrite map_fst_pairs; apply nodup_app_pth; exact NP|].
    unfold pairs. apply in_map_iff. exists q. auto. }
  assert (LU : forall q, In q (ulist c) -> to_prom_name d (pth ++ q) = prom_of c q).
  { intros q Hq. unfold to_prom_name. rewrite (ok_prom_p _ _ _ H). rewrite (proj2 (pget_none _ _ (pth ++ q))).
    - unfold at_. rewrite (ok_prom_u _ _ _ H). rewrite (in_pget _ _ (pth ++ q) (prom_of c q)); [reflexivity|rewrite map_fst_pairs; apply nodup_app_pth; exact NU|]. unfold pairs. apply in_map_iff. exists q. auto.
    - rewrite map_fst_pairs. intros K. apply in_map_iff in K. destruct K as (q' & E & Hq'). apply app_inv_head in E. subst. eapply DJ; eassumption. }
  unfold check_promotes. rewrite (ok_params _ _ _ H), (ok_unknowns _ _ _ H), !map_fst_pairs. split.
  - rewrite forallb_forall. intros K (f & Hf & N). specialize (K f Hf). apply existsb_exists in K. destruct K as (k & Hk & Ek). apply in_app_or in Hk. destruct Hk as [Hk|Hk]; apply in_map_iff in Hk; destruct Hk as (q & <- & Hq).
    + rewrite (LP q Hq), (N q (or_introl Hq)) in Ek. discriminate.
    + rewrite (LU q Hq), (N q (or_intror Hq)) in Ek. discriminate.
  - intros N. assert (K : exists f, In f pats /\ existsb (fun k => f (join_dot (to_prom_name d k))) (map (app pth) (plist c) ++ map (app pth) (ulist c)) = false).
    { clear -N. induction pats as [|f pats IH]; [discriminate|]. cbn [forallb] in N. apply Bool.andb_false_iff in N. destruct N as [N|N]; [exists f; split; [left; reflexivity|exact N]|].
      destruct (IH N) as (g & Hg & E). exists g. split; [right; exact Hg|exact E]. }
    destruct K as (f & Hf & E). exists f. split; [exact Hf|].
    intros q Hq. rewrite <- Bool.not_true_iff_false. intros K. rewrite <- Bool.not_true_iff_false in E. apply E. apply existsb_exists. exists (pth ++ q).
    split; [apply in_or_app; destruct Hq as [Hq|Hq]; [left|right]; apply in_map; exact Hq|]. destruct Hq as [Hq|Hq]; [rewrite (LP q Hq)|rewrite (LU q Hq)]; exact K.
Qed.

Definition fault (e : string * (list pattern * sys)) : Prop := idle (fst (snd e)) (snd (snd e)) \/ faulty (snd (snd e)).

Lemma nodup_inj : forall (f : path -> path) l x y, NoDup (map f l) -> In x l -> In y l -> f x = f y -> x = y.
Proof.
  intros f. induction l as [|a l IH]; intros x y ND Hx Hy E; [destruct Hx|]. inversion ND; subst. destruct Hx as [->|Hx], Hy as [->|Hy]; auto.
  - exfalso. apply H1. rewrite E. apply in_map. exact Hy.
  - exfalso. apply H1. rewrite <- E. apply in_map. exact Hx.
Qed.
Lemma not_nodup_inj : forall (f : path -> path) l, NoDup l -> ~ NoDup (map f l) -> exists x y, In x l /\ In y l /\ x <> y /\ f x = f y.
Proof.
  intros f. induction l as [|a l IH]; intros ND N; [exfalso; apply N; constructor|]. inversion ND; subst. destruct (in_dec path_dec (f a) (map f l)) as [HI|HN].
  - apply in_map_iff in HI. destruct HI as (b & E & Hb). exists a, b. split; [left; reflexivity|]. split; [right; exact Hb|]. split; [intros ->; contradiction|auto].
  - destruct IH as (x & y & Hx & Hy & NE & E); [assumption|intros K; apply N; constructor; assumption|]. exists x, y. cbn. auto.
Qed.

(** ** the whole tree *)
Lemma setup_ok : forall s, wf_sys s -> forall pth,
    (faulty s /\ setup_variables pth s = Err RuntimeError) \/
    (~ faulty s /\ exists d, setup_variables pth s = Ok d /\ acc_ok (pairs pth s (plist s)) (pairs pth s (ulist s)) d /\ NoDup (map (prom_of s) (ulist s))).
Proof.
  intros s. induction s as [ps us|subs src IH] using sys_ind'; intros W pth.
  - right. inversion W; subst. assert (I : FinFun.Injective (fun n : string => [n])) by (intros a b E; congruence).
    assert (NP : NoDup ps) by (eapply nodup_app_l; eassumption). assert (NU : NoDup us) by (revert H0; clear; induction ps as [|p ps IH]; [auto|]; cbn; intros H; inversion H; auto).
    split; [intros K; inversion K|]. exists (comp_data pth ps us). split; [reflexivity|]. cbn [plist ulist].
    assert (NE : NoDup (map (prom_of (Comp ps us)) (map (fun n => [n]) us))) by (rewrite map_map; cbn; apply FinFun.Injective_map_NoDup; assumption). split; [|exact NE].
    constructor; unfold pairs; cbn; try (rewrite ?map_map; reflexivity).
    + rewrite !map_map. cbn. apply FinFun.Injective_map_NoDup; assumption.
    + intros m. unfold group_by. rewrite map_map. cbn. clear W H0 NE NU us. induction NP as [|p ps Hp NP IHp]; [reflexivity|]. cbn. unfold pget in *. cbn.
      destruct (peqb m [p]) eqn:E.
      * apply peqb_eq in E. subst m. rewrite (proj2 (peqb_eq [p] [p]) eq_refl). cbn.
        assert (F : filter (fun e : path * path => peqb (snd e) [p]) (map (fun x => (pth ++ [x], [x])) ps) = []).
        { clear IHp. induction ps as [|x ps IHx]; [reflexivity|]. cbn. destruct (peqb [x] [p]) eqn:E; [exfalso; apply peqb_eq in E; injection E as ->; apply Hp; left; reflexivity|].
          apply IHx; [intros K; apply Hp; right; exact K|inversion NP; assumption]. }
        rewrite F. reflexivity.
      * rewrite IHp. destruct (peqb [p] m) eqn:F; [apply peqb_eq in F; subst m; rewrite (proj2 (peqb_eq [p] [p]) eq_refl) in E; discriminate|reflexivity].
    + unfold dkeys. rewrite map_map. cbn. apply FinFun.Injective_map_NoDup; assumption.
  - inversion W as [|subs' src' ND WS]; subst. destruct (vars_nodup _ W) as (NP & NU & _). cbn [plist ulist] in NP, NU. cbn [setup_variables].
    set (go := fix go (subs : list (string * (list pattern * sys))) (acc : data) : res data :=
         match subs with [] => Ok acc | (n, (pats, c)) :: r => let! d := setup_variables (pth ++ [n]) c in let! acc' := add_sub acc n pats d in go r acc' end).
    assert (G : forall post pre acc, subs = pre ++ post -> acc_ok (sub_pairs pth plist pre) (sub_pairs pth ulist pre) acc ->
               ((Exists fault post \/ ~ NoDup (map snd (sub_pairs pth ulist subs))) /\ go post acc = Err RuntimeError) \/
               (~ Exists fault post /\ exists d, go post acc = Ok d /\ acc_ok (sub_pairs pth plist subs) (sub_pairs pth ulist subs) d)).
    { induction post as [|[n [pats c]] post IHpost]; intros pre acc ES HA.
      - right. rewrite app_nil_r in ES. subst pre. split; [intros K; inversion K|]. exists acc. auto.
      - cbn [go]. fold go. assert (HIn : In (n, (pats, c)) subs) by (rewrite ES; apply in_or_app; right; left; reflexivity).
        rewrite Forall_forall in IH. assert (WC : wf_sys c) by (eapply WS; exact HIn). destruct (vars_nodup c WC) as (NPc & NUc & _).
        destruct (IH (n, (pats, c)) HIn WC (pth ++ [n])) as [[F E]|(NF & d & E & HD & _)]; cbn [snd] in *; rewrite E; cbn [bind].
        { left. split; [|reflexivity]. left. constructor. right. exact F. }
        assert (SPL : forall l, sub_pairs pth l subs = sub_pairs pth l pre ++ map (fun x : path * path => (fst x, pname n pats (snd x))) (pairs (pth ++ [n]) c (l c)) ++ sub_pairs pth l post).
        { intros l. rewrite ES. unfold sub_pairs. rewrite flat_map_app. reflexivity. }
        assert (NALL : forall l, NoDup (flat_map (fun e : string * (list pattern * sys) => map (cons (fst e)) (l (snd (snd e)))) subs) ->
                  NoDup (map fst (sub_pairs pth l pre) ++ map fst (pairs (pth ++ [n]) c (l c)))).
        { intros l NL. assert (K : NoDup (map fst (sub_pairs pth l subs))) by (rewrite (sub_pairs_ok pth subs src l ND), map_fst_pairs; apply nodup_app_pth; exact NL).
          rewrite SPL, !map_app, map_map in K. cbn [fst] in K. rewrite app_assoc in K. eapply nodup_app_l. exact K. }
        assert (PP : map (fun p => (p, promoted_name n pats d (at_ (prom_p d) p))) (params d) = map (fun x : path * path => (fst x, pname n pats (snd x))) (pairs (pth ++ [n]) c (plist c))).
        { rewrite (ok_params _ _ _ HD), (ok_prom_p _ _ _ HD). eapply pairs_sub_eq; [exact HD|auto|rewrite map_fst_pairs; apply nodup_app_pth; exact NPc|]. intros x Hx. left. apply in_map. exact Hx. }
        assert (UU : map (fun p => (p, promoted_name n pats d (at_ (prom_u d) p))) (unknowns d) = map (fun x : path * path => (fst x, pname n pats (snd x))) (pairs (pth ++ [n]) c (ulist c))).
        { rewrite (ok_unknowns _ _ _ HD), (ok_prom_u _ _ _ HD). eapply pairs_sub_eq; [exact HD|auto|rewrite map_fst_pairs; apply nodup_app_pth; exact NUc|]. intros x Hx. right. apply in_map. exact Hx. }
        unfold add_sub. pose proof (fold_params (fun p => promoted_name n pats d (at_ (prom_p d) p)) (params d) _ _ acc HA) as H1. cbv beta in H1. rewrite PP in H1.
        specialize (H1 ltac:(rewrite (ok_params _ _ _ HD); apply (NALL plist); exact NP)).
        set (acc1 := fold_left _ (params d) acc) in *.
        destruct (fold_unknowns (fun u => promoted_name n pats d (at_ (prom_u d) u)) (unknowns d) _ _ acc1 H1) as [[N E2]|(acc2 & E2 & H2)];
          [rewrite (ok_unknowns _ _ _ HD); apply (NALL ulist); exact NU| |]; rewrite E2; cbn [bind].
        { left. split; [|reflexivity]. right. cbv beta in N. rewrite UU in N. rewrite (SPL ulist). cbv beta. intros K. apply N. rewrite app_assoc in K. rewrite map_app in K. eapply nodup_app_l. exact K. }
        cbv beta in H2. rewrite UU in H2. destruct (check_promotes pats d) eqn:CP; cbn [bind].
        + apply (check_promotes_iff (pth ++ [n]) c pats d WC HD) in CP.
          assert (SN : forall l, sub_pairs pth l pre ++ map (fun x : path * path => (fst x, pname n pats (snd x))) (pairs (pth ++ [n]) c (l c)) = sub_pairs pth l (pre ++ [(n, (pats, c))])).
          { intros l. unfold sub_pairs. rewrite flat_map_app. cbn [flat_map fst snd]. rewrite app_nil_r. reflexivity. }
          destruct (IHpost (pre ++ [(n, (pats, c))]) acc2) as [[FX E3]|(NX & d' & E3 & H3)]; [rewrite <- app_assoc; exact ES|rewrite <- !SN; exact H2| |].
          * left. split; [|exact E3]. destruct FX as [FX|FX]; [left; apply Exists_cons_tl; exact FX|right; exact FX].
          * right. split; [|exists d'; auto]. intros K. inversion K as [? ? K0|? ? K0]; subst; [destruct K0; contradiction|contradiction].
        + left. split; [|reflexivity]. left. constructor. left. cbn [fst snd]. exact (proj2 (check_promotes_iff (pth ++ [n]) c pats d WC HD) CP). }
    assert (CL : clash (Grp subs src) <-> ~ NoDup (map snd (sub_pairs pth ulist subs))).
    { rewrite (sub_pairs_ok pth subs src ulist ND), map_snd_pairs. change (flat_map _ subs) with (ulist (Grp subs src)). unfold clash. split.
      - intros (q1 & q2 & H1 & H2 & NE & E) K. apply NE. eapply (nodup_inj (prom_of (Grp subs src))); eassumption.
      - intros N. apply not_nodup_inj; [exact NU|exact N]. }
    assert (A0 : acc_ok (sub_pairs pth plist []) (sub_pairs pth ulist []) (mkData [] [] [] [] [] [])) by (constructor; try reflexivity; constructor).
    destruct (G subs [] _ eq_refl A0) as [[F E]|(NX & d & E & H)].
    + left. split; [|exact E]. destruct F as [F|F].
      * apply Exists_exists in F. destruct F as ([n [pats c]] & HI & [F|F]); [eapply f_idle|eapply f_sub]; eassumption.
      * apply f_clash. apply CL. exact F.
    + right. assert (NDU : NoDup (map snd (sub_pairs pth ulist subs))) by exact (ok_nodup _ _ _ H). split.
      * intros K. inversion K as [? ? C|? ? n pats c HI C|? ? n pats c HI C]; subst.
        -- apply CL in C. contradiction.
        -- apply NX. apply Exists_exists. exists (n, (pats, c)). split; [exact HI|left; exact C].
        -- apply NX. apply Exists_exists. exists (n, (pats, c)). split; [exact HI|right; exact C].
      * exists d. split; [exact E|]. rewrite (sub_pairs_ok pth subs src plist ND), (sub_pairs_ok pth subs src ulist ND) in H. split; [exact H|].
        rewrite (sub_pairs_ok pth subs src ulist ND), map_snd_pairs in NDU. exact NDU.
Qed.

Lemma names_ok : forall s pth d, wf_sys s -> setup_variables pth s = Ok d ->
    params d = map (app pth) (plist s) /\ unknowns d = map (app pth) (ulist s) /\ NoDup (params d ++ unknowns d) /\
    (forall q, In q (plist s) \/ In q (ulist s) -> to_prom_name d (pth ++ q) = prom_of s q) /\
    (forall m u, pget (abs_u d) m = Some u <-> exists q, In q (ulist s) /\ u = pth ++ q /\ prom_of s q = m) /\
    (forall m, match pget (abs_p d) m with
               | Some l => l <> [] /\ l = map (app pth) (filter (fun q => peqb (prom_of s q) m) (plist s))
               | None => forall q, In q (plist s) -> prom_of s q <> m
               end).
Proof.
  intros s pth d W E. destruct (setup_ok s W pth) as [[_ E']|(_ & d' & E' & H & ND)]; [rewrite E' in E; discriminate|]. rewrite E' in E. injection E as ->. destruct (vars_nodup s W) as (NP & NU & DJ).
  assert (FP : params d = map (app pth) (plist s)) by (rewrite (ok_params _ _ _ H), map_fst_pairs; reflexivity).
  assert (FU : unknowns d = map (app pth) (ulist s)) by (rewrite (ok_unknowns _ _ _ H), map_fst_pairs; reflexivity).
  split; [exact FP|]. split; [exact FU|]. split; [|split; [|split]].
  - rewrite FP, FU. rewrite <- map_app. apply nodup_app_pth. clear -NP NU DJ. induction NP as [|x l Hx NP IH]; [exact NU|]. cbn. constructor.
    + intros K. apply in_app_or in K. destruct K as [K|K]; [contradiction|]. exact (DJ x (or_introl eq_refl) K).
    + apply IH. intros q Hq. apply DJ. right. exact Hq.
  - intros q Hq. unfold to_prom_name. rewrite (ok_prom_p _ _ _ H). destruct (in_dec path_dec q (plist s)) as [Hp|Hn].
    + rewrite (in_pget _ _ (pth ++ q) (prom_of s q)); [reflexivity|rewrite map_fst_pairs; apply nodup_app_pth; exact NP|]. unfold pairs. apply in_map_iff. exists q. auto.
    + destruct Hq as [Hq|Hq]; [contradiction|]. rewrite (proj2 (pget_none _ _ (pth ++ q))).
      * unfold at_. rewrite (ok_prom_u _ _ _ H). rewrite (in_pget _ _ (pth ++ q) (prom_of s q)); [reflexivity|rewrite map_fst_pairs; apply nodup_app_pth; exact NU|]. unfold pairs. apply in_map_iff. exists q. auto.
      * rewrite map_fst_pairs. intros K. apply in_map_iff in K. destruct K as (q' & E & Hq'). apply app_inv_head in E. subst. contradiction.
  - intros m u. rewrite (ok_abs_u _ _ _ H). split.
    + intros G. apply pget_in in G. apply in_map_iff in G. destruct G as ([a b] & E & G). cbn in E. injection E as -> ->. unfold pairs in G. apply in_map_iff in G. destruct G as (q & E & Hq). injection E as <- <-. exists q. auto.
    + intros (q & Hq & -> & <-). apply in_pget; [rewrite map_map; cbn; change (fun x : path * path => snd x) with (@snd path path); rewrite map_snd_pairs; exact ND|].
      apply in_map_iff. exists (pth ++ q, prom_of s q). split; [reflexivity|]. unfold pairs. apply in_map_iff. exists q. auto.
  - intros m. rewrite (ok_abs_p _ _ _ H). unfold group_by, pairs.
    assert (FL : forall l, map fst (filter (fun e : path * path => peqb (snd e) m) (map (fun q => (pth ++ q, prom_of s q)) l)) = map (app pth) (filter (fun q => peqb (prom_of s q) m) l)).
    { induction l as [|q l IH]; [reflexivity|]. cbn. destruct (peqb (prom_of s q) m); cbn; rewrite IH; reflexivity. }
    destruct (filter _ (map _ (plist s))) as [|x l] eqn:EF.
    + intros q Hq Em. assert (K : In (pth ++ q, prom_of s q) (filter (fun e : path * path => peqb (snd e) m) (map (fun q => (pth ++ q, prom_of s q)) (plist s)))).
      { apply filter_In. split; [apply in_map_iff; exists q; auto|]. cbn. apply peqb_eq. exact Em. }
      rewrite EF in K. destruct K.
    + split; [discriminate|]. rewrite <- FL, EF. reflexivity.
Qed.

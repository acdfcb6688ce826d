(** C129: the names of a system's unknowns in the vectors of its parent. *)
From Verif Require Import Base BaseFacts OrderModel PathModel PathSpec PathProofs NameModel NameSpec NameProofs NameProps RelnModel RelnSpec VecModel VecSpec VecProps.
Local Open Scope list_scope.
Local Open Scope nat_scope.

Lemma setup_inv : forall s pth d, wf_sys s -> setup_variables pth s = Ok d -> ~ faulty s /\ acc_ok (pairs pth s (plist s)) (pairs pth s (ulist s)) d /\ NoDup (map (prom_of s) (ulist s)).
Proof. intros s pth d W E. destruct (setup_ok s W pth) as [[_ E']|(NF & d' & E' & A & N)]; rewrite E in E'; [discriminate E'|]. injection E' as <-. auto. Qed.
Lemma to_prom_unknown : forall s pth d q, wf_sys s -> setup_variables pth s = Ok d -> In q (ulist s) -> to_prom d (pth ++ q) = Some (prom_of s q).
Proof.
  intros s pth d q W E I. destruct (setup_inv s pth d W E) as (_ & A & _). destruct (vars_nodup s W) as (_ & NU & DJ). unfold to_prom. rewrite (ok_prom_p _ _ _ A), (ok_prom_u _ _ _ A).
  assert (pget (pairs pth s (plist s)) (pth ++ q) = None) as ->. { apply pget_none. rewrite map_fst_pairs. intros K. apply in_map_iff in K. destruct K as (q' & Eq & K). apply app_inv_head in Eq. subst q'. exact (DJ q K I). }
  apply in_pget; [rewrite map_fst_pairs; apply nodup_app_pth; exact NU|]. apply in_map_iff. exists q. split; [reflexivity|exact I].
Qed.
Lemma map_loop_ok : forall parent (val : path -> path) l umap, (forall e, In e l -> to_prom parent (fst e) = Some (val (fst e))) -> NoDup (map fst umap ++ map (fun e => val (fst e)) l) ->
  map_loop parent l umap = Ok (umap ++ map (fun e => (val (fst e), snd e)) l).
Proof.
  intros parent val. induction l as [|[a p] l IH]; intros umap H N; [cbn; rewrite app_nil_r; reflexivity|]. cbn [map_loop]. pose proof (H (a, p) (or_introl eq_refl)) as Ha. cbn [fst] in Ha. rewrite Ha. cbn [map fst snd] in *. rewrite pset_new.
  - rewrite IH; [rewrite <- app_assoc; reflexivity|intros e I; apply H; right; exact I|]. rewrite map_app, <- app_assoc. exact N.
  - intros K. clear - N K. induction (map fst umap) as [|x m IHm]; [contradiction|]. cbn in N. inversion N as [|? ? Ni N']; subst. destruct K as [->|K]; [apply Ni; apply in_or_app; right; left; reflexivity|exact (IHm N' K)].
Qed.
Lemma sub_ulist : forall subs src n pats c, In (n, (pats, c)) subs -> exists pre post, ulist (Grp subs src) = pre ++ map (cons n) (ulist c) ++ post.
Proof.
  intros subs src n pats c I. cbn [ulist]. apply in_split in I. destruct I as (l1 & l2 & ->). rewrite flat_map_app. cbn [flat_map fst snd]. eexists _, _. reflexivity.
Qed.
Lemma nodup_mid : forall A (a b c : list A), NoDup (a ++ b ++ c) -> NoDup b.
Proof. intros A a b c N. induction a as [|x a IH]; [exact (nodup_app_l _ b c N)|]. inversion N. apply IH. assumption. Qed.
(** The map of a component or group has one entry for each of its unknowns, in order: the
    promoted name in the parent with that in the system.  These are a run of consecutive
    unknowns of the parent, and no name occurs twice. *)
Theorem C129_map : forall subs src pth D n pats c, wf_sys (Grp subs src) -> setup_variables pth (Grp subs src) = Ok D -> In (n, (pats, c)) subs ->
  exists d, setup_variables (pth ++ [n]) c = Ok d /\ relname_map D (pth ++ [n]) c d = Ok (unknowns_in (Grp subs src) n c) /\
  (exists pre post, map (prom_of (Grp subs src)) (ulist (Grp subs src)) = pre ++ map fst (unknowns_in (Grp subs src) n c) ++ post) /\
  NoDup (map fst (unknowns_in (Grp subs src) n c)) /\ NoDup (map snd (unknowns_in (Grp subs src) n c)).
Proof.
  intros subs src pth D n pats c W E I. destruct (setup_inv _ pth D W E) as (NF & A & N). assert (Wc : wf_sys c) by (inversion W as [|? ? ND Wf]; subst; exact (Wf n pats c I)).
  destruct (setup_ok c Wc (pth ++ [n])) as [[F _]|(_ & d & Ed & Ad & Nd)]; [exfalso; apply NF; exact (f_sub _ _ _ _ _ I F)|]. exists d. split; [exact Ed|].
  destruct (sub_ulist subs src n pats c I) as (pre & post & Eu).
  assert (Ef : map fst (unknowns_in (Grp subs src) n c) = map (prom_of (Grp subs src)) (map (cons n) (ulist c))) by (unfold unknowns_in; rewrite !map_map; reflexivity).
  assert (Nf : NoDup (map fst (unknowns_in (Grp subs src) n c))). { rewrite Ef. rewrite Eu, !map_app in N. exact (nodup_mid _ _ _ _ N). }
  assert (T : forall q, In q (ulist c) -> to_prom D ((pth ++ [n]) ++ q) = Some (prom_of (Grp subs src) (n :: q))). { intros q Q. rewrite <- app_assoc. apply (to_prom_unknown (Grp subs src) pth D (n :: q) W E). rewrite Eu. apply in_or_app. right. apply in_or_app. left. apply in_map. exact Q. }
  assert (L : forall l, l = pairs (pth ++ [n]) c (ulist c) -> map_loop D l [] = Ok (unknowns_in (Grp subs src) n c)).
  { intros l ->. rewrite (map_loop_ok D (fun a => match to_prom D a with Some v => v | None => [] end)).
    - cbn [app]. f_equal. unfold pairs, unknowns_in. rewrite map_map. apply map_ext_in. intros q Q. cbn [fst snd]. rewrite (T q Q). reflexivity.
    - intros e Ie. unfold pairs in Ie. apply in_map_iff in Ie. destruct Ie as (q & <- & Q). cbn [fst]. rewrite (T q Q). reflexivity.
    - cbn [map app]. unfold pairs. rewrite map_map. cbn [fst]. rewrite (map_ext_in _ (fun q => prom_of (Grp subs src) (n :: q))); [|intros q Q; rewrite (T q Q); reflexivity]. unfold unknowns_in in Nf. rewrite map_map in Nf. exact Nf. }
  split; [|split; [|split; [exact Nf|]]].
  - unfold relname_map. destruct c as [ps us|subs' src']; apply L; [unfold pairs; cbn [ulist]; rewrite map_map; reflexivity|exact (ok_prom_u _ _ _ Ad)].
  - rewrite Ef, Eu, !map_app. eexists _, _. reflexivity.
  - unfold unknowns_in. rewrite map_map. exact Nd.
Qed.
Print Assumptions C129_map.

Lemma sget_sub : forall (subs : list (string * (list pattern * sys))) n pats c, NoDup (map fst subs) -> In (n, (pats, c)) subs -> sget subs n = Some (pats, c).
Proof.
  intros subs n pats c N I. unfold sget. induction subs as [|[m e] subs IH]; [contradiction|]. inversion N as [|? ? Ni N']; subst. cbn. destruct I as [I|I]; [injection I as -> ->; rewrite String.eqb_refl; reflexivity|]. destruct (String.eqb_spec n m) as [->|]; [exfalso; apply Ni; exact (in_map fst _ _ I)|exact (IH N' I)].
Qed.
Lemma prom_parts : forall s q, Forall name_ok q -> Forall name_ok (prom_of s q).
Proof.
  intros s q. revert s. induction q as [|n q IH]; intros s H; [exact H|]. cbn. destruct s as [ps us|subs src]; [exact H|]. inversion H as [|? ? H1 H2]; subst. destruct (sget subs n) as [[pats c]|]; [|exact H]. destruct (promotes pats (prom_of c q)); [exact (IH c H2)|constructor; [exact H1|exact (IH c H2)]].
Qed.
Lemma nodup_texts : forall (l : list path), (forall p, In p l -> Forall name_ok p) -> NoDup l -> NoDup (map join_dot l).
Proof.
  induction l as [|p l IH]; intros H N; [constructor|]. inversion N as [|? ? Ni N']; subst. cbn. constructor; [|apply IH; [intros q Q; apply H; right; exact Q|exact N']]. intros K. apply in_map_iff in K. destruct K as (q & E & Q). rewrite <- !text_join in E. apply text_inj in E; [subst; contradiction|apply H; right; exact Q|apply H; left; reflexivity].
Qed.
(** Hence for every system of a model that was set up the maps on the way to it exist and are
    those of a tree of views (C24), whose theorems then apply. *)
Theorem C129_chain : forall s ns t, below s ns t -> forall pth D, wf_sys s -> plain_names s -> setup_variables pth s = Ok D ->
  exists ms, maps_down pth s ns = Ok ms /\ length ms = length ns /\ tree_chain (map join_dot (map (prom_of s) (ulist s))) (map texts ms).
Proof.
  intros s ns t B. induction B as [s|subs src n pats c ns t I B IH]; intros pth D W P E; [exists []; split; [reflexivity|split; [reflexivity|exact Logic.I]]|].
  destruct (C129_map subs src pth D n pats c W E I) as (d & Ed & Em & (pre & post & Er) & _ & Ns).
  assert (ND : NoDup (map fst subs) /\ wf_sys c) by (inversion W as [|? ? ND Wf]; subst; split; [exact ND|exact (Wf n pats c I)]). destruct ND as [ND Wc].
  destruct (sub_ulist subs src n pats c I) as (pr & po & Eu).
  assert (Pc : plain_names c). { intros q Q. assert (K : In (n :: q) (ulist (Grp subs src))) by (rewrite Eu; apply in_or_app; right; apply in_or_app; left; apply in_map; exact Q). specialize (P _ K). inversion P; assumption. }
  destruct (IH (pth ++ [n]) d Wc Pc Ed) as (ms & Ems & Lm & Tm).
  assert (Es : map snd (unknowns_in (Grp subs src) n c) = map (prom_of c) (ulist c)) by (unfold unknowns_in; rewrite map_map; reflexivity).
  exists (unknowns_in (Grp subs src) n c :: ms). cbn [maps_down]. rewrite (sget_sub subs n pats c ND I), E. cbn [bind]. rewrite Ed. cbn [bind]. rewrite Em. cbn [bind]. rewrite Ems. split; [reflexivity|]. split; [cbn; congruence|]. cbn [map tree_chain].
  assert (T1 : map fst (texts (unknowns_in (Grp subs src) n c)) = map join_dot (map fst (unknowns_in (Grp subs src) n c))) by (unfold texts; rewrite !map_map; reflexivity).
  assert (T2 : map snd (texts (unknowns_in (Grp subs src) n c)) = map join_dot (map (prom_of c) (ulist c))) by (rewrite <- Es; unfold texts; rewrite !map_map; reflexivity).
  rewrite T1, T2. split; [|split; [|exact Tm]].
  - rewrite Er, !map_app. eexists _, _. reflexivity.
  - apply nodup_texts; [|rewrite <- Es; exact Ns]. intros p Ip. apply in_map_iff in Ip. destruct Ip as (q & <- & Q). apply prom_parts. exact (Pc q Q).
Qed.
Print Assumptions C129_chain.

(** ** SubProblem *)
Lemma head_text : forall n r, dotless n -> exists t, split_dot (join_dot (n :: r)) = n :: t.
Proof. intros n [|m r] H; [exists []; exact (split_name n H)|]. exists (split_dot (join_dot (m :: r))). exact (split_cons n _ H). Qed.
Lemma find_none : forall (l : list (path * path)) t, (forall e, In e l -> join_dot (fst e) <> t) -> find (fun e => String.eqb (join_dot (fst e)) t) l = None.
Proof. induction l as [|e l IH]; intros t H; [reflexivity|]. cbn. destruct (String.eqb_spec (join_dot (fst e)) t) as [K|_]; [exfalso; exact (H e (or_introl eq_refl) K)|]. apply IH. intros e' I. apply H. right. exact I. Qed.
Lemma find_only : forall (l : list (path * path)) t e, In e l -> join_dot (fst e) = t -> (forall f, In f l -> join_dot (fst f) = t -> f = e) -> find (fun e => String.eqb (join_dot (fst e)) t) l = Some e.
Proof.
  induction l as [|f l IH]; intros t e I E U; [contradiction|]. cbn. destruct (String.eqb_spec (join_dot (fst f)) t) as [K|K]; [rewrite (U f (or_introl eq_refl) K); reflexivity|]. destruct I as [->|I]; [contradiction|]. apply IH; [exact I|exact E|]. intros g G. apply U. right. exact G.
Qed.
Lemma vars_heads : forall subs src q, In q (plist (Grp subs src)) \/ In q (ulist (Grp subs src)) -> exists n pats c q', q = n :: q' /\ In (n, (pats, c)) subs /\ (In q' (plist c) \/ In q' (ulist c)).
Proof.
  intros subs src q H. cbn [plist ulist] in H. destruct H as [H|H]; apply in_flat_map in H; destruct H as ([n [pats c]] & I & K); apply in_map_iff in K; destruct K as (q' & <- & K); exists n, pats, c, q'; auto.
Qed.
Lemma unknown_heads : forall subs src n pats ps us k, NoDup (map fst subs) -> In (n, (pats, Comp ps us)) subs -> In k us -> In [n; k] (ulist (Grp subs src)).
Proof. intros subs src n pats ps us k _ I K. cbn [ulist]. apply in_flat_map. exists (n, (pats, Comp ps us)). split; [exact I|]. apply in_map. cbn. apply in_map_iff. exists k. auto. Qed.
(** A SubProblem of the top group has the map of a component. *)
Theorem C129_subproblem : forall subs src D n pats ps us, wf_sys (Grp subs src) -> Forall dotless (map fst subs) -> setup_variables [] (Grp subs src) = Ok D -> In (n, (pats, Comp ps us)) subs ->
  subproblem_map D n us = unknowns_in (Grp subs src) n (Comp ps us).
Proof.
  intros subs src D n pats ps us W Dl E I. destruct (setup_inv _ [] D W E) as (_ & A & N). destruct (C129_map subs src [] D n pats (Comp ps us) W E I) as (_ & _ & _ & _ & Nf & _).
  assert (ND : NoDup (map fst subs)) by (inversion W; assumption). assert (Nc : NoDup (ps ++ us)) by (inversion W as [|? ? _ Wf]; subst; specialize (Wf n pats _ I); inversion Wf; assumption).
  rewrite Forall_forall in Dl. assert (Dn : dotless n) by (apply Dl; exact (in_map fst _ _ I)).
  assert (Q : forall q k, In q (plist (Grp subs src)) \/ In q (ulist (Grp subs src)) -> In k us -> join_dot q = join_dot [n; k] -> q = [n; k]).
  { intros q k Hq Hk Eq. destruct (vars_heads subs src q Hq) as (n' & pats' & c & q' & -> & I' & Hq'). assert (Dn' : dotless n') by (apply Dl; exact (in_map fst _ _ I')). destruct (head_text n' q' Dn') as (t & Et). destruct (head_text n [k] Dn) as (t' & Et'). rewrite Eq, Et' in Et. injection Et as <- _.
    pose proof (sget_sub subs n pats _ ND I) as G1. pose proof (sget_sub subs n pats' c ND I') as G2. rewrite G1 in G2. injection G2 as _ <-. assert (exists k', q' = [k']) as (k' & ->) by (cbn in Hq'; destruct Hq' as [H|H]; apply in_map_iff in H; destruct H as (k' & <- & _); exists k'; reflexivity).
    cbn [join_dot] in Eq. apply (f_equal (slice_from (String.length n + 1))) in Eq. change ("." ++ k')%string with (String "." k') in Eq. change ("." ++ k)%string with (String "." k) in Eq. rewrite !slice_skip in Eq. congruence. }
  assert (F : forall k, In k us -> find_text D (join_dot [n; k]) = Some (prom_of (Grp subs src) [n; k])).
  { intros k K. pose proof (unknown_heads subs src n pats ps us k ND I K) as U. unfold find_text. rewrite (ok_prom_p _ _ _ A), (ok_prom_u _ _ _ A). destruct (vars_nodup _ W) as (_ & _ & DJ). rewrite find_none.
    - rewrite (find_only _ _ ([n; k], prom_of (Grp subs src) [n; k])); [reflexivity| |reflexivity|].
      + apply in_map_iff. exists [n; k]. split; [reflexivity|exact U].
      + intros f If Ef. apply in_map_iff in If. destruct If as (q & <- & Iq). cbn [fst app] in Ef. rewrite (Q q k (or_intror Iq) K Ef). reflexivity.
    - intros e Ie Ee. apply in_map_iff in Ie. destruct Ie as (q & <- & Iq). cbn [fst app] in Ee. rewrite (Q q k (or_introl Iq) K Ee) in Iq. exact (DJ _ Iq U). }
  unfold subproblem_map. unfold unknowns_in in *. cbn [ulist] in *. rewrite map_map in *. rewrite map_map in Nf. cbn [fst] in Nf.
  assert (L : forall l umap, (forall k, In k l -> In k us) -> NoDup (map fst umap ++ map (fun k => prom_of (Grp subs src) [n; k]) l) ->
     fold_left (fun umap key => match find_text D (join_dot [n; key]) with Some v => pset umap v [key] | None => umap end) l umap = umap ++ map (fun k => (prom_of (Grp subs src) [n; k], [k])) l).
  { induction l as [|k l IH]; intros umap H Nl; [cbn; rewrite app_nil_r; reflexivity|]. cbn [fold_left map] in *. rewrite (F k (H k (or_introl eq_refl))), pset_new.
    - rewrite IH; [rewrite <- app_assoc; reflexivity|intros j J; apply H; right; exact J|]. rewrite map_app, <- app_assoc. exact Nl.
    - intros K. clear - Nl K. induction (map fst umap) as [|x m IHm]; [contradiction|]. cbn in Nl. inversion Nl as [|? ? Ni N']; subst. destruct K as [->|K]; [apply Ni; apply in_or_app; right; left; reflexivity|exact (IHm N' K)]. }
  rewrite (L us []); [reflexivity|auto|exact Nf].
Qed.
Print Assumptions C129_subproblem.
(** In any other group the map is empty, unless the top name on the way is its own name: the
    view has none of its unknowns, so that solve_nonlinear raises KeyError. *)
Theorem C129_subproblem_refuted : forall subs src D h pth n keys, wf_sys (Grp subs src) -> setup_variables (h :: pth) (Grp subs src) = Ok D -> dotless h -> dotless n -> n <> h ->
  subproblem_map D n keys = [] /\
  forall A O (w : wrapper) (m : memory A O) k, exists v, get_view w (texts (subproblem_map D n keys)) = Ok v /\ w_get v m k = Err KeyError.
Proof.
  intros subs src D h pth n keys W E Dh Dn Ne. assert (S0 : subproblem_map D n keys = []).
  { destruct (setup_inv _ _ D W E) as (_ & A & _). unfold subproblem_map. assert (F : forall k, find_text D (join_dot [n; k]) = None).
    { intros k. assert (X : forall e, In e (prom_p D) \/ In e (prom_u D) -> join_dot (fst e) <> join_dot [n; k]).
      { intros e Ie Ee. rewrite (ok_prom_p _ _ _ A), (ok_prom_u _ _ _ A) in Ie. assert (exists q, fst e = h :: pth ++ q) as (q & Eq) by (destruct Ie as [Ie|Ie]; apply in_map_iff in Ie; destruct Ie as (q & <- & _); exists q; reflexivity). rewrite Eq in Ee. destruct (head_text h (pth ++ q) Dh) as (t & Et). destruct (head_text n [k] Dn) as (t' & Et'). rewrite Ee, Et' in Et. injection Et as Et _. contradiction. }
      unfold find_text. rewrite find_none by (intros e Ie; apply X; left; exact Ie). rewrite find_none by (intros e Ie; apply X; right; exact Ie). reflexivity. }
    generalize (@nil (path * path)). induction keys as [|k keys IH]; intros u; [reflexivity|]. cbn [fold_left]. rewrite F. apply IH. }
  split; [exact S0|]. intros A O w m k. rewrite S0. eexists. split; reflexivity.
Qed.
Print Assumptions C129_subproblem_refuted.

(** a group with a component and a group; y is promoted on the way *)
Local Open Scope string_scope.
Local Open Scope list_scope.
Definition reln_model : NameModel.sys :=
  Grp [("p", ([], Comp [] ["x"])); ("g", ([fun s => String.eqb s "c.y"], Grp [("c", ([], Comp ["x"] ["y"; "z"])); ("d", ([fun s => String.eqb s "w"], Comp ["y"] ["w"]))] []))]%string [].
Example C129_ex : maps_down [] reln_model ["g"; "c"]%string = Ok [[(["c"; "y"], ["c"; "y"]); (["g"; "c"; "z"], ["c"; "z"]); (["g"; "w"], ["w"])]; [(["c"; "y"], ["y"]); (["c"; "z"], ["z"])]]%string.
Proof. vm_compute. reflexivity. Qed.
Example C129_ex_subproblem :
  (let! D := setup_variables [] reln_model in Ok (subproblem_map D "p" ["x"])) = Ok [(["p"; "x"], ["x"])]%string
  /\ (let! D := setup_variables ["g"] (Grp [("c", ([], Comp ["x"] ["y"; "z"])); ("d", ([fun s => String.eqb s "w"], Comp ["y"] ["w"]))] [])%string in Ok (subproblem_map D "d" ["w"])) = Ok []%string.
Proof. vm_compute. split; reflexivity. Qed.

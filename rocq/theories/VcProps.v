(** C120: the view of the connections shows every param once, below its source. *)
From Coq Require Import Permutation.
From Verif Require Import Base BaseFacts ExprModel LcnModel LcnProofs LpmModel ChsModel ChsSpec ChsProps VcModel VcSpec.
Local Open Scope list_scope.

Lemma insert_map : forall {A} (key : A -> txt) a l, map key (insert key a l) = insert (fun x => x) (key a) (map key l).
Proof. intros A key a l. induction l as [|b l IH]; [reflexivity|]. cbn. destruct (leb_text (key a) (key b)); [reflexivity|]. cbn. rewrite IH. reflexivity. Qed.
Lemma sorted_map : forall {A} (key : A -> txt) l, map key (sorted_by key l) = sorted_by (fun x => x) (map key l).
Proof. intros A key l. induction l as [|a l IH]; [reflexivity|]. cbn. rewrite insert_map, IH. reflexivity. Qed.
Lemma srt_in : forall l x, In x (sorted_by (fun x => x) l) <-> In x l.
Proof. intros l x. split; apply Permutation_in; [apply Permutation_sym|]; apply sorted_perm. Qed.

Section Props.
  Context {V I C : Type} (pick : V -> I -> V) (vadd vmul : V -> C -> V).
  Notation view := (view pick vadd vmul). Notation loop := (loop pick vadd vmul). Notation param_val := (param_val pick vadd vmul).
  Implicit Type y : sys V I C.

  Lemma dget_in : forall {A} (d : list (txt * A)) k v, dget d k = Some v -> In (k, v) d.
  Proof. intros A d k v. induction d as [|[k' v'] d IH]; intros H; [discriminate|]. cbn in H. destruct (teqb_spec k' k) as [-> |N]; [injection H as ->; left; reflexivity|right; apply IH; exact H]. Qed.
  Lemma in_dget : forall {A} (d : list (txt * A)) k v, NoDup (map fst d) -> In (k, v) d -> dget d k = Some v.
  Proof.
    intros A d k v. induction d as [|[k' v'] d IH]; intros N H; [destruct H|]. cbn [map fst] in N. inversion N as [|? ? N1 N2]. subst. cbn. destruct H as [E|H]; [injection E as -> ->; rewrite teqb_refl; reflexivity|]. destruct (teqb_spec k' k) as [-> |_]; [exfalso; apply N1; apply in_map_iff; exists (k, v); split; [reflexivity|exact H]|apply IH; assumption].
  Qed.
  Lemma dget_append : forall d src t k, dget (append_to d src t) k = if teqb src k then Some (match dget d k with Some l => l | None => [] end ++ [t]) else dget d k.
  Proof.
    induction d as [|[k' l] d IH]; intros src t k; [cbn; destruct (teqb src k); reflexivity|]. cbn [append_to]. destruct (teqb_spec k' src) as [-> |N].
    - cbn [dget]. destruct (teqb src k); reflexivity.
    - cbn [dget]. rewrite IH. destruct (teqb_spec k' k) as [-> |_]; [destruct (teqb_spec src k) as [-> |_]; [congruence|reflexivity]|reflexivity].
  Qed.
  Definition src_of y (t : txt) : option txt := option_map fst (dget (s_conns y) t).
  Lemma src_of_iff : forall y t s, src_of y t = Some s <-> has_source y t s.
  Proof.
    intros y t s. unfold src_of, has_source. destruct (dget (s_conns y) t) as [[s' i]|]; cbn; [|split; [discriminate|intros (i & E); discriminate]]. split; [intros E; injection E as ->; exists i; reflexivity|intros (j & E); injection E as -> _; reflexivity].
  Qed.
  Fixpoint group y (l : list (txt * pmeta V C)) (d : dict) : dict :=
    match l with [] => d | (t, _) :: r => group y r (match src_of y t with Some s => append_to d s t | None => d end) end.
  Lemma param_ok : forall y t m, (forall s, has_source y t s -> exists v, source_val y s = Ok v) -> exists v, param_val y t m = Ok (v, src_of y t) /\ shown_val pick vadd vmul y t m v.
  Proof.
    intros y t m H. unfold param_val, src_of, shown_val. destruct (dget (s_conns y) t) as [[s i]|] eqn:E.
    - destruct (H s) as (u & U); [exists i; exact E|]. rewrite U. cbn [bind]. eexists. split; [reflexivity|]. right. exists s, i, u. repeat split; try assumption.
    - eexists. split; [reflexivity|]. left. split; reflexivity.
  Qed.
  Lemma loop_ok : forall y l d vals, (forall t s, In t (map fst l) -> has_source y t s -> exists v, source_val y s = Ok v) ->
    exists pv, loop y l d vals = Ok (group y l d, vals ++ pv) /\ Forall2 (fun p e => fst e = fst p /\ shown_val pick vadd vmul y (fst p) (snd p) (snd e)) l pv.
  Proof.
    intros y l. induction l as [|[t m] l IH]; intros d vals H; [exists []; split; [cbn; rewrite app_nil_r; reflexivity|constructor]|].
    destruct (param_ok y t m) as (v & E & S); [intros s; apply H; left; reflexivity|]. cbn [VcModel.loop]. rewrite E. cbn [bind fst snd].
    destruct (IH (match src_of y t with Some s => append_to d s t | None => d end) (vals ++ [(t, v)])) as (pv & E' & F); [intros t' s Hi; apply H; right; exact Hi|].
    exists ((t, v) :: pv). split; [rewrite E'; rewrite <- app_assoc; reflexivity|]. constructor; [split; [reflexivity|exact S]|exact F].
  Qed.
  (** the groups *)
  Lemma targets_fun : forall y s l a b, targets y s l a -> targets y s l b -> a = b.
  Proof.
    intros y s l. induction l as [|t l IH]; intros a b A B; [cbn in *; congruence|]. cbn [targets] in A, B. destruct A as [(A1 & a' & -> & A2)|(A1 & A2)]; destruct B as [(B1 & b' & -> & B2)|(B1 & B2)]; try tauto; [f_equal|]; apply IH; assumption.
  Qed.
  Lemma targets_ex : forall y s l, exists ts, targets y s l ts.
  Proof.
    intros y s l. induction l as [|t l (ts & IH)]; [exists []; reflexivity|]. destruct (src_of y t) as [s'|] eqn:E.
    - destruct (teqb_spec s' s) as [-> |N]; [exists (t :: ts); left; split; [apply src_of_iff; exact E|exists ts; split; [reflexivity|exact IH]]|]. exists ts. right. split; [|exact IH]. intros H. apply src_of_iff in H. congruence.
    - exists ts. right. split; [|exact IH]. intros H. apply src_of_iff in H. congruence.
  Qed.
  Lemma group_get : forall y l d s ts, targets y s (map fst l) ts ->
    dget (group y l d) s = match dget d s, ts with Some o, _ => Some (o ++ ts) | None, [] => None | None, _ => Some ts end.
  Proof.
    intros y l. induction l as [|[t m] l IH]; intros d s ts H; [cbn in H; subst ts; cbn; destruct (dget d s); [rewrite app_nil_r|]; reflexivity|]. cbn [map fst targets] in H. cbn [group]. destruct H as [(A & ts' & -> & B)|(A & B)].
    - apply src_of_iff in A. rewrite A. rewrite (IH _ s ts' B). rewrite dget_append, teqb_refl. destruct (dget d s) as [o|]; [rewrite <- app_assoc|]; reflexivity.
    - rewrite (IH _ s ts B). destruct (src_of y t) as [s'|] eqn:E; [|reflexivity]. rewrite dget_append. destruct (teqb_spec s' s) as [-> |_]; [exfalso; apply A; apply src_of_iff; exact E|reflexivity].
  Qed.
  Lemma group_nodup : forall y l d, NoDup (map fst d) -> NoDup (map fst (group y l d)).
  Proof. intros y l. induction l as [|[t m] l IH]; intros d H; [exact H|]. cbn [group]. apply IH. destruct (src_of y t); [apply append_nodup; exact H|exact H]. Qed.
  Lemma group_iff : forall y l s ts, In (s, ts) (group y l []) <-> (ts <> [] /\ targets y s (map fst l) ts).
  Proof.
    intros y l s ts. split.
    - intros H. apply in_dget in H; [|apply group_nodup; constructor]. destruct (targets_ex y s (map fst l)) as (ts' & T). rewrite (group_get y l [] s ts' T) in H. cbn in H. destruct ts' as [|t r]; [discriminate|]. injection H as <-. split; [discriminate|exact T].
    - intros [N T]. apply dget_in. rewrite (group_get y l [] s ts T). cbn. destruct ts; [congruence|reflexivity].
  Qed.
  Lemma targets_in : forall y s l ts t, targets y s l ts -> (In t ts <-> In t l /\ has_source y t s).
  Proof.
    intros y s l. induction l as [|x l IH]; intros ts t H; [cbn in H; subst ts; cbn; tauto|]. cbn [targets] in H. destruct H as [(A & ts' & -> & B)|(A & B)].
    - cbn [In]. rewrite (IH ts' t B). split; [intros [<- |[J K]]; tauto|intros [[<- |J] K]; tauto].
    - rewrite (IH ts t B). cbn [In]. split; [tauto|intros [[<- |J] K]; tauto].
  Qed.
  Lemma group_keys : forall y l s, In s (map fst (group y l [])) <-> exists t, In t (map fst l) /\ has_source y t s.
  Proof.
    intros y l s. rewrite in_map_iff. split.
    - intros ([s' ts] & <- & H). apply group_iff in H. destruct H as [N T]. destruct ts as [|t ts]; [congruence|]. exists t. apply (targets_in y s' (map fst l) (t :: ts) t T). left. reflexivity.
    - intros (t & Ht & S). destruct (targets_ex y s (map fst l)) as (ts & T). exists (s, ts). split; [reflexivity|]. apply group_iff. split; [|exact T]. intros ->. apply (targets_in y s (map fst l) [] t T). split; assumption.
  Qed.
  Lemma src_vals_ok : forall y l, (forall s, In s l -> exists v, source_val y s = Ok v) -> exists sv, src_vals y l = Ok sv /\ Forall2 (fun s e => fst e = s /\ source_val y s = Ok (snd e)) l sv.
  Proof.
    intros y l. induction l as [|s l IH]; intros H; [exists []; split; [reflexivity|constructor]|]. destruct (H s (or_introl eq_refl)) as (v & E). destruct IH as (sv & E' & F); [intros x Hx; apply H; right; exact Hx|]. exists ((s, v) :: sv). cbn [src_vals]. rewrite E. cbn [bind]. rewrite E'. split; [reflexivity|constructor; [split; [reflexivity|exact E]|exact F]].
  Qed.
  (** the result, in terms of the groups *)
  Definition free y : list txt := rsorted (filter (fun t => negb (tmem t (s_unks y)) && negb (haskey (s_conns y) t)) (map fst (s_prom y))).
  Lemma view_ok : forall y, complete y -> exists pv sv, let d := group y (s_params y) [] in
    let nc := rsorted (filter (fun n => negb (haskey d n)) (s_unks y)) in
    view y = Ok (mkPage (rev (sorted_by fst (d ++ [(noconn, free y)]))) (pv ++ sv) (systems (map fst d)) (systems (map fst (s_conns y))) nc)
    /\ Forall2 (fun p e => fst e = fst p /\ shown_val pick vadd vmul y (fst p) (snd p) (snd e)) (s_params y) pv
    /\ Forall2 (fun s e => fst e = s /\ source_val y s = Ok (snd e)) nc sv
    /\ ~ In noconn (map fst d).
  Proof.
    intros y (C1 & C2 & C3 & _). destruct (loop_ok y (s_params y) [] [] C1) as (pv & E & F). cbn [app] in E.
    destruct (src_vals_ok y (rsorted (filter (fun n => negb (haskey (group y (s_params y) []) n)) (s_unks y)))) as (sv & E' & F'); [intros s Hs; unfold rsorted in Hs; rewrite <- in_rev, srt_in, filter_In in Hs; apply C2; apply Hs|].
    assert (N : ~ In noconn (map fst (group y (s_params y) []))) by (intros H; apply group_keys in H; destruct H as (t & Ht & S); exact (C3 t noconn Ht S eq_refl)).
    exists pv, sv. cbn zeta. split; [|split; [exact F|split; [exact F'|exact N]]]. unfold VcModel.view. rewrite E. cbn [bind fst snd]. rewrite E'. cbn [bind]. rewrite put_new by exact N. reflexivity.
  Qed.

  (** ** The theorems *)
  (** The rows are the sources of the params of the system, each with all its targets in order,
      and the params without source; the names of the rows decrease. *)
  Theorem C120_rows : forall y, complete y -> exists g, view y = Ok g
    /\ (forall s ts, s <> noconn -> (In (s, ts) (g_rows g) <-> (ts <> [] /\ targets y s (map fst (s_params y)) ts)))
    /\ (exists ts, In (noconn, ts) (g_rows g) /\ decreasing ts /\ forall t, In t ts <-> In t (map fst (s_prom y)) /\ ~ In t (s_unks y) /\ dget (s_conns y) t = None)
    /\ decreasing (map fst (g_rows g)).
  Proof.
    intros y Cy. destruct (view_ok y Cy) as (pv & sv & E & _ & _ & N). cbn zeta in E. eexists. split; [exact E|]. cbn [g_rows].
    assert (M : forall e, In e (rev (sorted_by fst (group y (s_params y) [] ++ [(noconn, free y)]))) <-> In e (group y (s_params y) []) \/ e = (noconn, free y)).
    { intros e. rewrite <- in_rev. assert (P : In e (sorted_by fst (group y (s_params y) [] ++ [(noconn, free y)])) <-> In e (group y (s_params y) [] ++ [(noconn, free y)])) by (split; apply Permutation_in; [apply Permutation_sym|]; apply sorted_perm). rewrite P, in_app_iff. cbn [In]. split; [intros [H|[H|[]]]; auto|intros [H|H]; auto]. }
    split; [|split].
    - intros s ts Ns. rewrite M. rewrite group_iff. split; [intros [H|H]; [exact H|injection H as -> _; congruence]|tauto].
    - exists (free y). split; [apply M; right; reflexivity|]. split.
      + unfold decreasing, free, rsorted. rewrite rev_involutive. apply sorted_increasing. apply NoDup_filter. apply Cy.
      + intros t. unfold free, rsorted. rewrite <- in_rev, srt_in, filter_In, andb_true_iff, !negb_true_iff.
        assert (A : tmem t (s_unks y) = false <-> ~ In t (s_unks y)) by (rewrite <- tmem_iff; destruct (tmem t (s_unks y)); split; congruence).
        assert (B : haskey (s_conns y) t = false <-> dget (s_conns y) t = None).
        { generalize (s_conns y). intros d. induction d as [|[k v] d IH]; [cbn; tauto|]. cbn. destruct (teqb k t); [split; discriminate|exact IH]. }
        rewrite A, B. tauto.
    - unfold decreasing. rewrite map_rev, rev_involutive, sorted_map. apply sorted_increasing. rewrite map_app. cbn [map fst]. pose proof (group_nodup y (s_params y) [] (NoDup_nil _)) as D. apply (Permutation_NoDup (l := noconn :: map fst (group y (s_params y) []))); [apply Permutation_cons_append|]. constructor; assumption.
  Qed.
  (** Every param of the system is shown in exactly one row. *)
  Theorem C120_once : forall y t, complete y -> In t (map fst (s_params y)) -> In t (map fst (s_prom y)) -> ~ In t (s_unks y) ->
    exists g s ts, view y = Ok g /\ In (s, ts) (g_rows g) /\ In t ts /\ forall s' ts', In (s', ts') (g_rows g) -> In t ts' -> s' = s.
  Proof.
    intros y t Cy Ht Hp Hu. destruct (C120_rows y Cy) as (g & E & R & (fr & F1 & F2 & F3) & D).
    assert (U : forall ts', In (noconn, ts') (g_rows g) -> ts' = fr).
    { intros ts' H. assert (ND : NoDup (map fst (g_rows g))).
      { destruct (view_ok y Cy) as (pv & sv & E' & _ & _ & N). cbn zeta in E'. rewrite E in E'. injection E' as ->. cbn [g_rows]. rewrite map_rev. apply NoDup_rev. rewrite sorted_map. apply (Permutation_NoDup (sorted_perm (fun x => x) _)). rewrite map_app. cbn [map fst]. apply (Permutation_NoDup (l := noconn :: map fst (group y (s_params y) []))); [apply Permutation_cons_append|]. constructor; [exact N|]. apply group_nodup. constructor. }
      apply (in_dget _ _ _ ND) in H. apply (in_dget _ _ _ ND) in F1. congruence. }
    destruct (dget (s_conns y) t) as [[s i]|] eqn:K.
    - assert (S : has_source y t s) by (exists i; exact K). destruct (targets_ex y s (map fst (s_params y))) as (ts & T). assert (In t ts) by (apply (targets_in y s _ ts t T); split; assumption).
      destruct Cy as (C1 & C2 & C3 & C4). exists g, s, ts. split; [exact E|]. split; [apply R; [exact (C3 t s Ht S)|]; split; [intros ->; contradiction|exact T]|]. split; [assumption|].
      intros s' ts' H' I'. destruct (text_dec s' noconn) as [-> |Nc]; [apply U in H'; subst ts'; apply F3 in I'; destruct I' as (_ & _ & I'); congruence|]. apply R in H'; [|exact Nc]. destruct H' as [_ T']. apply (targets_in y s' _ ts' t T') in I'. destruct I' as [_ (j & J)]. congruence.
    - exists g, noconn, fr. split; [exact E|]. split; [exact F1|]. split; [apply F3; repeat split; assumption|].
      intros s' ts' H' I'. destruct (text_dec s' noconn) as [-> |Nc]; [reflexivity|]. apply R in H'; [|exact Nc]. destruct H' as [_ T']. apply (targets_in y s' _ ts' t T') in I'. destruct I' as [_ (j & J)]. congruence.
  Qed.
  (** The values: those of the params, in their units, then those of the sources without
      target. *)
  Theorem C120_values : forall y, complete y -> exists g pv sv, view y = Ok g /\ g_vals g = pv ++ sv
    /\ Forall2 (fun p e => fst e = fst p /\ shown_val pick vadd vmul y (fst p) (snd p) (snd e)) (s_params y) pv
    /\ Forall2 (fun s e => fst e = s /\ source_val y s = Ok (snd e)) (g_noconn g) sv
    /\ decreasing (g_noconn g) /\ forall s, In s (g_noconn g) <-> In s (s_unks y) /\ forall t, In t (map fst (s_params y)) -> ~ has_source y t s.
  Proof.
    intros y Cy. destruct (view_ok y Cy) as (pv & sv & E & F & F' & N). cbn zeta in E. do 3 eexists. split; [exact E|]. cbn [g_vals g_noconn]. split; [reflexivity|]. split; [exact F|]. split; [exact F'|]. split.
    - unfold decreasing, rsorted. rewrite rev_involutive. apply sorted_increasing. apply NoDup_filter. apply Cy.
    - intros s. unfold rsorted. rewrite <- in_rev, srt_in, filter_In, negb_true_iff.
      assert (A : haskey (group y (s_params y) []) s = false <-> ~ In s (map fst (group y (s_params y) []))) by (rewrite <- haskey_iff; destruct (haskey (group y (s_params y) []) s); split; congruence).
      rewrite A, group_keys. split; [intros [H K]; split; [exact H|]; intros t Ht S; apply K; exists t; split; assumption|intros [H K]; split; [exact H|]; intros (t & Ht & S); exact (K t Ht S)].
  Qed.
  (** The systems to filter by: all above a name, in order, with the entry for no connection in
      second place. *)
  Lemma heads_in : forall s x, In x (heads s) <-> exists r, s = x ++ "."%char :: r.
  Proof.
    induction s as [|c s IH]; intros x; [cbn; split; [tauto|intros ([|? ?] & E); destruct x; discriminate]|]. cbn [heads]. rewrite in_app_iff, in_map_iff. split.
    - intros [H|(h & <- & H)]; [destruct (Ascii.eqb_spec c "."%char) as [-> |_]; [destruct H as [<- |[]]; exists s; reflexivity|destruct H]|]. apply IH in H. destruct H as (r & ->). exists r. reflexivity.
    - intros (r & E). destruct x as [|d x]; cbn [app] in E; injection E as -> E; [left; cbn; left; reflexivity|]. right. exists x. split; [reflexivity|]. apply IH. exists r. exact E.
  Qed.
  Theorem C120_systems : forall names, exists l, systems names = insert1 noconn l /\ increasing l /\ forall x, In x l <-> exists s, In s names /\ above x s.
  Proof.
    intros names. eexists. split; [reflexivity|]. split; [apply sorted_increasing; apply NoDup_nodup|]. intros x. rewrite srt_in, nodup_In, in_flat_map. split; intros (s & Hs & H); exists s; (split; [exact Hs|]).
    - destruct H as [<- |H]; [left; reflexivity|right; apply heads_in; exact H].
    - destruct H as [-> |H]; [left; reflexivity|right; apply heads_in; exact H].
  Qed.
  (** A system with a param whose source is outside of it cannot be viewed. *)
  Theorem C120_subsystem_refuted : forall y t s, In t (map fst (s_params y)) -> has_source y t s -> dget (s_prom y) s = None -> view y = Err KeyError.
  Proof.
    intros y t s Ht (i & S) P. unfold VcModel.view.
    assert (L : forall l d vals, In t (map fst l) -> loop y l d vals = Err KeyError).
    { intros l. induction l as [|[t' m] l IH]; intros d vals H; [destruct H|]. cbn [VcModel.loop]. destruct H as [H|H].
      - cbn [fst] in H. subst t'. unfold VcModel.param_val. rewrite S. unfold source_val. rewrite P. reflexivity.
      - unfold VcModel.param_val. destruct (dget (s_conns y) t') as [[s' j]|]; [|cbn [bind]; apply IH; exact H]. unfold source_val. destruct (dget (s_prom y) s') as [p|]; [|reflexivity]. destruct (dget (s_vec y) p) as [v|]; [|reflexivity]. cbn [bind]. apply IH. exact H. }
    rewrite (L _ _ _ Ht). reflexivity.
  Qed.
  (** The row of the params without source is the last only if no source comes before it in
      alphabetical order; a source with a capital A to M does. *)
  Theorem C120_bottom_refuted : forall y t s, complete y -> In t (map fst (s_params y)) -> has_source y t s -> leb_text s noconn = true ->
    exists g before after, view y = Ok g /\ map fst (g_rows g) = before ++ after /\ In noconn before /\ In s after.
  Proof.
    intros y t s Cy Ht S L. destruct (view_ok y Cy) as (pv & sv & E & _ & _ & N). cbn zeta in E. eexists. 
    assert (Ns : s <> noconn) by (destruct Cy as (_ & _ & C3 & _); exact (C3 t s Ht S)).
    assert (G : In s (map fst (group y (s_params y) []))) by (apply group_keys; exists t; split; assumption).
    set (keys := map fst (group y (s_params y) [] ++ [(noconn, free y)])) in *.
    assert (K1 : In s (sorted_by (fun x => x) keys)) by (apply srt_in; unfold keys; rewrite map_app; apply in_or_app; left; exact G).
    assert (K2 : In noconn (sorted_by (fun x => x) keys)) by (apply srt_in; unfold keys; rewrite map_app; apply in_or_app; right; left; reflexivity).
    assert (Inc : increasing (sorted_by (fun x => x) keys)).
    { apply sorted_increasing. unfold keys. rewrite map_app. cbn [map fst]. apply (Permutation_NoDup (l := noconn :: map fst (group y (s_params y) []))); [apply Permutation_cons_append|]. constructor; [exact N|]. apply group_nodup. constructor. }
    assert (Sp : exists a b, sorted_by (fun x => x) keys = a ++ b /\ In s a /\ In noconn b).
    { revert K1 K2 Inc. generalize (sorted_by (fun x => x) keys). intros l. induction l as [|x l IH]; intros K1 K2 Inc; [destruct K1|]. destruct K1 as [-> |K1].
      - exists [s], l. split; [reflexivity|]. split; [left; reflexivity|]. destruct K2 as [K2|K2]; [congruence|exact K2].
      - destruct K2 as [-> |K2].
        + exfalso. assert (Q : forall l x, increasing (x :: l) -> forall z, In z l -> leb_text x z = true /\ x <> z).
          { clear. assert (Tr : forall a b c, leb_text a b = true -> leb_text b c = true -> leb_text a c = true).
            { induction a as [|p a IHa]; intros [|q b] [|r c] H1 H2; try reflexivity; try discriminate. cbn in *. destruct (Ascii.eqb_spec p q) as [-> |N1]; destruct (Ascii.eqb_spec q r) as [-> |N2].
              - exact (IHa _ _ H1 H2).
              - exact H2.
              - destruct (Ascii.eqb_spec p r) as [-> |_]; [congruence|exact H1].
              - apply Nat.ltb_lt in H1. apply Nat.ltb_lt in H2. destruct (Ascii.eqb_spec p r) as [-> |_]; [lia|apply Nat.ltb_lt; lia]. }
            assert (As : forall a b, leb_text a b = true -> leb_text b a = true -> a = b).
            { induction a as [|p a IHa]; intros [|q b] H1 H2; try reflexivity; try discriminate. cbn in *. destruct (Ascii.eqb_spec p q) as [-> |N1]; [rewrite Ascii.eqb_refl in H2; f_equal; exact (IHa _ H1 H2)|]. destruct (Ascii.eqb_spec q p) as [-> |_]; [congruence|]. apply Nat.ltb_lt in H1. apply Nat.ltb_lt in H2. lia. }
            induction l as [|w l IHl]; intros x H z Hz; [destruct Hz|]. cbn [increasing] in H. destruct H as (H1 & H2 & H3). destruct Hz as [<- |Hz]; [split; assumption|]. destruct (IHl w H3 z Hz) as [Z1 Z2]. split; [exact (Tr _ _ _ H1 Z1)|]. intros ->. apply H2. apply As; assumption. }
          destruct (Q l noconn Inc s K1) as [Q1 Q2]. assert (As : forall a b, leb_text a b = true -> leb_text b a = true -> a = b).
          { clear. induction a as [|p a IHa]; intros [|q b] H1 H2; try reflexivity; try discriminate. cbn in *. destruct (Ascii.eqb_spec p q) as [-> |N1]; [rewrite Ascii.eqb_refl in H2; f_equal; exact (IHa _ H1 H2)|]. destruct (Ascii.eqb_spec q p) as [-> |_]; [congruence|]. apply Nat.ltb_lt in H1. apply Nat.ltb_lt in H2. lia. }
          apply Q2. apply As; assumption.
        + assert (Inc' : increasing l) by (destruct l as [|w l]; [exact Logic.I|cbn [increasing] in Inc; apply Inc]). destruct (IH K1 K2 Inc') as (a & b & -> & A & B). exists (x :: a), b. split; [reflexivity|]. split; [right; exact A|exact B]. }
    destruct Sp as (a & b & Sp & A & B). exists (rev b), (rev a). split; [exact E|]. cbn [g_rows]. rewrite map_rev, sorted_map. fold keys. rewrite Sp, rev_app_distr. split; [reflexivity|]. split; [apply in_rev in B; exact B|apply in_rev in A; exact A].
  Qed.
End Props.
Print Assumptions C120_rows.
Print Assumptions C120_once.
Print Assumptions C120_values.
Print Assumptions C120_systems.
Print Assumptions C120_subsystem_refuted.
Print Assumptions C120_bottom_refuted.

(** two params of one source (one in other units), one without, and a source without target *)
Definition vc_ex (src : string) : sys Z unit Z :=
  mkSys [(t_ "g.a.x", mkPM 0%Z (Some (10, 1)%Z)); (t_ "b.z", mkPM 7%Z None); (t_ "b.x", mkPM 0%Z None)] [t_ src; t_ "b.w"]
    [(t_ src, t_ "y"); (t_ "b.w", t_ "b.w"); (t_ "g.a.x", t_ "g.x"); (t_ "b.z", t_ "b.z"); (t_ "b.x", t_ "b.x")]
    [(t_ "y", 4%Z); (t_ "b.w", 5%Z)] [(t_ "g.a.x", (t_ src, None)); (t_ "b.x", (t_ src, None))].
Example C120_ex : view (fun v _ => v) Z.add Z.mul (vc_ex "p.y") =
  Ok (mkPage [(t_ "p.y", [t_ "g.a.x"; t_ "b.x"]); (noconn, [t_ "b.z"])] [(t_ "g.a.x", 50%Z); (t_ "b.z", 7%Z); (t_ "b.x", 4%Z); (t_ "b.w", 5%Z)]
        [[]; noconn; t_ "p"] [[]; noconn; t_ "b"; t_ "g"; t_ "g.a"] [t_ "b.w"]).
Proof. vm_compute. reflexivity. Qed.
Example C120_ex_bottom : match view (fun v _ => v) Z.add Z.mul (vc_ex "Comp.y") with Ok g => map fst (g_rows g) = [noconn; t_ "Comp.y"] | Err _ => False end.
Proof. vm_compute. reflexivity. Qed.
(** a part of the system, whose source is outside *)
Example C120_ex_sub : view (fun v _ => v) Z.add Z.mul (mkSys [(t_ "b.x", mkPM 0%Z None)] [t_ "b.w"] [(t_ "b.x", t_ "x"); (t_ "b.w", t_ "w")] [(t_ "w", 5%Z)] [(t_ "b.x", (t_ "p.y", @None unit))]) = Err KeyError.
Proof. vm_compute. reflexivity. Qed.
Example C120_ex_complete : complete (vc_ex "p.y").
Proof.
  assert (H : forall t s, has_source (vc_ex "p.y") t s -> s = t_ "p.y").
  { intros t s (i & E). apply dget_in in E. cbn [vc_ex s_conns In] in E. destruct E as [E|[E|[]]]; injection E as _ <- _; reflexivity. }
  split; [intros t s _ S; rewrite (H t s S); exists 4%Z; vm_compute; reflexivity|]. split; [intros s [<- |[<- |[]]]; [exists 4%Z|exists 5%Z]; vm_compute; reflexivity|]. split; [intros t s _ S E; rewrite (H t s S) in E; vm_compute in E; discriminate|].
  split; [|split]; repeat constructor; cbn [In map fst vc_ex s_params s_unks s_prom]; intros K; repeat (destruct K as [K|K]; [vm_compute in K; discriminate|]); exact K.
Qed.

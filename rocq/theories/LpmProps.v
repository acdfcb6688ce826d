(** C114 list_params and list_unit_conv. *)
From Coq Require Import Permutation Sorting.Sorted.
From Verif Require Import Base ExprModel LcnModel LcnSpec LcnProofs LpmModel LpmSpec.
Local Open Scope list_scope.

Lemma tget_in : forall {A} (d : list (txt * A)) k v, NoDup (map fst d) -> (tget d k = Some v <-> In (k, v) d).
Proof.
  intros A d k v. induction d as [|[k' v'] d IH]; intros N; [split; [discriminate|intros []]|]. inversion N as [|? ? N1 N2]; subst. cbn [tget]. destruct (teqb_spec k' k) as [->|Hk].
  - split; [intros E; injection E as ->; left; reflexivity|]. intros [E|H]; [injection E as ->; reflexivity|]. exfalso. apply N1. apply (in_map fst) in H. exact H.
  - rewrite (IH N2). split; [right; assumption|]. intros [E|H]; [injection E as -> _; contradiction|exact H].
Qed.
Lemma scope_below' : forall path n, startswith n (scope_of path) = true <-> below path n.
Proof.
  intros path n. rewrite startswith_iff. unfold below, scope_of. destruct path as [|c p]; [split; [left; reflexivity|intros _; exists n; reflexivity]|]. split.
  - intros (r & ->). right. exists r. rewrite <- app_assoc. reflexivity.
  - intros [F|(r & ->)]; [discriminate|]. exists r. rewrite <- app_assoc. reflexivity.
Qed.

(** The lists: the params that are no target, and those with a source outside the system,
    in the order of the params. *)
Theorem C114_lists : forall prom path pdict conns, NoDup (map fst conns) ->
  exists unc out, fst (list_params prom path pdict conns) = (filter unc pdict, filter out pdict) /\
    (forall p, unc p = true <-> forall s, ~ is_source conns p s) /\
    (forall p, out p = true <-> exists s, is_source conns p s /\ ~ below path s).
Proof.
  intros prom path pdict conns N. unfold list_params. cbn [fst]. set (src := fun p => match tget conns p with Some s => s | None => [] end).
  exists (fun p => negb (haskey conns p)), (fun p => haskey conns p && negb (startswith (src p) (scope_of path))). split; [f_equal|split].
  - induction pdict as [|p l IH]; [reflexivity|]. cbn [filter]. destruct (haskey conns p) eqn:E; cbn [andb filter]; rewrite IH; reflexivity.
  - intros p. rewrite negb_true_iff. split.
    + intros F s H. apply (in_map fst) in H. apply haskey_iff in H. cbn in H. congruence.
    + intros F. apply not_true_is_false. intros H. apply haskey_iff in H. apply in_map_iff in H. destruct H as ([q s] & E & H). cbn in E. subst q. exact (F s H).
  - intros p. rewrite andb_true_iff, negb_true_iff. split.
    + intros [H F]. apply haskey_iff in H. apply in_map_iff in H. destruct H as ([q s] & E & H). cbn in E. subst q. exists s. split; [exact H|]. intros B. apply scope_below' in B. unfold src in F. apply (tget_in conns p s N) in H. rewrite H in F. congruence.
    + intros (s & H & B). split; [apply haskey_iff; apply (in_map fst) in H; exact H|]. apply not_true_is_false. intros F. apply B. apply scope_below'. unfold src in F. apply (tget_in conns p s N) in H. rewrite H in F. exact F.
Qed.
Print Assumptions C114_lists.

(** The root has no param whose source is outside. *)
Theorem C114_root : forall prom pdict conns, snd (fst (list_params prom [] pdict conns)) = [].
Proof.
  intros. unfold list_params. cbn [fst snd]. induction (filter (haskey conns) pdict) as [|p l IH]; [reflexivity|]. cbn [filter]. assert (E : forall x, startswith x (scope_of []) = true) by (intros x; apply scope_below'; left; reflexivity).
  rewrite E. cbn [negb]. exact IH.
Qed.
Print Assumptions C114_root.

(** The line of a param without source has its name below the system; a promoted name
    follows with one parenthesis too many. *)
Lemma named_cut : forall path n r, named path n r -> startswith n (scope_of path) = true /\ skipn (length (scope_of path)) n = r.
Proof.
  intros path n r [[-> ->]|[Hp ->]]; [split; [destruct r; reflexivity|reflexivity]|]. destruct path as [|c p]; [contradiction|]. unfold scope_of. split; [apply startswith_iff; exists r; rewrite <- app_assoc; reflexivity|].
  replace ((c :: p) ++ "."%char :: r) with (((c :: p) ++ t_ ".") ++ r) by (rewrite <- app_assoc; reflexivity). apply skipn_app_len.
Qed.
Theorem C114_unconnected_line : forall prom path p r, named path p r ->
  unconn_line prom (scope_of path) p = if text_dec (prom p) r then r else r ++ t_ " (" ++ prom p ++ t_ ")" ++ t_ ")".
Proof.
  intros prom path p r H. destruct (named_cut path p r H) as [S E]. unfold unconn_line. rewrite S, E. unfold teqb. destruct (text_dec (prom p) r); reflexivity.
Qed.
Print Assumptions C114_unconnected_line.

(** The line of a param with a source outside: lstrip takes characters, not the path. *)
Lemma lstrip_all : forall a b chars, (forall c, In c a -> In c chars) -> lstrip (a ++ b) chars = lstrip b chars.
Proof.
  intros a b chars. induction a as [|c a IH]; intros H; [reflexivity|]. cbn. assert (E : existsb (Ascii.eqb c) chars = true) by (apply existsb_exists; exists c; split; [apply H; left; reflexivity|apply Ascii.eqb_refl]). rewrite E. apply IH. intros d Hd. apply H. right. exact Hd.
Qed.
Lemma lstrip_length : forall s chars, (length (lstrip s chars) <= length s)%nat.
Proof. intros s chars. induction s as [|c s IH]; [cbn; lia|]. cbn. destruct (existsb (Ascii.eqb c) chars); cbn; lia. Qed.
Theorem C114_outside_name : forall path r, path <> [] ->
  (lstrip (path ++ "."%char :: r) (scope_of path) = r <-> match r with [] => True | c :: _ => c <> "."%char /\ ~ In c path end).
Proof.
  intros path r Hp. assert (Es : scope_of path = path ++ ["."%char]) by (destruct path; [contradiction|reflexivity]). rewrite Es. replace (path ++ "."%char :: r) with ((path ++ ["."%char]) ++ r) by (rewrite <- app_assoc; reflexivity).
  rewrite lstrip_all by (intros c H; exact H). destruct r as [|c r]; [split; [intros _; exact I|reflexivity]|]. cbn [lstrip]. destruct (existsb (Ascii.eqb c) (path ++ ["."%char])) eqn:E.
  - apply existsb_exists in E. destruct E as (d & Hd & E). apply Ascii.eqb_eq in E. subst d. split.
    + intros F. exfalso. pose proof (lstrip_length r (path ++ ["."%char])). rewrite F in H. cbn in H. lia.
    + intros [F1 F2]. exfalso. apply in_app_or in Hd. destruct Hd as [Hd|[Hd|[]]]; [contradiction|congruence].
  - split; [|reflexivity]. intros _. assert (F : ~ In c (path ++ ["."%char])) by (intros H; assert (existsb (Ascii.eqb c) (path ++ ["."%char]) = true) by (apply existsb_exists; exists c; split; [exact H|apply Ascii.eqb_refl]); congruence).
    split; [intros ->; apply F; apply in_or_app; right; left; reflexivity|intros H; apply F; apply in_or_app; left; exact H].
Qed.
Print Assumptions C114_outside_name.
(** So two params of one system are printed under the same name. *)
Theorem C114_outside_refuted : forall path r c, In c path -> lstrip (path ++ "."%char :: c :: r) (scope_of path) = lstrip (path ++ "."%char :: r) (scope_of path).
Proof.
  intros path r c Hc. assert (Es : scope_of path = path ++ ["."%char]) by (destruct path; [contradiction|reflexivity]). rewrite Es.
  replace (path ++ "."%char :: c :: r) with ((path ++ ["."%char; c]) ++ r) by (rewrite <- app_assoc; reflexivity). replace (path ++ "."%char :: r) with ((path ++ ["."%char]) ++ r) by (rewrite <- app_assoc; reflexivity).
  rewrite !lstrip_all; [reflexivity|intros d H; exact H|]. intros d H. apply in_app_or in H. apply in_or_app. destruct H as [H|[<-|[<-|[]]]]; [left; exact H|right; left; reflexivity|left; exact Hc].
Qed.
Print Assumptions C114_outside_refuted.

(** ** Unit conversions *)
Lemma truthy_iff : forall u, truthy u = false <-> no_units u.
Proof. intros [[|c t]|]; unfold no_units; cbn; intuition (try discriminate; try congruence). Qed.
Lemma one_sided_iff : forall a b, negb (Bool.eqb (truthy b) (truthy a)) = true <-> one_sided a b.
Proof.
  intros a b. pose proof (truthy_iff a) as Ha. pose proof (truthy_iff b) as Hb. unfold one_sided. destruct (truthy a); destruct (truthy b); cbn; intuition congruence.
Qed.
Lemma named_relative : forall path n r, named path n r -> relative_to path n = r.
Proof.
  intros path n r [[-> ->]|[Hp ->]]; [reflexivity|]. destruct path as [|c p]; [contradiction|]. unfold relative_to. replace ((c :: p) ++ "."%char :: r) with (((c :: p) ++ ["."%char]) ++ r) by (rewrite <- app_assoc; reflexivity).
  replace (length (c :: p) + 1)%nat with (length ((c :: p) ++ ["."%char])) by (rewrite app_length; reflexivity). apply skipn_app_len.
Qed.
Lemma below_named : forall path n, below path n -> named path n (relative_to path n).
Proof.
  intros path n B. destruct path as [|c p]; [left; split; reflexivity|]. destruct B as [F|(r & ->)]; [discriminate|]. assert (H : named (c :: p) ((c :: p) ++ "."%char :: r) r) by (right; split; [discriminate|reflexivity]). rewrite (named_relative _ _ _ H). exact H.
Qed.
Lemma named_inj : forall path n m r, named path n r -> named path m r -> n = m.
Proof. intros path n m r [[-> ->]|[H ->]] [[E ->]|[H' ->]]; congruence. Qed.
Lemma kput_in : forall d k v e, NoDup (map fst d) -> (In e (kput d k v) <-> e = (k, v) \/ (In e d /\ fst e <> k)).
Proof.
  induction d as [|[k' v'] d IH]; intros k v e N; [cbn; intuition congruence|]. inversion N as [|? ? N1 N2]; subst. cbn [kput].
  assert (T : teqb (fst k') (fst k) && teqb (snd k') (snd k) = true <-> k' = k).
  { destruct k' as [a b]. destruct k as [a' b']. cbn. rewrite andb_true_iff. destruct (teqb_spec a a'); destruct (teqb_spec b b'); intuition congruence. }
  destruct (teqb (fst k') (fst k) && teqb (snd k') (snd k)) eqn:E.
  - assert (k' = k) by (apply T; reflexivity). subst k'. cbn [In]. split.
    + intros [<-|H]; [left; reflexivity|]. right. split; [right; exact H|]. intros F. apply N1. rewrite <- F. apply in_map. exact H.
    + intros [->|[[<-|H] F]]; [left; reflexivity|contradiction F; reflexivity|right; exact H].
  - assert (Hk : k' <> k) by (intros F; apply T in F; discriminate). cbn [In]. rewrite (IH k v e N2). split.
    + intros [<-|[->|[H F]]]; [right; split; [left; reflexivity|exact Hk]|left; reflexivity|right; split; [right; exact H|exact F]].
    + intros [->|[[<-|H] F]]; [right; left; reflexivity|left; reflexivity|right; right; split; assumption].
Qed.
Lemma kput_nodup : forall d k v, NoDup (map fst d) -> NoDup (map fst (kput d k v)).
Proof.
  induction d as [|[k' v'] d IH]; intros k v N; [repeat constructor; intros []|]. inversion N as [|? ? N1 N2]; subst. cbn [kput]. destruct (teqb (fst k') (fst k) && teqb (snd k') (snd k)) eqn:E; cbn [map fst]; [exact N|]. constructor; [|apply IH; exact N2].
  intros H. apply in_map_iff in H. destruct H as (e & Ee & He). apply (kput_in d k v e N2) in He. destruct He as [->|[He _]].
  - cbn in Ee. subst k'. destruct (teqb_spec (fst k) (fst k)); destruct (teqb_spec (snd k) (snd k)); cbn in E; congruence.
  - apply N1. rewrite <- Ee. apply in_map. exact He.
Qed.
Lemma kinsert_perm : forall a l, Permutation (a :: l) (kinsert a l).
Proof. induction l as [|b l IH]; [apply Permutation_refl|]. cbn. destruct (key_leb (fst a) (fst b)); [apply Permutation_refl|]. eapply perm_trans; [apply perm_swap|]. apply perm_skip. exact IH. Qed.
Lemma ksort_perm : forall l, Permutation l (ksort l).
Proof. induction l as [|a l IH]; [apply perm_nil|]. cbn. eapply perm_trans; [apply perm_skip; exact IH|]. apply kinsert_perm. Qed.
Lemma key_leb_before : forall a b, key_leb a b = true -> before a b.
Proof. intros a b. unfold key_leb, before. destruct (teqb_spec (fst a) (fst b)); intros H; [right; split; assumption|left; split; assumption]. Qed.
Lemma key_leb_total : forall a b, key_leb a b = false -> before b a.
Proof. intros a b. unfold key_leb, before. destruct (teqb_spec (fst a) (fst b)); intros H; apply leb_total in H; [right; split; [congruence|exact H]|left; split; [congruence|exact H]]. Qed.
Lemma kinsert_sorted : forall a l, LocallySorted (fun x y : key * (option txt * option txt) => before (fst x) (fst y)) l -> LocallySorted (fun x y => before (fst x) (fst y)) (kinsert a l).
Proof.
  intros a l H. induction H as [|b|b c l H IH Hb]; [constructor| |]; cbn [kinsert].
  - destruct (key_leb (fst a) (fst b)) eqn:E.
    + apply LSorted_consn; [apply LSorted_cons1|apply key_leb_before; exact E].
    + apply LSorted_consn; [apply LSorted_cons1|apply key_leb_total; exact E].
  - destruct (key_leb (fst a) (fst b)) eqn:E; [apply LSorted_consn; [apply LSorted_consn; assumption|apply key_leb_before; exact E]|]. cbn [kinsert] in IH. destruct (key_leb (fst a) (fst c)) eqn:E2.
    + apply LSorted_consn; [exact IH|apply key_leb_total; exact E].
    + apply LSorted_consn; [exact IH|exact Hb].
Qed.
Lemma ksort_sorted : forall l, LocallySorted (fun x y : key * (option txt * option txt) => before (fst x) (fst y)) (ksort l).
Proof. induction l as [|a l IH]; [constructor|]. cbn. apply kinsert_sorted. exact IH. Qed.

Section Conv.
  Variable path : txt.
  Variables pdict udict : list (txt * umeta).
  Hypothesis Np : NoDup (map fst pdict).
  Hypothesis Nu : NoDup (map fst udict).
  Hypothesis Bp : forall t, In t (map fst pdict) -> below path t.
  Hypothesis Bu : forall s, In s (map fst udict) -> below path s.
  Lemma diff_loop_ok : forall conns d pbos, NoDup (map fst d) -> NoDup (map fst conns) -> (forall e t, In e d -> named path t (snd (fst e)) -> ~ In t (map fst conns)) ->
    NoDup (map fst (fst (diff_loop path pdict udict conns d pbos))) /\
    (forall e, In e (fst (diff_loop path pdict udict conns d pbos)) <-> In e d \/ converts path pdict udict conns e) /\
    (forall r, In r (snd (diff_loop path pdict udict conns d pbos)) <-> In r pbos \/ exists t s tm sm, In (t, s) conns /\ In (t, tm) pdict /\ In (s, sm) udict /\ named path s r /\ u_pbo sm = true).
  Proof.
    induction conns as [|[t s] conns IH]; intros d pbos Nd Nc Sep.
    - cbn. split; [exact Nd|]. split; [intros e|intros r]; (split; [left; assumption|]); intros [H|H]; try exact H; destruct H as (t & s & tm & sm & [] & _).
    - cbn [map fst] in Nc. inversion Nc as [|? ? Nc1 Nc2]; subst. cbn [diff_loop]. destruct (tget pdict t) as [tm|] eqn:Et; [destruct (tget udict s) as [sm|] eqn:Es|].
      + apply (tget_in pdict t tm Np) in Et. apply (tget_in udict s sm Nu) in Es. assert (Ht : named path t (relative_to path t)) by (apply below_named; apply Bp; apply (in_map fst) in Et; exact Et). assert (Hs : named path s (relative_to path s)) by (apply below_named; apply Bu; apply (in_map fst) in Es; exact Es).
        set (k := (relative_to path s, relative_to path t)). set (b := u_conv tm || negb (Bool.eqb (truthy (u_units tm)) (truthy (u_units sm)))).
        assert (Hb : b = true <-> u_conv tm = true \/ one_sided (u_units sm) (u_units tm)) by (unfold b; rewrite orb_true_iff, one_sided_iff; reflexivity).
        assert (New : forall e, In e d -> fst e <> k).
        { intros e He F. apply (Sep e t He); [rewrite F; exact Ht|left; reflexivity]. }
        assert (Ind : forall e, In e (if b then kput d k (u_units sm, u_units tm) else d) <-> In e d \/ (b = true /\ e = (k, (u_units sm, u_units tm)))).
        { intros e. destruct b; [rewrite (kput_in d k _ e Nd); split; [intros [->|[H _]]; [right; split; reflexivity|left; exact H]|intros [H|[_ ->]]; [right; split; [exact H|apply New; exact H]|left; reflexivity]]|split; [left; assumption|intros [H|[F _]]; [exact H|discriminate]]]. }
        destruct (IH (if b then kput d k (u_units sm, u_units tm) else d) (if u_pbo sm then pbos ++ [relative_to path s] else pbos)) as (I1 & I2 & I3).
        * destruct b; [apply kput_nodup; exact Nd|exact Nd].
        * exact Nc2.
        * intros e t' He Hn Hin. apply Ind in He. destruct He as [He|[_ ->]]; [apply (Sep e t' He Hn); right; exact Hin|]. cbn [fst snd k] in Hn. rewrite (named_inj path t' t _ Hn Ht) in Hin. contradiction.
        * split; [exact I1|]. split.
          -- intros e. rewrite I2, Ind. unfold converts. split.
             ++ intros [[H|[Hb' ->]]|(t' & s' & tm' & sm' & H & R)]; [left; exact H| |right; exists t', s', tm', sm'; split; [right; exact H|exact R]].
                right. exists t, s, tm, sm. split; [left; reflexivity|]. split; [exact Et|]. split; [exact Es|]. split; [exact Hs|]. split; [exact Ht|]. split; [reflexivity|]. apply Hb. exact Hb'.
             ++ intros [H|(t' & s' & tm' & sm' & [H|H] & R)]; [left; left; exact H| |right; exists t', s', tm', sm'; split; [exact H|exact R]].
                injection H as <- <-. destruct R as (R1 & R2 & R3 & R4 & R5 & R6). apply (tget_in pdict t tm' Np) in R1. apply (tget_in pdict t tm Np) in Et. rewrite Et in R1. injection R1 as <-. apply (tget_in udict s sm' Nu) in R2. apply (tget_in udict s sm Nu) in Es. rewrite Es in R2. injection R2 as <-.
                left. right. split; [apply Hb; exact R6|]. destruct e as [[es et] ev]. cbn [fst snd] in *. rewrite R5. unfold k. rewrite (named_relative _ _ _ R3), (named_relative _ _ _ R4). reflexivity.
          -- intros r. rewrite I3. split.
             ++ intros [H|(t' & s' & tm' & sm' & H & R)]; [|right; exists t', s', tm', sm'; split; [right; exact H|exact R]]. destruct (u_pbo sm) eqn:Eb; [|left; exact H]. apply in_app_or in H. destruct H as [H|[<-|[]]]; [left; exact H|]. right. exists t, s, tm, sm. split; [left; reflexivity|]. repeat split; assumption.
             ++ intros [H|(t' & s' & tm' & sm' & [H|H] & R)]; [left; destruct (u_pbo sm); [apply in_or_app; left|]; exact H| |right; exists t', s', tm', sm'; split; [exact H|exact R]].
                injection H as <- <-. destruct R as (R1 & R2 & R3 & R4). apply (tget_in udict s sm' Nu) in R2. apply (tget_in udict s sm Nu) in Es. rewrite Es in R2. injection R2 as <-. left. rewrite R4. apply in_or_app. right. left. symmetry. symmetry. apply (named_relative _ _ _ R3).
      + destruct (IH d pbos Nd Nc2) as (I1 & I2 & I3); [intros e t' He Hn Hin; apply (Sep e t' He Hn); right; exact Hin|]. split; [exact I1|]. split.
        * intros e. rewrite I2. unfold converts. split; [intros [H|(t' & s' & tm' & sm' & H & R)]; [left; exact H|right; exists t', s', tm', sm'; split; [right; exact H|exact R]]|]. intros [H|(t' & s' & tm' & sm' & [H|H] & R)]; [left; exact H| |right; exists t', s', tm', sm'; split; [exact H|exact R]].
          injection H as <- <-. destruct R as (_ & R2 & _). apply (tget_in udict s sm' Nu) in R2. congruence.
        * intros r. rewrite I3. split; [intros [H|(t' & s' & tm' & sm' & H & R)]; [left; exact H|right; exists t', s', tm', sm'; split; [right; exact H|exact R]]|]. intros [H|(t' & s' & tm' & sm' & [H|H] & R)]; [left; exact H| |right; exists t', s', tm', sm'; split; [exact H|exact R]].
          injection H as <- <-. destruct R as (_ & R2 & _). apply (tget_in udict s sm' Nu) in R2. congruence.
      + destruct (IH d pbos Nd Nc2) as (I1 & I2 & I3); [intros e t' He Hn Hin; apply (Sep e t' He Hn); right; exact Hin|]. split; [exact I1|]. split.
        * intros e. rewrite I2. unfold converts. split; [intros [H|(t' & s' & tm' & sm' & H & R)]; [left; exact H|right; exists t', s', tm', sm'; split; [right; exact H|exact R]]|]. intros [H|(t' & s' & tm' & sm' & [H|H] & R)]; [left; exact H| |right; exists t', s', tm', sm'; split; [exact H|exact R]].
          injection H as <- <-. destruct R as (R1 & _). apply (tget_in pdict t tm' Np) in R1. congruence.
        * intros r. rewrite I3. split; [intros [H|(t' & s' & tm' & sm' & H & R)]; [left; exact H|right; exists t', s', tm', sm'; split; [right; exact H|exact R]]|]. intros [H|(t' & s' & tm' & sm' & [H|H] & R)]; [left; exact H| |right; exists t', s', tm', sm'; split; [exact H|exact R]].
          injection H as <- <-. destruct R as (R1 & _). apply (tget_in pdict t tm' Np) in R1. congruence.
  Qed.
End Conv.

Lemma luc_fst : forall path pdict udict conns, fst (list_unit_conv path pdict udict conns) = ksort (fst (diff_loop path pdict udict conns [] [])).
Proof. intros. unfold list_unit_conv. destruct (diff_loop path pdict udict conns [] []) as [[|e d] pbos]; reflexivity. Qed.
Lemma luc_snd : forall path pdict udict conns, snd (list_unit_conv path pdict udict conns) =
  match fst (diff_loop path pdict udict conns [] []) with [] => [] | d => [] :: t_ "Unit Conversions" :: map (diff_line (snd (diff_loop path pdict udict conns [] []))) (ksort d) end.
Proof. intros. unfold list_unit_conv. destruct (diff_loop path pdict udict conns [] []) as [[|e d] pbos]; reflexivity. Qed.
(** All lines of list_params: for each list a heading that says whether it is empty, then one
    line for each entry. *)
Lemma lstrip_split : forall s chars, exists pre suf, s = pre ++ suf /\ (forall c, In c pre -> In c chars) /\ (forall c r, suf = c :: r -> ~ In c chars) /\ lstrip s chars = suf.
Proof.
  intros s chars. induction s as [|c s IH]; [exists [], []; repeat split; [intros c []|discriminate]|]. cbn [lstrip]. destruct (existsb (Ascii.eqb c) chars) eqn:E.
  - destruct IH as (pre & suf & -> & H1 & H2 & H3). exists (c :: pre), suf. split; [reflexivity|]. split; [|split; assumption]. intros d [<-|H]; [|apply H1; exact H]. apply existsb_exists in E. destruct E as (d & Hd & E). apply Ascii.eqb_eq in E. subst d. exact Hd.
  - exists [], (c :: s). split; [reflexivity|]. split; [intros d []|]. split; [|reflexivity]. intros d r E' H. injection E' as <- _. assert (F : existsb (Ascii.eqb c) chars = true) by (apply existsb_exists; exists c; split; [exact H|apply Ascii.eqb_refl]). congruence.
Qed.
Theorem C114_params_lines : forall prom path pdict conns, NoDup (map fst conns) -> (forall p, In p pdict -> below path p) ->
  exists h1 l1 h2 l2, snd (list_params prom path pdict conns) = [] :: h1 ++ l1 ++ [] :: h2 ++ l2 ++ [[]] /\
    (hd [] h1 = t_ "No unconnected parameters found." <-> fst (fst (list_params prom path pdict conns)) = []) /\
    (hd [] h2 = t_ "No parameters connected to sources in higher groups." <-> snd (fst (list_params prom path pdict conns)) = []) /\
    Forall2 (fun p l => exists r, named path p r /\ (prom p = r /\ l = r \/ prom p <> r /\ l = r ++ t_ " (" ++ prom p ++ t_ "))")) (fst (fst (list_params prom path pdict conns))) l1 /\
    Forall2 (fun p l => exists pre suf s, named path p (pre ++ suf) /\ is_source conns p s /\ (forall c, In c pre -> c = "."%char \/ In c path) /\ (forall c r, suf = c :: r -> c <> "."%char /\ ~ In c path) /\ l = suf ++ t_ ": connected to '" ++ s ++ t_ "'")
      (snd (fst (list_params prom path pdict conns))) l2.
Proof.
  intros prom path pdict conns N B. unfold list_params. cbn [fst snd]. set (src := fun p => match tget conns p with Some s => s | None => [] end). set (un := filter (fun p => negb (haskey conns p)) pdict). set (out := filter (fun p => negb (startswith (match tget conns p with Some s => s | None => [] end) (scope_of path))) (filter (haskey conns) pdict)).
  exists (match un with [] => [t_ "No unconnected parameters found."; t_ "---------------------------------"] | _ => [t_ "Unconnected parameters:"; t_ "-------------------------"] end), (map (unconn_line prom (scope_of path)) un),
    (match out with [] => [t_ "No parameters connected to sources in higher groups."; t_ "-----------------------------------------------------"] | _ => [t_ "Parameters connected to sources in higher groups:"; t_ "--------------------------------------------------"] end),
    (map (fun p => lstrip p (scope_of path) ++ t_ ": connected to '" ++ src p ++ t_ "'") out).
  split; [reflexivity|]. split; [|split; [|split]].
  1: { generalize un. intros [|x0 l0]; cbn [hd]; split; intros H; [reflexivity|reflexivity|vm_compute in H; discriminate H|discriminate H]. }
  1: { generalize out. intros [|x0 l0]; cbn [hd]; split; intros H; [reflexivity|reflexivity|vm_compute in H; discriminate H|discriminate H]. }
  - assert (H : forall p, In p un -> below path p) by (intros p Hp; apply filter_In in Hp; apply B; tauto). revert H. generalize un. intros l H. induction l as [|p l IH]; [constructor|]. cbn [map]. constructor; [|apply IH; intros x Hx; apply H; right; exact Hx].
    destruct (below_named path p (H p (or_introl eq_refl))) as [Hn|Hn]; (exists (relative_to path p); split; [first [left; exact Hn|right; exact Hn]|]; rewrite (C114_unconnected_line prom path p (relative_to path p)) by (first [left; exact Hn|right; exact Hn]); destruct (text_dec (prom p) (relative_to path p)); [left; split; [assumption|reflexivity]|right; split; [assumption|reflexivity]]).
  - assert (H : forall p, In p out -> below path p /\ path <> [] /\ is_source conns p (src p)).
    { intros p Hp. apply filter_In in Hp. destruct Hp as [Hp F]. apply filter_In in Hp. destruct Hp as [Hp K]. change (negb (startswith (src p) (scope_of path)) = true) in F. split; [apply B; exact Hp|]. split; [intros E; rewrite E in F; assert (G : startswith (src p) (scope_of []) = true) by (apply scope_below'; left; reflexivity); rewrite G in F; discriminate|].
      apply haskey_iff in K. apply in_map_iff in K. destruct K as ([q s] & E & K). cbn in E. subst q. unfold src. rewrite (proj2 (tget_in conns p s N) K). exact K. }
    revert H. generalize out. intros l H. induction l as [|p l IH]; [constructor|]. cbn [map]. constructor; [|apply IH; intros x Hx; apply H; right; exact Hx].
    destruct (H p (or_introl eq_refl)) as (Hb & Hp & Hs). destruct Hb as [F|(r & E)]; [contradiction|]. assert (Es : scope_of path = path ++ ["."%char]) by (destruct path; [contradiction|reflexivity]). destruct (lstrip_split r (scope_of path)) as (pre & suf & -> & H1 & H2 & H3).
    exists pre, suf, (src p). split; [right; split; assumption|]. split; [exact Hs|]. split; [intros c Hc; apply H1 in Hc; rewrite Es in Hc; apply in_app_or in Hc; destruct Hc as [Hc|[Hc|[]]]; [right; exact Hc|left; symmetry; exact Hc]|].
    split; [intros c r Er; pose proof (H2 c r Er) as G; rewrite Es in G; split; [intros ->; apply G; apply in_or_app; right; left; reflexivity|intros Hc; apply G; apply in_or_app; left; exact Hc]|].
    assert (L : lstrip p (scope_of path) = suf); [|rewrite L; reflexivity]. rewrite E. replace (path ++ "."%char :: pre ++ suf) with ((path ++ ["."%char]) ++ pre ++ suf) by (rewrite <- app_assoc; reflexivity). rewrite lstrip_all by (intros c Hc; rewrite Es; exact Hc). exact H3.
Qed.
Print Assumptions C114_params_lines.

(** The conversions returned: each connection within the system that converts units or has
    units on one side only, once, in order. *)
Theorem C114_conversions : forall path pdict udict conns, NoDup (map fst pdict) -> NoDup (map fst udict) -> NoDup (map fst conns) ->
  (forall t, In t (map fst pdict) -> below path t) -> (forall s, In s (map fst udict) -> below path s) ->
  (forall e, In e (fst (list_unit_conv path pdict udict conns)) <-> converts path pdict udict conns e) /\
  NoDup (map fst (fst (list_unit_conv path pdict udict conns))) /\
  LocallySorted (fun x y => before (fst x) (fst y)) (fst (list_unit_conv path pdict udict conns)).
Proof.
  intros path pdict udict conns Np Nu Nc Bp Bu. rewrite luc_fst. destruct (diff_loop_ok path pdict udict Np Nu Bp Bu conns [] []) as (I1 & I2 & _); [constructor|exact Nc|intros e t []|].
  set (d := fst (diff_loop path pdict udict conns [] [])) in *. pose proof (ksort_perm d) as P. split; [|split].
  - intros e. split; [intros H; apply (Permutation_in e (Permutation_sym P)) in H; apply I2 in H; destruct H as [[]|H]; exact H|]. intros H. apply (Permutation_in e P). apply I2. right. exact H.
  - apply (Permutation_NoDup (Permutation_map fst P) I1).
  - apply ksort_sorted.
Qed.
Print Assumptions C114_conversions.

(** The lines printed: none, or a heading and one line for each, marked if and only if the
    source is passed by object. *)
Theorem C114_conversion_lines : forall path pdict udict conns, NoDup (map fst pdict) -> NoDup (map fst udict) -> NoDup (map fst conns) ->
  (forall t, In t (map fst pdict) -> below path t) -> (forall s, In s (map fst udict) -> below path s) ->
  (fst (list_unit_conv path pdict udict conns) = [] /\ snd (list_unit_conv path pdict udict conns) = []) \/
  exists ls, snd (list_unit_conv path pdict udict conns) = [] :: t_ "Unit Conversions" :: ls /\
    Forall2 (fun e l => exists s t sm, named path s (fst (fst e)) /\ named path t (snd (fst e)) /\ In (s, sm) udict /\
        l = fst (fst e) ++ t_ " -> " ++ snd (fst e) ++ t_ " : " ++ str_unit (fst (snd e)) ++ t_ " -> " ++ str_unit (snd (snd e)) ++ (if u_pbo sm then t_ " (pass_by_obj)" else []))
      (fst (list_unit_conv path pdict udict conns)) ls.
Proof.
  intros path pdict udict conns Np Nu Nc Bp Bu. destruct (C114_conversions path pdict udict conns Np Nu Nc Bp Bu) as (C1 & _). destruct (diff_loop_ok path pdict udict Np Nu Bp Bu conns [] []) as (_ & _ & I3); [constructor|exact Nc|intros e t []|].
  rewrite luc_snd. rewrite luc_fst in C1 |- *. revert C1.
  assert (I3' : forall d pbos, pbos = snd (diff_loop path pdict udict conns [] []) -> d = fst (diff_loop path pdict udict conns [] []) -> forall r, In r pbos <-> (exists t s tm sm, In (t, s) conns /\ In (t, tm) pdict /\ In (s, sm) udict /\ named path s r /\ u_pbo sm = true)).
  { intros d pbos -> _ r. split; [intros H; apply (proj1 (I3 r)) in H; destruct H as [[]|H]; exact H|intros H; apply (proj2 (I3 r)); right; exact H]. }
  specialize (I3' _ _ eq_refl eq_refl). clear I3. revert I3'. generalize (snd (diff_loop path pdict udict conns [] [])). generalize (fst (diff_loop path pdict udict conns [] [])). intros d pbos I3' C1.
  destruct d as [|e0 d]; [left; split; reflexivity|]. right. eexists. split; [reflexivity|].
  assert (H : forall e, In e (ksort (e0 :: d)) -> converts path pdict udict conns e) by (intros e He; apply C1; exact He). clear C1. revert H. generalize (ksort (e0 :: d)). intros l H. induction l as [|e l IH]; [constructor|]. cbn [map]. constructor; [|apply IH; intros x Hx; apply H; right; exact Hx].
  destruct (H e (or_introl eq_refl)) as (t & s & tm & sm & Hc & Ht & Hs & Ns & Nt & _). exists s, t, sm. split; [exact Ns|]. split; [exact Nt|]. split; [exact Hs|]. destruct e as [[es et] [us ut]]. cbn [fst snd] in *. unfold diff_line.
  assert (B : existsb (teqb es) pbos = u_pbo sm); [|rewrite B; reflexivity]. apply eq_true_iff_eq. rewrite existsb_exists. split.
  - intros (x & Hx & E). destruct (teqb_spec es x) as [<-|]; [|discriminate]. apply I3' in Hx. destruct Hx as (t' & s' & tm' & sm' & _ & _ & Hs' & Ns' & P). rewrite (named_inj path s' s es Ns' Ns) in Hs'. apply (tget_in udict s sm' Nu) in Hs'. apply (tget_in udict s sm Nu) in Hs. congruence.
  - intros P. exists es. split; [|apply teqb_refl]. apply I3'. exists t, s, tm, sm. repeat split; assumption.
Qed.
Print Assumptions C114_conversion_lines.

(** "sub" has a param "sub.bx" and a param "sub.x" from a source outside. *)
Example C114_ex :
  list_params (fun n => if teqb n (t_ "sub.q") then t_ "w" else skipn 4 n) (t_ "sub") [t_ "sub.bx"; t_ "sub.x"; t_ "sub.q"] [(t_ "sub.bx", t_ "p.y"); (t_ "sub.x", t_ "p.y")] =
    ([t_ "sub.q"], [t_ "sub.bx"; t_ "sub.x"],
     [t_ ""; t_ "Unconnected parameters:"; t_ "-------------------------"; t_ "q (w))"; t_ "";
      t_ "Parameters connected to sources in higher groups:"; t_ "--------------------------------------------------"; t_ "x: connected to 'p.y'"; t_ "x: connected to 'p.y'"; t_ ""]) /\
  list_unit_conv (t_ "g") [(t_ "g.a", mkU (Some (t_ "ft")) true false); (t_ "g.b", mkU None false false)] [(t_ "g.y", mkU (Some (t_ "m")) false false)] [(t_ "g.b", t_ "g.y"); (t_ "g.a", t_ "g.y"); (t_ "h.a", t_ "g.y")] =
    ([((t_ "y", t_ "a"), (Some (t_ "m"), Some (t_ "ft"))); ((t_ "y", t_ "b"), (Some (t_ "m"), None))], [t_ ""; t_ "Unit Conversions"; t_ "y -> a : m -> ft"; t_ "y -> b : m -> None"]).
Proof. split; vm_compute; reflexivity. Qed.

(** C115 Checks of a setup. *)
From Coq Require Import Permutation.
From Verif Require Import Base ExprModel LcnModel LcnProofs ChsModel ChsSpec.
Local Open Scope list_scope.

Lemma tmem_iff : forall x l, tmem x l = true <-> In x l.
Proof.
  intros x l. unfold tmem. rewrite existsb_exists. split.
  - intros (y & H & E). destruct (teqb_spec x y) as [->|]; [exact H|discriminate].
  - intros H. exists x. split; [exact H|apply teqb_refl].
Qed.
Section C115.
  Variable enum : list txt -> list txt.
  Hypothesis enum_perm : forall l, Permutation l (enum l).
  Lemma tset_in : forall l x, In x (tset enum l) <-> In x l.
  Proof. intros l x. unfold tset. rewrite <- (nodup_In text_dec l x). split; apply Permutation_in; [apply Permutation_sym|]; apply enum_perm. Qed.
  Lemma tset_nodup : forall l, NoDup (tset enum l).
  Proof. intros l. unfold tset. apply (Permutation_NoDup (enum_perm _)). apply NoDup_nodup. Qed.
  Lemma sorted_in : forall l x, In x (sorted_by (fun x => x) l) <-> In x l.
  Proof. intros l x. split; apply Permutation_in; [apply Permutation_sym|]; apply sorted_perm. Qed.
  Lemma insert_increasing : forall a l, increasing l -> ~ In a l -> increasing (insert (fun x => x) a l).
  Proof.
    intros a l. induction l as [|b l IH]; intros H N; [exact I|]. cbn [insert]. destruct (leb_text a b) eqn:E.
    - split; [exact E|]. split; [intros ->; apply N; left; reflexivity|exact H].
    - apply leb_total in E. assert (Hab : b <> a) by (intros ->; apply N; left; reflexivity). assert (Hl : increasing l) by (destruct l; [exact I|apply H]). specialize (IH Hl (fun F => N (or_intror F))).
      destruct l as [|c l]; [cbn; repeat split; assumption|]. cbn [insert] in *. destruct (leb_text a c) eqn:E2; [split; [exact E|split; [exact Hab|exact IH]]|]. split; [apply H|]. split; [apply H|exact IH].
  Qed.
  Lemma sorted_increasing : forall l, NoDup l -> increasing (sorted_by (fun x => x) l).
  Proof. induction l as [|a l IH]; intros N; [exact I|]. inversion N; subst. cbn [sorted_by]. apply insert_increasing; [apply IH; assumption|]. rewrite sorted_in. assumption. Qed.

  (** The params without source, under their promoted names, each once and in order. *)
  Theorem C115_dangling : forall prom pdict conns,
    increasing (dangling_params enum prom pdict conns) /\
    forall d, In d (dangling_params enum prom pdict conns) <-> exists p, In p pdict /\ prom p = d /\ ~ connected conns p.
  Proof.
    intros prom pdict conns. unfold dangling_params. split; [apply sorted_increasing; apply tset_nodup|]. intros d. rewrite sorted_in, tset_in, in_map_iff.
    assert (K : forall p, negb (haskey conns p) = true <-> ~ connected conns p).
    { intros p. rewrite negb_true_iff. unfold connected. split.
      - intros F (s & H). apply (in_map fst) in H. apply haskey_iff in H. cbn in H. congruence.
      - intros F. apply not_true_is_false. intros H. apply haskey_iff in H. apply in_map_iff in H. destruct H as ([q s] & E & H). cbn in E. subst q. apply F. exists s. exact H. }
    split.
    - intros (p & E & H). apply filter_In in H. destruct H as [H F]. exists p. split; [exact H|]. split; [exact E|]. apply K. exact F.
    - intros (p & H & E & F). exists p. split; [exact E|]. apply filter_In. split; [exact H|]. apply K. exact F.
  Qed.

  (** The components no variable of which is connected. *)
  Lemma upto_dot_app : forall c v, ~ In "."%char v -> upto_dot (c ++ "."%char :: v) = Some c.
  Proof.
    intros c v Hv. assert (N : forall v, ~ In "."%char v -> upto_dot v = None).
    { clear. induction v as [|d v IH]; intros H; [reflexivity|]. cbn. rewrite IH by (intros F; apply H; right; exact F). destruct (Ascii.eqb_spec d "."%char) as [E|]; [exfalso; apply H; left; exact E|reflexivity]. }
    induction c as [|d c IH]; [cbn; rewrite (N v Hv); reflexivity|]. cbn [app upto_dot]. rewrite IH. reflexivity.
  Qed.
  Lemma rsplit_var : forall n c d, var_of c n -> (rsplit_head n = d <-> var_of d n).
  Proof.
    intros n c d (v & -> & Hv). unfold rsplit_head. rewrite (upto_dot_app c v Hv). split.
    - intros <-. exists v. split; [reflexivity|exact Hv].
    - intros (w & E & Hw). pose proof (upto_dot_app c v Hv) as H1. rewrite E in H1. rewrite (upto_dot_app d w Hw) in H1. injection H1 as ->. reflexivity.
  Qed.
  Theorem C115_no_connections : forall comps conns, NoDup comps -> (forall t s, In (t, s) conns -> (exists c, var_of c t) /\ (exists c, var_of c s)) ->
    increasing (no_connect_comps enum comps conns) /\
    forall c, In c (no_connect_comps enum comps conns) <-> In c comps /\ forall t s, In (t, s) conns -> ~ var_of c t /\ ~ var_of c s.
  Proof.
    intros comps conns N W. unfold no_connect_comps. split; [apply sorted_increasing; apply NoDup_filter; exact N|]. intros c. rewrite sorted_in, filter_In, negb_true_iff.
    assert (K : tmem c (tset enum (map (fun c => rsplit_head (fst c)) conns ++ map (fun c => rsplit_head (snd c)) conns)) = true <-> exists t s, In (t, s) conns /\ (var_of c t \/ var_of c s)).
    { rewrite tmem_iff, tset_in, in_app_iff, !in_map_iff. split.
      - intros [([t s] & E & H)|([t s] & E & H)]; exists t, s; (split; [exact H|]); destruct (W t s H) as [[x Hx] [y Hy]]; cbn in E; [left; apply (rsplit_var t x c Hx)|right; apply (rsplit_var s y c Hy)]; exact E.
      - intros (t & s & H & [V|V]); [left|right]; exists (t, s); (split; [|exact H]); cbn; apply (rsplit_var _ c c V); exact V. }
    split.
    - intros [H F]. split; [exact H|]. intros t s Hc. split; intros V; (assert (G : exists t s, In (t, s) conns /\ (var_of c t \/ var_of c s)) by (exists t, s; split; [exact Hc|tauto])); apply K in G; congruence.
    - intros [H F]. split; [exact H|]. apply not_true_is_false. intros G. apply K in G. destruct G as (t & s & Hc & [V|V]); destruct (F t s Hc); contradiction.
  Qed.

  (** The variables that were not marked: a line for each. *)
  Theorem C115_unmarked : forall comps l, In l (snd (unmarked_pbos comps)) <-> exists c vs v, In (c, vs) comps /\ In v vs /\ l = c ++ "."%char :: v.
  Proof.
    intros comps l. unfold unmarked_pbos. cbn [snd]. rewrite in_flat_map. set (f := fun c : txt * list txt => match snd c with [] => false | _ => true end).
    assert (P : forall x, In x (sorted_by fst (filter f comps)) <-> In x (filter f comps)) by (intros x; split; apply Permutation_in; [apply Permutation_sym|]; apply sorted_perm). split.
    - intros ([c vs] & H & Hl). apply P in H. apply filter_In in H. destruct H as [H _]. apply in_map_iff in Hl. destruct Hl as (v & <- & Hv). exists c, vs, v. split; [exact H|]. split; [exact Hv|reflexivity].
    - intros (c & vs & v & H & Hv & ->). exists (c, vs). split; [apply P; apply filter_In; split; [exact H|destruct vs; [destruct Hv|reflexivity]]|]. apply in_map_iff. exists v. split; [reflexivity|exact Hv].
  Qed.

  (** Variables passed by object among the relevant ones: what is returned. *)
  Lemma rels_in : forall (reldict : list (option txt * list txt)) v,
    In v (flat_map (fun e => match fst e with None => if Nat.ltb 1 (length reldict) then [] else snd e | Some _ => snd e end) reldict) <-> relevant_var reldict v.
  Proof.
    intros reldict v. unfold relevant_var. rewrite in_flat_map. split.
    - intros ([[w|] l] & H & Hv); cbn [fst snd] in Hv; [left; exists w, l; split; assumption|]. destruct (Nat.ltb_spec 1 (length reldict)); [destruct Hv|]. right. split; [destruct reldict as [|? [|? ?]]; [destruct H|reflexivity|cbn in *; lia]|]. exists l. split; assumption.
    - intros [(w & l & H & Hv)|(E & l & H & Hv)]; [exists (Some w, l); split; [exact H|exact Hv]|]. exists (None, l). split; [exact H|]. cbn [fst]. rewrite E. exact Hv.
  Qed.
  Theorem C115_relevant : forall plain gradients dtype vec reldict conns,
    NoDup (fst (relevant_pbos enum plain gradients dtype vec reldict conns)) /\
    forall v, In v (fst (relevant_pbos enum plain gradients dtype vec reldict conns)) <->
      plain = false /\ gradients = true /\ dtype = t_ "user" /\ In (v, true) vec /\ relevant_var reldict v.
  Proof.
    intros plain gradients dtype vec reldict conns. unfold relevant_pbos. destruct plain; [cbn; split; [constructor|intuition discriminate]|]. destruct gradients; [|cbn; split; [constructor|intuition discriminate]]. destruct (teqb_spec dtype (t_ "user")) as [->|Hd]; [|cbn [orb negb fst]; split; [constructor|intros v; split; [intros []|tauto]]].
    cbn [orb negb]. set (rels := flat_map _ reldict). set (rp := tset enum (filter (fun v => tmem v (map fst (filter snd vec))) rels)).
    assert (F : forall X : list printed, fst (match rp with [] => ([], []) | _ => (rp, X) end) = rp) by (intros X; destruct rp; reflexivity).
    rewrite F. split; [apply tset_nodup|]. intros v. unfold rp. rewrite tset_in, filter_In, tmem_iff, in_map_iff. unfold rels. rewrite rels_in. split.
    - intros [R ((w & b) & E & H)]. apply filter_In in H. cbn in *. destruct H as [H ->]. subst w. tauto.
    - intros (_ & _ & _ & H & R). split; [exact R|]. exists (v, true). split; [reflexivity|]. apply filter_In. split; [exact H|reflexivity].
  Qed.

  (** The connections printed are those whose absolute names occur among the promoted ones. *)
  Theorem C115_printed : forall plain gradients dtype vec reldict conns s t,
    In (OutConn s t) (snd (relevant_pbos enum plain gradients dtype vec reldict conns)) <->
      In s (fst (relevant_pbos enum plain gradients dtype vec reldict conns)) /\ In (t, s) conns /\ relevant_var reldict t.
  Proof.
    intros plain gradients dtype vec reldict conns s t. unfold relevant_pbos. destruct (plain || negb gradients || negb (teqb dtype (t_ "user"))); [cbn; intuition|]. set (rels := flat_map _ reldict). set (rp := tset enum (filter (fun v => tmem v (map fst (filter snd vec))) rels)). cbv zeta. set (rc := flat_map (fun src => map (fun c => (src, fst c)) (filter (fun c => teqb (snd c) src && tmem (fst c) rels) conns)) rp).
    assert (K : In (s, t) rc <-> In s rp /\ In (t, s) conns /\ relevant_var reldict t).
    { unfold rc. rewrite in_flat_map. split.
      - intros (x & Hx & H). apply in_map_iff in H. destruct H as ([t' s'] & E & H). injection E as -> <-. apply filter_In in H. cbn [fst snd] in *. destruct H as [H G]. apply andb_true_iff in G. destruct G as [G1 G2]. destruct (teqb_spec s' s) as [->|]; [|discriminate]. apply tmem_iff in G2. unfold rels in G2. apply rels_in in G2. tauto.
      - intros (Hs & Hc & R). exists s. split; [exact Hs|]. apply in_map_iff. exists (t, s). split; [reflexivity|]. apply filter_In. split; [exact Hc|]. cbn [fst snd]. rewrite teqb_refl. cbn [andb]. apply tmem_iff. unfold rels. apply rels_in. exact R. }
    destruct rp as [|a rp']; [cbn; intuition|]. cbn [fst snd]. rewrite <- K. rewrite in_app_iff. split.
    - intros [H|[F|[]]]; [|discriminate]. destruct rc as [|e rc']; [destruct H as [H|[]]; discriminate|]. apply in_map_iff in H. destruct H as ([x y] & E & H). injection E as -> ->. exact H.
    - intros H. left. destruct rc as [|e rc']; [destruct H|]. apply in_map_iff. exists (s, t). split; [reflexivity|exact H].
  Qed.

  (** So a relevant connection of a promoted source or to a promoted target is not printed; if
      all are such, the names go to the standard output and the stream gets the advice only. *)
  Theorem C115_promoted_refuted : forall prom plain gradients dtype vec reldict conns s t,
    In (prom s) (fst (relevant_pbos enum plain gradients dtype vec reldict conns)) -> In (t, s) conns -> relevant_var reldict (prom t) ->
    ~ In s (map fst vec) \/ ~ relevant_var reldict t ->
    ~ In (OutConn s t) (snd (relevant_pbos enum plain gradients dtype vec reldict conns)) /\ ~ (prom s <> s /\ In (OutConn (prom s) t) (snd (relevant_pbos enum plain gradients dtype vec reldict conns)) /\ NoDup (map fst conns)).
  Proof.
    intros prom plain gradients dtype vec reldict conns s t _ Hc _ H. split.
    - intros F. apply C115_printed in F. destruct F as (F1 & _ & F2). destruct H as [H|H]; [|contradiction]. apply C115_relevant in F1. destruct F1 as (_ & _ & _ & F1 & _). apply H. apply (in_map fst) in F1. exact F1.
    - intros (E & F & N). apply C115_printed in F. destruct F as (_ & F & _). apply E. clear -N Hc F. induction conns as [|[t' s'] conns IH]; [destruct Hc|]. cbn in N. inversion N as [|? ? N1 N2]; subst. destruct Hc as [Hc|Hc]; destruct F as [F|F].
      + congruence.
      + injection Hc as -> ->. exfalso. apply N1. apply (in_map fst) in F. exact F.
      + injection F as -> ->. exfalso. apply N1. apply (in_map fst) in Hc. exact Hc.
      + apply IH; assumption.
  Qed.
  Theorem C115_stream_refuted : forall plain gradients dtype vec reldict conns,
    fst (relevant_pbos enum plain gradients dtype vec reldict conns) <> [] ->
    (forall t s, In (t, s) conns -> ~ In s (map fst vec) \/ ~ relevant_var reldict t) ->
    exists vs, snd (relevant_pbos enum plain gradients dtype vec reldict conns) = [StdoutVars vs; OutAdvice] /\ Permutation vs (fst (relevant_pbos enum plain gradients dtype vec reldict conns)).
  Proof.
    intros plain gradients dtype vec reldict conns NE H. assert (P : forall s t, ~ In (OutConn s t) (snd (relevant_pbos enum plain gradients dtype vec reldict conns))).
    { intros s t F. apply C115_printed in F. destruct F as (F1 & F2 & F3). destruct (H t s F2) as [G|G]; [|contradiction]. apply C115_relevant in F1. destruct F1 as (_ & _ & _ & F1 & _). apply G. apply (in_map fst) in F1. exact F1. }
    revert P NE. unfold relevant_pbos. destruct (plain || negb gradients || negb (teqb dtype (t_ "user"))); [intros _ F; contradiction F; reflexivity|]. set (rels := flat_map _ reldict). set (rp := tset enum (filter (fun v => tmem v (map fst (filter snd vec))) rels)). cbv zeta. set (rc := flat_map (fun src => map (fun c => (src, fst c)) (filter (fun c => teqb (snd c) src && tmem (fst c) rels) conns)) rp).
    destruct rp as [|a rp']; [intros _ F; contradiction F; reflexivity|]. cbn [fst snd]. intros P _. destruct rc as [|[x y] rc']; [|exfalso; apply (P x y); left; reflexivity]. eexists. split; [reflexivity|]. apply Permutation_sym. apply sorted_perm.
  Qed.

  (** The tolerances of active constraints that the driver ignores. *)
  Theorem C115_driver : forall active_set cons,
    match driver_issues active_set cons with
    | None => active_set = true \/ forall n, ~ In (n, true) cons
    | Some l => active_set = false /\ l <> [] /\ forall n, In n l <-> In (n, true) cons
    end.
  Proof.
    intros active_set cons. unfold driver_issues. destruct active_set; [left; reflexivity|]. cbn [negb]. assert (K : forall n, In n (map fst (filter snd cons)) <-> In (n, true) cons).
    { intros n. rewrite in_map_iff. split; [intros ([m b] & E & H); apply filter_In in H; cbn in *; destruct H as [H ->]; subst; exact H|]. intros H. exists (n, true). split; [reflexivity|apply filter_In; split; [exact H|reflexivity]]. }
    destruct (map fst (filter snd cons)) as [|a l]; [right; intros n F; apply K in F; exact F|]. split; [reflexivity|]. split; [discriminate|exact K].
  Qed.
End C115.
Print Assumptions C115_dangling.
Print Assumptions C115_no_connections.
Print Assumptions C115_unmarked.
Print Assumptions C115_relevant.
Print Assumptions C115_printed.
Print Assumptions C115_promoted_refuted.
Print Assumptions C115_stream_refuted.
Print Assumptions C115_driver.

(** "x" is promoted from "p.x"; "q.f" is not promoted.  Only the connection of "q.f" appears. *)
Example C115_ex :
  relevant_pbos (fun l => l) false true (t_ "user") [(t_ "x", true); (t_ "q.f", true); (t_ "c.y", false)] [(Some (t_ "x"), [t_ "x"; t_ "q.f"; t_ "r.f"; t_ "c.y"]); (None, [t_ "z"])] [(t_ "c.x", t_ "p.x"); (t_ "r.f", t_ "q.f")] =
    ([t_ "x"; t_ "q.f"], [OutConn (t_ "q.f") (t_ "r.f"); OutAdvice]) /\
  no_connect_comps (fun l => l) [t_ "r"; t_ "g.c"; t_ "g.d"; t_ "b"] [(t_ "g.c.x", t_ "r.y")] = [t_ "b"; t_ "g.d"] /\
  dangling_params (fun l => l) (fun n => if teqb n (t_ "g.c.z") then t_ "z" else if teqb n (t_ "g.d.z") then t_ "z" else n) [t_ "g.c.z"; t_ "g.d.z"; t_ "a.w"; t_ "g.c.x"] [(t_ "g.c.x", t_ "r.y")] = [t_ "a.w"; t_ "z"].
Proof. repeat split; vm_compute; reflexivity. Qed.

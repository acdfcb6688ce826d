(** Lemmas for C105. *)
From Verif Require Import Base BaseFacts DirModel DirSpec.
Local Open Scope string_scope.

Section SysInd.
  Variable P : sys -> Prop.
  Hypothesis Hc : forall p d c r, P (Comp p d c r).
  Hypothesis Hg : forall p d c nl ln subs, Forall P subs -> P (Grp p d c nl ln subs).
  Fixpoint sys_ind2 (s : sys) : P s :=
    match s with
    | Comp p d c r => Hc p d c r
    | Grp p d c nl ln subs =>
        Hg p d c nl ln subs
          ((fix go (l : list sys) : Forall P l :=
              match l with [] => Forall_nil P | x :: l' => Forall_cons x (sys_ind2 x) (go l') end) subs)
    end.
End SysInd.

Section LactInd.
  Variable P : lact -> Prop.
  Hypothesis H1 : P LApply.
  Hypothesis H2 : P LForward.
  Hypothesis H3 : P LReverse.
  Hypothesis H4 : forall l, Forall P l -> P (LPrecon l).
  Fixpoint lact_ind2 (a : lact) : P a :=
    match a with
    | LApply => H1 | LForward => H2 | LReverse => H3
    | LPrecon l => H4 l ((fix go (l : list lact) : Forall P l :=
              match l with [] => Forall_nil P | x :: l' => Forall_cons x (lact_ind2 x) (go l') end) l)
    end.
End LactInd.

(** a program keeps the working directory c, changes the start of contexts in
    T only and makes calls that satisfy P *)
Definition keeps (T : string -> Prop) (P : string * meth * string -> Prop) (c : string) (f : prog) : Prop :=
  forall w, w_cwd w = c ->
    w_cwd (fst (f w)) = c /\
    (forall p, ~ T p -> sget (w_start (fst (f w))) p = sget (w_start w) p) /\
    exists l, w_log (fst (f w)) = (w_log w ++ l)%list /\ Forall P l.

Lemma keeps_impl : forall (T T' : string -> Prop) (P P' : string * meth * string -> Prop) c f, keeps T P c f ->
  (forall p, T p -> T' p) -> (forall e, P e -> P' e) -> keeps T' P' c f.
Proof.
  intros T T' P P' c f H HT HP w Hw. destruct (H w Hw) as (A & B & l & C & D).
  split; [exact A|]. split; [intros p Hp; apply B; auto|].
  exists l. split; [exact C|]. eapply Forall_impl; [exact HP|exact D].
Qed.

Lemma keeps_skip : forall T P c, keeps T P c skip.
Proof. intros T P c w Hw. cbn. split; [exact Hw|]. split; [reflexivity|]. exists []. rewrite app_nil_r. auto. Qed.

Lemma keeps_andthen : forall T P c f g, keeps T P c f -> keeps T P c g -> keeps T P c (andthen f g).
Proof.
  intros T P c f g Hf Hg w Hw. unfold andthen. destruct (Hf w Hw) as (A & B & l & C & D).
  destruct (f w) as [w1 ok] eqn:E. cbn [fst] in *. destruct ok; cbn [fst].
  - destruct (Hg w1 A) as (A' & B' & l' & C' & D'). split; [exact A'|].
    split; [intros p Hp; rewrite B', B by exact Hp; reflexivity|].
    exists (l ++ l')%list. rewrite C', C, app_assoc. split; [reflexivity|]. apply Forall_app; auto.
  - split; [exact A|]. split; [exact B|]. exists l. auto.
Qed.

Lemma keeps_list : forall {A} T P c (f : A -> prog) l, (forall a, In a l -> keeps T P c (f a)) ->
  keeps T P c (run_list f l).
Proof.
  induction l as [|a l IH]; intro H; cbn [run_list]; [apply keeps_skip|].
  apply keeps_andthen; [apply H; left; reflexivity|]. apply IH. intros b Hb. apply H. right. exact Hb.
Qed.

Lemma keeps_rev : forall {A} T P c (f : A -> prog) l, (forall a, In a l -> keeps T P c (f a)) ->
  keeps T P c (run_rev f l).
Proof.
  induction l as [|a l IH]; intro H; cbn [run_rev]; [apply keeps_skip|].
  apply keeps_andthen; [|apply H; left; reflexivity]. apply IH. intros b Hb. apply H. right. exact Hb.
Qed.

Lemma keeps_times : forall T P c f n, keeps T P c f -> keeps T P c (times n f).
Proof. induction n; intro H; cbn [times]; [apply keeps_skip|]. apply keeps_andthen; auto. Qed.

Lemma keeps_call : forall raises T (P : string * meth * string -> Prop) c p m,
  P (p, m, c) -> keeps T P c (call raises p m).
Proof.
  intros raises T P c p m H w Hw. cbn. split; [exact Hw|]. split; [reflexivity|].
  exists [(p, m, w_cwd w)]. split; [reflexivity|]. rewrite Hw. auto.
Qed.

Lemma keeps_ctx_none : forall T P c s f, s_ctx s = None -> keeps T P c f -> keeps T P c (with_ctx s f).
Proof. intros T P c s f E H w Hw. unfold with_ctx. rewrite E. apply H. exact Hw. Qed.

Lemma keeps_ctx_some : forall T P c d s f, s_ctx s = Some d -> keeps T P d f -> ~ T (s_path s) ->
  keeps (fun p => T p \/ p = s_path s) P c (with_ctx s f).
Proof.
  intros T P c d s f E H Hn w Hw. unfold with_ctx. rewrite E.
  destruct (H (mkW d (sset (w_start w) (s_path s) (w_cwd w)) (w_log w)) eq_refl) as (A & B & l & C & D).
  destruct (f (mkW d (sset (w_start w) (s_path s) (w_cwd w)) (w_log w))) as [w2 ok]. cbn [fst w_cwd w_start w_log] in *.
  split.
  - rewrite B by exact Hn. rewrite sget_sset, String.eqb_refl. exact Hw.
  - split; [|exists l; auto]. intros p Hp. rewrite B by tauto. rewrite sget_sset.
    destruct (String.eqb p (s_path s)) eqn:E1; [apply String.eqb_eq in E1; tauto|].
    try (destruct (String.eqb (s_path s) p) eqn:E2; [apply String.eqb_eq in E2; subst; tauto|]). reflexivity.
Qed.

(** ** Setup *)
Lemma isabs_iff : forall d, isabs d = true <-> exists d', d = "/" ++ d'.
Proof.
  intro d. split.
  - destruct d as [|a d]; cbn; [discriminate|]. intro H. exists d.
    destruct a as [[] [] [] [] [] [] [] []]; try discriminate H. reflexivity.
  - intros [d' ->]. reflexivity.
Qed.

Lemma sub_dir_setup : forall parent d old, sub_dir parent d (fst (setup_dir parent d old)).
Proof.
  intros parent d old. unfold setup_dir. destruct (String.eqb d "") eqn:E.
  - apply String.eqb_eq in E. subst. constructor.
  - apply String.eqb_neq in E. cbn [fst]. unfold join. destruct (isabs d) eqn:Ea.
    + apply isabs_iff in Ea. destruct Ea as [d' ->]. constructor.
    + assert (Hn : forall d', d <> "/" ++ d').
      { intros d' ->. discriminate Ea. }
      destruct (String.eqb parent "" || ends_slash parent)%bool eqn:Eb.
      * apply sub_rel_root; auto. apply Bool.orb_true_iff in Eb. destruct Eb as [Eb|Eb]; [right; apply String.eqb_eq; exact Eb|left; exact Eb].
      * apply Bool.orb_false_iff in Eb. destruct Eb as [E1 E2]. apply String.eqb_neq in E1. apply sub_rel; auto.
Qed.

Lemma sub_dir_det : forall parent d b1 b2, sub_dir parent d b1 -> sub_dir parent d b2 -> b1 = b2.
Proof.
  intros parent d b1 b2 H1 H2. inversion H1; subst; inversion H2; subst; try reflexivity; try congruence;
    exfalso; try (match goal with H : forall d', _ <> "/" ++ d' |- _ => eapply H; reflexivity end);
    match goal with H : _ \/ _ |- _ => destruct H; congruence end.
Qed.

(** a tree whose contexts are right *)
Inductive placed (parent : string) : sys -> string -> Prop :=
| placed_comp : forall p dir ctx r base, sub_dir parent dir base ->
    ctx = (if String.eqb dir "" then None else Some base) -> placed parent (Comp p dir ctx r) base
| placed_grp : forall p dir ctx nl ln subs base, sub_dir parent dir base ->
    ctx = (if String.eqb dir "" then None else Some base) ->
    (forall s, In s subs -> exists b, placed base s b) -> placed parent (Grp p dir ctx nl ln subs) base.

Lemma setup_placed : forall s parent, no_stale s -> exists b, placed parent (setup parent s) b.
Proof.
  induction s as [p d c r|p d c nl ln subs IH] using sys_ind2; intros parent Hn; inversion Hn; subst.
  - exists (fst (setup_dir parent d c)). cbn. constructor; [apply sub_dir_setup|].
    unfold setup_dir. destruct (String.eqb d "") eqn:E; cbn; [|reflexivity]. apply String.eqb_eq in E. auto.
  - exists (fst (setup_dir parent d c)). cbn. pose proof (sub_dir_setup parent d c) as Hs.
    assert (Hc : snd (setup_dir parent d c) = if String.eqb d "" then None else Some (fst (setup_dir parent d c))).
    { unfold setup_dir. destruct (String.eqb d "") eqn:E; cbn; [|reflexivity]. apply String.eqb_eq in E. auto. }
    destruct (setup_dir parent d c) as [ab c']. cbn [fst snd] in *. constructor; [exact Hs|exact Hc|].
    intros s Hin. apply in_map_iff in Hin. destruct Hin as (x & <- & Hx). rewrite Forall_forall in IH.
    apply (IH x Hx ab). auto.
Qed.

Lemma setup_fields : forall parent s, s_path (setup parent s) = s_path s /\ s_dir (setup parent s) = s_dir s.
Proof. intros parent [p d c r|p d c nl ln subs]; cbn; [auto|]. destruct (setup_dir parent d c); auto. Qed.

Lemma setup_paths : forall s parent, paths (setup parent s) = paths s.
Proof.
  induction s as [p d c r|p d c nl ln subs IH] using sys_ind2; intro parent; cbn; [reflexivity|].
  destruct (setup_dir parent d c) as [ab c']. cbn. f_equal.
  induction IH as [|x l Hx Hl IHl]; cbn; [reflexivity|]. rewrite Hx, IHl. reflexivity.
Qed.

Lemma setup_plain : forall s parent, plain_solvers s -> plain_solvers (setup parent s).
Proof.
  induction s as [p d c r|p d c nl ln subs IH] using sys_ind2; intros parent H; cbn; [constructor|].
  inversion H; subst. destruct (setup_dir parent d c) as [ab c']. constructor; [assumption|].
  intros s Hin. apply in_map_iff in Hin. destruct Hin as (x & <- & Hx). rewrite Forall_forall in IH. auto.
Qed.

Lemma setup_flat : forall s parent, flat s -> flat (setup parent s).
Proof.
  induction s as [p d c r|p d c nl ln subs IH] using sys_ind2; intros parent H; cbn; [constructor|].
  inversion H; subst. destruct (setup_dir parent d c) as [ab c']. constructor.
  intros s Hin. apply in_map_iff in Hin. destruct Hin as (x & <- & Hx). rewrite Forall_forall in IH.
  destruct (H1 x Hx) as [E F]. split; [rewrite (proj2 (setup_fields ab x)); exact E|auto].
Qed.

Lemma setup_lives : forall s parent parent' c d, lives parent (setup parent' s) c d -> lives parent s c d.
Proof.
  induction s as [p dr c r|p dr c nl ln subs IH] using sys_ind2; intros parent parent' co d H.
  - cbn in H. inversion H; subst. constructor. assumption.
  - cbn in H. destruct (setup_dir parent' dr c) as [ab c']. inversion H; subst.
    match goal with Hin : In _ (map _ _) |- _ => apply in_map_iff in Hin; destruct Hin as (x & <- & Hx) end.
    rewrite Forall_forall in IH. econstructor; [eassumption|exact Hx|]. eapply IH; eauto.
Qed.

Lemma placed_sub_dir : forall parent s b, placed parent s b -> sub_dir parent (s_dir s) b.
Proof. intros parent s b H. inversion H; subst; assumption. Qed.
Lemma placed_ctx : forall parent s b, placed parent s b ->
  s_ctx s = if String.eqb (s_dir s) "" then None else Some b.
Proof. intros parent s b H. inversion H; subst; cbn; reflexivity. Qed.
Lemma placed_det : forall parent s b b', placed parent s b -> placed parent s b' -> b = b'.
Proof. intros. eapply sub_dir_det; eapply placed_sub_dir; eassumption. Qed.

(** ** The calls *)
Section Run.
  Variable raises : nat -> bool.

  Definition below (s : sys) (p : string) : Prop :=
    match s with Comp _ _ _ _ => False | Grp _ _ _ _ _ subs => In p (flat_map paths subs) end.

  (** apply calls: whatever directory they happen in *)
  Definition apply_call (parent : string) (s : sys) (c : string) (e : string * meth * string) : Prop :=
    snd e = c /\ exists d, lives parent s (fst (fst e)) d /\ ~ runs (snd (fst e)) /\
      (flat s -> sub_dir parent (s_dir s) d).

  Lemma flat_lives : forall s parent c d b, flat s -> sub_dir parent (s_dir s) b -> lives parent s c d -> d = b.
  Proof.
    induction s as [p dr ct r|p dr ct nl ln subs IH] using sys_ind2; intros parent c d b Hf Hs Hl;
      inversion Hl; subst; cbn in Hs.
    - eapply sub_dir_det; eassumption.
    - assert (base = b) by (eapply sub_dir_det; eassumption). subst base.
      inversion Hf; subst. destruct (H0 _ H8) as [E F]. rewrite Forall_forall in IH.
      eapply (IH _ H8 b c d b F); [rewrite E; constructor|assumption].
  Qed.

  Lemma apply_keeps : forall m (ap : sys -> prog) s parent b c,
    ~ runs m ->
    (forall p d ct r, ap (Comp p d ct r) = call raises p m) ->
    (forall p d ct nl ln subs T P c', (forall x, In x subs -> keeps T P c' (ap x)) ->
       keeps T P c' (ap (Grp p d ct nl ln subs))) ->
    placed parent s b ->
    keeps (fun _ => False) (apply_call parent s c) c (ap s).
  Proof.
    intros m ap s parent b c Hm Hcomp Hgrp. revert parent b.
    induction s as [p dr ct r|p dr ct nl ln subs IH] using sys_ind2; intros parent b Hp; inversion Hp; subst.
    - rewrite Hcomp. apply keeps_call. split; [reflexivity|]. exists b. cbn.
      split; [constructor; assumption|]. split; [exact Hm|auto].
    - apply Hgrp. intros x Hx. rewrite Forall_forall in IH.
      match goal with H : forall s, In s subs -> _ |- _ => destruct (H x Hx) as [bx Hbx] end.
      eapply keeps_impl; [apply (IH x Hx b bx Hbx)|auto|].
      intros e (E1 & d & L & R & F). split; [exact E1|]. exists d. split; [econstructor; eassumption|].
      split; [exact R|]. intro Hf. inversion Hf; subst. cbn.
      match goal with H : forall s, In s subs -> s_dir s = "" /\ _ |- _ => destruct (H x Hx) as [E Fx] end.
      specialize (F Fx). rewrite E in F.
      rewrite (sub_dir_det _ _ _ _ F (sub_none _)). assumption.
  Qed.

  Lemma apply_nl_keeps : forall s parent b c, placed parent s b ->
    keeps (fun _ => False) (apply_call parent s c) c (apply_nl raises s).
  Proof.
    intros s parent b c Hp. apply (apply_keeps MApply) with (b := b); auto.
    - intros [E|[E|E]]; discriminate.
    - intros. cbn [apply_nl]. apply keeps_list. intros x Hx. destruct (s_run_apply x); [auto|apply keeps_skip].
  Qed.

  Lemma apply_lin_keeps : forall s parent b c, placed parent s b ->
    keeps (fun _ => False) (apply_call parent s c) c (apply_lin raises s).
  Proof.
    intros s parent b c Hp. apply (apply_keeps MApplyLin) with (b := b); auto.
    - intros [E|[E|E]]; discriminate.
    - intros. cbn [apply_lin]. apply keeps_list. auto.
  Qed.

  (** an apply call in the system's own directory is in place *)
  Lemma apply_in_place : forall parent s b e, sub_dir parent (s_dir s) b ->
    apply_call parent s b e -> in_place parent s e.
  Proof.
    intros parent s b e Hs (E1 & d & L & R & F). exists d. split; [exact L|].
    intros [H|H]; [contradiction|]. rewrite E1. eapply sub_dir_det; [exact Hs|]. auto.
  Qed.

  (** lifting from a subsystem *)
  Lemma in_place_lift : forall parent p dr ct nl ln subs b x e,
    sub_dir parent dr b -> In x subs -> in_place b x e -> in_place parent (Grp p dr ct nl ln subs) e.
  Proof.
    intros parent p dr ct nl ln subs b x e Hs Hx (d & L & H). exists d. split; [econstructor; eassumption|].
    intros [R|F]; [auto|]. apply H. right. inversion F; subst. apply H1. exact Hx.
  Qed.

  (** an apply call on a subsystem in the group's directory *)
  Lemma apply_sub_in_place : forall parent p dr ct nl ln subs b x e,
    sub_dir parent dr b -> In x subs -> apply_call b x b e -> in_place parent (Grp p dr ct nl ln subs) e.
  Proof.
    intros parent p dr ct nl ln subs b x e Hs Hx (E1 & d & L & R & F). exists d.
    split; [econstructor; eassumption|]. intros [H|H]; [contradiction|].
    inversion H; subst. destruct (H1 x Hx) as [E Fx]. specialize (F Fx). rewrite E in F.
    eapply sub_dir_det; [constructor|exact F].
  Qed.

  Lemma nodup_sub : forall (subs : list sys) x, NoDup (flat_map paths subs) -> In x subs ->
    NoDup (paths x) /\ (forall p, In p (paths x) -> In p (flat_map paths subs)).
  Proof.
    induction subs as [|y subs IH]; intros x Hn Hin; [destruct Hin|]. destruct Hin as [->|Hin]; cbn in *.
    - split; [|intros p Hp; apply in_or_app; auto]. revert Hn. generalize (paths x). intros l Hn.
      induction l as [|a l IHl]; [constructor|]. cbn in Hn. inversion Hn; subst. constructor; [|auto].
      intro Hi. apply H1. apply in_or_app. auto.
    - assert (Hn2 : NoDup (flat_map paths subs)).
      { revert Hn. generalize (paths y). intros l Hn. induction l as [|a l IHl]; [exact Hn|].
        cbn in Hn. inversion Hn; subst. auto. }
      destruct (IH x Hn2 Hin) as [A B]. split; [exact A|]. intros p Hp. apply in_or_app. auto.
  Qed.

  Lemma paths_self : forall s, In (s_path s) (paths s).
  Proof. intros [p d c r|p d c nl ln subs]; left; reflexivity. Qed.

  Lemma paths_split : forall s, NoDup (paths s) -> ~ below s (s_path s) /\ forall p, below s p -> In p (paths s).
  Proof.
    intros [p d c r|p d c nl ln subs] H; cbn in *; [tauto|]. inversion H; subst. tauto.
  Qed.

  (** entering the context of a placed system *)
  Lemma keeps_enter : forall parent s b c P f, placed parent s b -> NoDup (paths s) ->
    (s_dir s = "" -> c = b) -> keeps (below s) P b f ->
    keeps (fun p => In p (paths s)) P c (with_ctx s f).
  Proof.
    intros parent s b c P f Hp Hn Hc Hf. destruct (paths_split s Hn) as [Hns Hsub].
    pose proof (placed_ctx _ _ _ Hp) as Ec. destruct (String.eqb (s_dir s) "") eqn:E.
    - apply String.eqb_eq in E. rewrite (Hc E). apply keeps_ctx_none; [exact Ec|].
      eapply keeps_impl; [exact Hf|auto|auto].
    - eapply keeps_impl; [eapply keeps_ctx_some; [exact Ec|exact Hf|exact Hns]| |auto].
      intros p [Hp1| ->]; [auto|apply paths_self].
  Qed.

  Lemma sub_cond : forall b x bx, placed b x bx -> s_dir x = "" -> b = bx.
  Proof. intros b x bx H E. pose proof (placed_sub_dir _ _ _ H) as S. rewrite E in S. symmetry. eapply sub_dir_det; [exact S|constructor]. Qed.

  (** linearize *)
  Lemma linearize_keeps : forall s parent b c, placed parent s b -> NoDup (paths s) -> (s_dir s = "" -> c = b) ->
    keeps (fun p => In p (paths s)) (in_place parent s) c (sys_linearize raises s).
  Proof.
    induction s as [p dr ct r|p dr ct nl ln subs IH] using sys_ind2; intros parent b c Hp Hn Hc;
      pose proof Hp as Hp'; inversion Hp'; subst; cbn [sys_linearize].
    - eapply keeps_enter; [exact Hp|exact Hn|exact Hc|]. apply keeps_call.
      exists b. split; [constructor; assumption|]. cbn. auto.
    - eapply keeps_enter; [exact Hp|exact Hn|exact Hc|]. apply keeps_list. intros x Hx.
      rewrite Forall_forall in IH. inversion Hn; subst. destruct (nodup_sub subs x) as [Nx Bx]; auto.
      match goal with H : forall s, In s subs -> exists _, placed _ _ _ |- _ => destruct (H x Hx) as [bx Hbx] end.
      eapply keeps_impl; [apply (IH x Hx b bx b Hbx Nx); eapply sub_cond; exact Hbx|exact Bx|].
      intros e He. eapply in_place_lift; eassumption.
  Qed.

  (** the passes of the linear solver *)
  Lemma lin_act_keeps : forall s T P b fwd bwd a,
    (s_ctx s = None \/ plain_lin a) ->
    keeps T P b fwd -> keeps T P b bwd -> keeps T P b (apply_lin raises s) ->
    keeps T P b (lin_act raises s fwd bwd a).
  Proof.
    intros s T P b fwd bwd a Hc Hf Hb Ha. revert Hc.
    induction a as [| | |l IH] using lact_ind2; intro Hc; cbn [lin_act]; auto.
    destruct Hc as [Hc|[]]. apply keeps_ctx_none; [exact Hc|]. apply keeps_list. intros a Hin.
    rewrite Forall_forall in IH. apply IH; auto.
  Qed.

  Lemma solve_by_keeps : forall p dr ct nl ln subs parent b l,
    placed parent (Grp p dr ct nl ln subs) b -> NoDup (paths (Grp p dr ct nl ln subs)) ->
    (dr = "" \/ Forall plain_lin l) ->
    (forall x bx, In x subs -> placed b x bx -> keeps (below x) (in_place b x) bx (solve_lin raises x)) ->
    keeps (fun q => In q (flat_map paths subs)) (in_place parent (Grp p dr ct nl ln subs)) b
      (solve_lin_by raises (Grp p dr ct nl ln subs) l).
  Proof.
    intros p dr ct nl ln subs parent b l Hp Hn Hpl Hsub. pose proof Hp as Hp'. inversion Hp'; subst.
    inversion Hn; subst. cbn [solve_lin_by].
    assert (Happ : forall x, In x subs -> keeps (fun q => In q (flat_map paths subs))
      (in_place parent (Grp p dr (if String.eqb dr "" then None else Some b) nl ln subs)) b (apply_lin raises x)).
    { intros x Hx. match goal with H : forall s, In s subs -> exists _, placed _ _ _ |- _ => destruct (H x Hx) as [bx Hbx] end.
      eapply keeps_impl; [eapply apply_lin_keeps; exact Hbx|intros ? []|].
      intros e He. eapply apply_sub_in_place; eassumption. }
    assert (Hsol : forall x, In x subs -> keeps (fun q => In q (flat_map paths subs))
      (in_place parent (Grp p dr (if String.eqb dr "" then None else Some b) nl ln subs)) b
      (with_ctx x (solve_lin raises x))).
    { intros x Hx. match goal with H : forall s, In s subs -> exists _, placed _ _ _ |- _ => destruct (H x Hx) as [bx Hbx] end.
      destruct (nodup_sub subs x) as [Nx Bx]; auto.
      eapply keeps_impl; [eapply (keeps_enter b x bx b); [exact Hbx|exact Nx|eapply sub_cond; exact Hbx|apply Hsub; eassumption]|exact Bx|].
      intros e He. eapply in_place_lift; eassumption. }
    apply keeps_list. intros a Ha. apply lin_act_keeps.
    - destruct Hpl as [->|Hpl]; [left; reflexivity|right]. rewrite Forall_forall in Hpl. auto.
    - apply keeps_list. intros x Hx. apply keeps_andthen; auto.
    - apply keeps_rev. intros x Hx. apply keeps_andthen; auto.
    - cbn [apply_lin]. apply keeps_list. exact Happ.
  Qed.

  Lemma dir_cases : forall dr : string, dr = "" \/ dr <> "".
  Proof. intros [|a d]; [left; reflexivity|right; discriminate]. Qed.

  Lemma solve_lin_keeps : forall s parent b, placed parent s b -> NoDup (paths s) -> plain_solvers s ->
    keeps (below s) (in_place parent s) b (solve_lin raises s).
  Proof.
    induction s as [p dr ct r|p dr ct nl ln subs IH] using sys_ind2; intros parent b Hp Hn Hpl.
    - inversion Hp; subst. cbn [solve_lin]. apply keeps_call. exists b. split; [constructor; assumption|]. cbn. auto.
    - inversion Hpl; subst. rewrite Forall_forall in IH.
      change (solve_lin raises (Grp p dr ct nl ln subs)) with (solve_lin_by raises (Grp p dr ct nl ln subs) ln).
      apply solve_by_keeps; auto.
      + destruct (dir_cases dr) as [E|E]; [left; exact E|right]. match goal with H : dr <> "" -> _ |- _ => apply (H E) end.
      + intros x bx Hx Hbx. inversion Hn; subst. destruct (nodup_sub subs x) as [Nx _]; auto.
  Qed.

  Lemma solve_nl_keeps : forall s parent b, placed parent s b -> NoDup (paths s) -> plain_solvers s ->
    keeps (below s) (in_place parent s) b (solve_nl raises s).
  Proof.
    induction s as [p dr ct r|p dr ct nl ln subs IH] using sys_ind2; intros parent b Hp Hn Hpl.
    - inversion Hp; subst. cbn [solve_nl]. apply keeps_call. exists b. split; [constructor; assumption|]. cbn. auto.
    - pose proof Hp as Hp'. inversion Hp'; subst. inversion Hpl; subst. rewrite Forall_forall in IH.
      pose proof Hn as Hn'. inversion Hn'; subst. cbn [solve_nl]. apply keeps_list. intros a Ha.
      assert (Hch : keeps (below (Grp p dr (if String.eqb dr "" then None else Some b) nl ln subs))
        (in_place parent (Grp p dr (if String.eqb dr "" then None else Some b) nl ln subs)) b
        (run_list (fun sub => with_ctx sub (solve_nl raises sub)) subs)).
      { apply keeps_list. intros x Hx.
        match goal with H : forall s, In s subs -> exists _, placed _ _ _ |- _ => destruct (H x Hx) as [bx Hbx] end.
        destruct (nodup_sub subs x) as [Nx Bx]; auto.
        eapply keeps_impl; [eapply (keeps_enter b x bx b); [exact Hbx|exact Nx|eapply sub_cond; exact Hbx|]|exact Bx|].
        + apply (IH x Hx b bx Hbx Nx). auto.
        + intros e He. eapply in_place_lift; eassumption. }
      destruct a as [| | |l]; cbn [nl_act].
      + exact Hch.
      + eapply keeps_impl; [eapply apply_nl_keeps; exact Hp|intros ? []|].
        intros e He. eapply apply_in_place; [|exact He]. cbn. assumption.
      + assert (E : dr = "").
        { destruct (dir_cases dr) as [E|E]; [exact E|]. exfalso.
          match goal with H : dr <> "" -> _ |- _ => destruct (H E) as [F _] end.
          rewrite Forall_forall in F. exact (F NLin Ha). }
        subst dr. cbn [String.eqb sys_linearize]. apply keeps_ctx_none; [reflexivity|].
        apply keeps_list. intros x Hx.
        match goal with H : forall s, In s subs -> exists _, placed _ _ _ |- _ => destruct (H x Hx) as [bx Hbx] end.
        destruct (nodup_sub subs x) as [Nx Bx]; auto.
        eapply keeps_impl; [apply (linearize_keeps x b bx b Hbx Nx); eapply sub_cond; exact Hbx|exact Bx|].
        intros e He. eapply in_place_lift; eassumption.
      + assert (E : dr = "").
        { destruct (dir_cases dr) as [E|E]; [exact E|]. exfalso.
          match goal with H : dr <> "" -> _ |- _ => destruct (H E) as [F _] end.
          rewrite Forall_forall in F. exact (F (NSolveLin l) Ha). }
        subst dr. cbn [String.eqb] in *. apply keeps_ctx_none; [reflexivity|].
        apply solve_by_keeps; auto.
        intros x bx Hx Hbx. destruct (nodup_sub subs x) as [Nx _]; auto. apply solve_lin_keeps; auto.
  Qed.

  (** a script *)
  Lemma top_keeps : forall root parent b c t, placed parent root b -> NoDup (paths root) -> plain_solvers root ->
    (s_dir root = "" -> c = b) -> tame root t ->
    keeps (fun p => In p (paths root)) (in_place parent root) c (do_top raises root t).
  Proof.
    intros root parent b c t Hp Hn Hpl Hc Ht. destruct (paths_split root Hn) as [Hns Hsub].
    assert (Hap : keeps (below root) (in_place parent root) b (apply_nl raises root)).
    { eapply keeps_impl; [eapply apply_nl_keeps; exact Hp|intros ? []|].
      intros e He. eapply apply_in_place; [eapply placed_sub_dir; exact Hp|exact He]. }
    destruct t as [| |n]; cbn [do_top].
    - eapply keeps_enter; eauto. apply solve_nl_keeps; auto.
    - apply keeps_andthen; eapply keeps_enter; eauto. apply solve_nl_keeps; auto.
    - cbn in Ht. specialize (Hc Ht). subst c. apply keeps_ctx_none.
      + rewrite (placed_ctx _ _ _ Hp), Ht. reflexivity.
      + apply keeps_andthen; [eapply linearize_keeps; eauto|]. apply keeps_times.
        eapply keeps_impl; [apply solve_lin_keeps; eassumption|exact Hsub|auto].
  Qed.

  Lemma tops_keeps : forall root parent b ts w, placed parent root b -> NoDup (paths root) -> plain_solvers root ->
    (s_dir root = "" -> w_cwd w = b) -> Forall (tame root) ts ->
    w_cwd (do_tops raises root ts w) = w_cwd w /\
    exists l, w_log (do_tops raises root ts w) = (w_log w ++ l)%list /\ Forall (in_place parent root) l.
  Proof.
    induction ts as [|t ts IH]; intros w Hp Hn Hpl Hc Ht; cbn [do_tops].
    - split; [reflexivity|]. exists []. rewrite app_nil_r. auto.
    - inversion Ht; subst. destruct (top_keeps root parent b (w_cwd w) t Hp Hn Hpl Hc H1 w eq_refl) as (A & _ & l & B & C).
      destruct (IH (fst (do_top raises root t w)) Hp Hn Hpl) as (A' & l' & B' & C'); auto.
      { intro E. rewrite A. auto. }
      split; [congruence|]. exists (l ++ l')%list. rewrite B', B, app_assoc. split; [reflexivity|]. apply Forall_app; auto.
  Qed.

  (** gradients with a directory on the root *)
  Lemma grad_leaks : forall root parent b n w, placed parent root b -> NoDup (paths root) -> plain_solvers root ->
    s_dir root <> "" -> w_cwd (fst (do_top raises root (TGrad n) w)) = b.
  Proof.
    intros root parent b n w Hp Hn Hpl Hd. destruct (paths_split root Hn) as [Hns Hsub].
    pose proof (placed_ctx _ _ _ Hp) as Ec. destruct (String.eqb (s_dir root) "") eqn:E;
      [apply String.eqb_eq in E; contradiction|]. clear E.
    cbn [do_top]. unfold with_ctx at 1. rewrite Ec.
    set (w1 := mkW b (sset (w_start w) (s_path root) (w_cwd w)) (w_log w)).
    assert (HL : exists f, keeps (below root) (in_place parent root) b f /\ sys_linearize raises root = with_ctx root f).
    { pose proof Hp as Hp'. destruct root as [p dr ct r|p dr ct nl ln subs]; inversion Hp'; subst; cbn [sys_linearize].
      - eexists. split; [|reflexivity]. apply keeps_call. exists b. split; [constructor; assumption|]. cbn. auto.
      - eexists. split; [|reflexivity]. apply keeps_list. intros x Hx.
        inversion Hn; subst. destruct (nodup_sub subs x) as [Nx Bx]; auto.
        match goal with H : forall s, In s subs -> exists _, placed _ _ _ |- _ => destruct (H x Hx) as [bx Hbx] end.
        eapply keeps_impl; [apply (linearize_keeps x b bx b Hbx Nx); eapply sub_cond; exact Hbx|exact Bx|].
        intros e He. eapply in_place_lift; eassumption. }
    destruct HL as (f & Hf & EL). rewrite EL. unfold andthen, with_ctx. rewrite Ec.
    set (w2 := mkW b (sset (w_start w1) (s_path root) (w_cwd w1)) (w_log w1)).
    destruct (Hf w2 eq_refl) as (A & B & _). specialize (B _ Hns).
    destruct (f w2) as [w3 ok]. cbn [fst] in *. unfold w2 in B. cbn [w_start] in B.
    rewrite sget_sset, String.eqb_refl in B. rewrite B. cbn [w_cwd w1].
    destruct ok.
    - assert (K : keeps (below root) (in_place parent root) b (times n (solve_lin raises root))).
      { apply keeps_times. apply solve_lin_keeps; auto. }
      set (w4 := mkW b (w_start w3) (w_log w3)).
      destruct (K w4 eq_refl) as (_ & B' & _). specialize (B' _ Hns).
      destruct (times n (solve_lin raises root) w4) as [w5 ok5]. cbn [fst w_cwd] in *.
      rewrite B'. cbn [w4 w_start]. rewrite B. reflexivity.
    - cbn [fst w_cwd w_start]. rewrite B. reflexivity.
  Qed.
End Run.

(** ** Without exceptions every component is called *)
Definition never : nat -> bool := fun _ => false.

Definition logs (X : string -> meth -> Prop) (f : prog) : Prop :=
  forall w, snd (f w) = true /\
    exists l, w_log (fst (f w)) = (w_log w ++ l)%list /\ forall c m, X c m -> exists d, In (c, m, d) l.

Lemma logs_impl : forall (X Y : string -> meth -> Prop) f, logs X f -> (forall c m, Y c m -> X c m) -> logs Y f.
Proof. intros X Y f H HI w. destruct (H w) as (A & l & B & C). split; [exact A|]. exists l. auto. Qed.
Lemma logs_skip : logs (fun _ _ => False) skip.
Proof. intro w. split; [reflexivity|]. exists []. rewrite app_nil_r. split; [reflexivity|]. intros c m []. Qed.
Lemma logs_andthen : forall X Y f g, logs X f -> logs Y g -> logs (fun c m => X c m \/ Y c m) (andthen f g).
Proof.
  intros X Y f g Hf Hg w. unfold andthen. destruct (Hf w) as (A & l & B & C). destruct (f w) as [w1 ok]. cbn [fst snd] in *.
  rewrite A. destruct (Hg w1) as (A' & l' & B' & C'). split; [exact A'|]. exists (l ++ l')%list.
  rewrite B', B, app_assoc. split; [reflexivity|]. intros c m [H|H].
  - destruct (C _ _ H) as [d Hd]. exists d. apply in_or_app. auto.
  - destruct (C' _ _ H) as [d Hd]. exists d. apply in_or_app. auto.
Qed.
Lemma logs_list : forall {A} (X : A -> string -> meth -> Prop) (f : A -> prog) l, (forall a, In a l -> logs (X a) (f a)) ->
  logs (fun c m => exists a, In a l /\ X a c m) (run_list f l).
Proof.
  induction l as [|a l IH]; intro H; cbn [run_list].
  - eapply logs_impl; [apply logs_skip|]. intros c m (a & [] & _).
  - eapply logs_impl; [apply logs_andthen; [apply H; left; reflexivity|apply IH; intros; apply H; right; assumption]|].
    intros c m (b & [->|Hb] & HX); [left; exact HX|right; eauto].
Qed.
Lemma logs_rev : forall {A} (X : A -> string -> meth -> Prop) (f : A -> prog) l, (forall a, In a l -> logs (X a) (f a)) ->
  logs (fun c m => exists a, In a l /\ X a c m) (run_rev f l).
Proof.
  induction l as [|a l IH]; intro H; cbn [run_rev].
  - eapply logs_impl; [apply logs_skip|]. intros c m (a & [] & _).
  - eapply logs_impl; [apply logs_andthen; [apply IH; intros; apply H; right; assumption|apply H; left; reflexivity]|].
    intros c m (b & [->|Hb] & HX); [right; exact HX|left; eauto].
Qed.
Lemma logs_call : forall p m, logs (fun c m' => c = p /\ m' = m) (call never p m).
Proof.
  intros p m w. split; [reflexivity|]. exists [(p, m, w_cwd w)]. split; [reflexivity|].
  intros c m' [-> ->]. exists (w_cwd w). left. reflexivity.
Qed.
Lemma logs_ctx : forall X s f, logs X f -> logs X (with_ctx s f).
Proof.
  intros X s f H w. unfold with_ctx. destruct (s_ctx s) as [d|]; [|apply H].
  destruct (H (mkW d (sset (w_start w) (s_path s) (w_cwd w)) (w_log w))) as (A & l & B & C).
  destruct (f (mkW d (sset (w_start w) (s_path s) (w_cwd w)) (w_log w))) as [w2 ok]. cbn [fst snd w_log] in *.
  split; [exact A|]. exists l. auto.
Qed.
Lemma logs_times : forall X f n, logs X f -> logs (fun c m => (0 < n)%nat /\ X c m) (times n f).
Proof.
  induction n; intro H; cbn [times].
  - eapply logs_impl; [apply logs_skip|]. intros c m [H0 _]. inversion H0.
  - eapply logs_impl; [apply logs_andthen; [exact H|apply IHn; exact H]|]. intros c m [_ HX]. left. exact HX.
Qed.

(** no claim about what is called *)
Definition quiet (f : prog) : Prop := logs (fun _ _ => False) f.
Lemma quiet_of : forall X f, logs X f -> quiet f.
Proof. intros X f H. eapply logs_impl; [exact H|]. intros c m []. Qed.
Lemma quiet_list : forall {A} (f : A -> prog) l, (forall a, In a l -> quiet (f a)) -> quiet (run_list f l).
Proof. intros A f l H. eapply quiet_of. apply (logs_list (fun _ _ _ => False)). exact H. Qed.
Lemma quiet_rev : forall {A} (f : A -> prog) l, (forall a, In a l -> quiet (f a)) -> quiet (run_rev f l).
Proof. intros A f l H. eapply quiet_of. apply (logs_rev (fun _ _ _ => False)). exact H. Qed.
Lemma quiet_andthen : forall f g, quiet f -> quiet g -> quiet (andthen f g).
Proof. intros f g Hf Hg. eapply quiet_of. apply logs_andthen; eassumption. Qed.
Lemma quiet_call : forall p m, quiet (call never p m).
Proof. intros p m. eapply quiet_of. apply logs_call. Qed.
Lemma quiet_skip : quiet skip. Proof. exact logs_skip. Qed.

Lemma quiet_apply_nl : forall s, quiet (apply_nl never s).
Proof.
  induction s as [p d c r|p d c nl ln subs IH] using sys_ind2; cbn [apply_nl]; [apply quiet_call|].
  rewrite Forall_forall in IH. apply quiet_list. intros x Hx. destruct (s_run_apply x); [auto|apply quiet_skip].
Qed.
Lemma quiet_apply_lin : forall s, quiet (apply_lin never s).
Proof.
  induction s as [p d c r|p d c nl ln subs IH] using sys_ind2; cbn [apply_lin]; [apply quiet_call|].
  rewrite Forall_forall in IH. apply quiet_list. auto.
Qed.

(** the components of a tree *)
Inductive leaf : sys -> string -> Prop :=
| leaf_comp : forall p d c r, leaf (Comp p d c r) p
| leaf_grp : forall p d c nl ln subs x q, In x subs -> leaf x q -> leaf (Grp p d c nl ln subs) q.

Lemma logs_linearize : forall s, logs (fun c m => leaf s c /\ m = MLin) (sys_linearize never s).
Proof.
  induction s as [p d c r|p d c nl ln subs IH] using sys_ind2; cbn [sys_linearize]; apply logs_ctx.
  - eapply logs_impl; [apply logs_call|]. intros q m [H ->]. inversion H; subst. auto.
  - rewrite Forall_forall in IH.
    eapply logs_impl; [apply (logs_list (fun x q m => leaf x q /\ m = MLin)); exact IH|].
    intros q m [H ->]. inversion H; subst. eauto.
Qed.

Lemma quiet_lin_act : forall s fwd bwd a, quiet fwd -> quiet bwd -> quiet (lin_act never s fwd bwd a).
Proof.
  intros s fwd bwd a Hf Hb. induction a as [| | |l IH] using lact_ind2; cbn [lin_act]; auto.
  - apply quiet_apply_lin.
  - apply logs_ctx. rewrite Forall_forall in IH. apply quiet_list. auto.
Qed.

(** the linear solver makes a pass over the subsystems *)
Lemma logs_solve_by : forall p d c nl ln subs l (X : sys -> string -> meth -> Prop),
  (forall x, In x subs -> logs (X x) (solve_lin never x)) ->
  In LForward l \/ In LReverse l ->
  logs (fun q m => exists x, In x subs /\ X x q m) (solve_lin_by never (Grp p d c nl ln subs) l).
Proof.
  intros p d c nl ln subs l X H Hl. cbn [solve_lin_by].
  set (s := Grp p d c nl ln subs).
  assert (F : logs (fun q m => exists x, In x subs /\ X x q m)
    (run_list (fun sub => fwd_step never sub (solve_lin never sub)) subs)).
  { apply (logs_list X). intros x Hx. eapply logs_impl; [apply logs_andthen; [apply quiet_apply_lin|apply logs_ctx; apply H; exact Hx]|].
    intros q m HX. right. exact HX. }
  assert (B : logs (fun q m => exists x, In x subs /\ X x q m)
    (run_rev (fun sub => bwd_step never sub (solve_lin never sub)) subs)).
  { apply (logs_rev X). intros x Hx. eapply logs_impl; [apply logs_andthen; [apply logs_ctx; apply H; exact Hx|apply quiet_apply_lin]|].
    intros q m HX. left. exact HX. }
  set (fw := run_list _ subs) in *. set (bw := run_rev _ subs) in *.
  eapply logs_impl; [apply (logs_list (fun a q m => (a = LForward \/ a = LReverse) /\ exists x, In x subs /\ X x q m))|].
  - intros a _. destruct a as [| | |l'].
    + eapply logs_impl; [apply quiet_apply_lin|]. intros q m [[E|E] _]; discriminate.
    + eapply logs_impl; [exact F|]. intros q m [_ E]. exact E.
    + eapply logs_impl; [exact B|]. intros q m [_ E]. exact E.
    + eapply logs_impl; [apply quiet_lin_act; eapply quiet_of; eassumption|]. intros q m [[E|E] _]; discriminate.
  - intros q m HX. cbn. destruct Hl as [Hl|Hl]; [exists LForward|exists LReverse]; auto.
Qed.

Lemma quiet_solve_lin : forall s, quiet (solve_lin never s).
Proof.
  induction s as [p d c r|p d c nl ln subs IH] using sys_ind2; cbn [solve_lin]; [apply quiet_call|].
  rewrite Forall_forall in IH. apply quiet_list. intros a _. apply quiet_lin_act.
  - apply quiet_list. intros x Hx. apply quiet_andthen; [apply quiet_apply_lin|apply logs_ctx; apply (IH x Hx)].
  - apply quiet_rev. intros x Hx. apply quiet_andthen; [apply logs_ctx; apply (IH x Hx)|apply quiet_apply_lin].
Qed.
Lemma quiet_solve_by : forall s l, quiet (solve_lin_by never s l).
Proof.
  intros [p d c r|p d c nl ln subs] l; cbn [solve_lin_by]; [apply quiet_call|].
  apply quiet_list. intros a _. apply quiet_lin_act.
  - apply quiet_list. intros x Hx. apply quiet_andthen; [apply quiet_apply_lin|apply logs_ctx; apply quiet_solve_lin].
  - apply quiet_rev. intros x Hx. apply quiet_andthen; [apply logs_ctx; apply quiet_solve_lin|apply quiet_apply_lin].
Qed.

Lemma logs_solve_lin : forall s, lin_passes s -> logs (fun c m => leaf s c /\ m = MSolveLin) (solve_lin never s).
Proof.
  induction s as [p d c r|p d c nl ln subs IH] using sys_ind2; intro Hs.
  - cbn [solve_lin]. eapply logs_impl; [apply logs_call|]. intros q m [H ->]. inversion H; subst. auto.
  - inversion Hs; subst. rewrite Forall_forall in IH.
    change (solve_lin never (Grp p d c nl ln subs)) with (solve_lin_by never (Grp p d c nl ln subs) ln).
    eapply logs_impl; [apply (logs_solve_by p d c nl ln subs ln (fun x q m => leaf x q /\ m = MSolveLin)); auto|].
    intros q m [H ->]. inversion H; subst. eauto.
Qed.

Lemma logs_solve_nl : forall s, nl_passes s -> logs (fun c m => leaf s c /\ m = MSolve) (solve_nl never s).
Proof.
  induction s as [p d c r|p d c nl ln subs IH] using sys_ind2; intro Hs.
  - cbn [solve_nl]. eapply logs_impl; [apply logs_call|]. intros q m [H ->]. inversion H; subst. auto.
  - inversion Hs; subst. rewrite Forall_forall in IH. cbn [solve_nl].
    assert (C : logs (fun q m => exists x, In x subs /\ leaf x q /\ m = MSolve)
      (run_list (fun sub => with_ctx sub (solve_nl never sub)) subs)).
    { apply (logs_list (fun x q m => leaf x q /\ m = MSolve)). intros x Hx. apply logs_ctx. auto. }
    set (ch := run_list _ subs) in *.
    eapply logs_impl; [apply (logs_list (fun a q m => a = NChildren /\ exists x, In x subs /\ leaf x q /\ m = MSolve))|].
    + intros a _. destruct a as [| | |l]; cbn [nl_act].
      * eapply logs_impl; [exact C|]. intros q m [_ E]. exact E.
      * eapply logs_impl; [apply quiet_apply_nl|]. intros q m [E _]; discriminate.
      * eapply logs_impl; [eapply quiet_of; apply logs_linearize|]. intros q m [E _]; discriminate.
      * eapply logs_impl; [apply logs_ctx; apply quiet_solve_by|]. intros q m [E _]; discriminate.
    + intros q m [H ->]. inversion H; subst. cbn. exists NChildren. split; [assumption|]. eauto 7.
Qed.

Lemma setup_leaf : forall s parent q, leaf s q -> leaf (setup parent s) q.
Proof.
  induction s as [p d c r|p d c nl ln subs IH] using sys_ind2; intros parent q H; inversion H; subst; cbn.
  - constructor.
  - destruct (setup_dir parent d c) as [ab c']. rewrite Forall_forall in IH.
    econstructor; [apply in_map; eassumption|auto].
Qed.
Lemma setup_nl_passes : forall s parent, nl_passes s -> nl_passes (setup parent s).
Proof.
  induction s as [p d c r|p d c nl ln subs IH] using sys_ind2; intros parent H; inversion H; subst; cbn; [constructor|].
  destruct (setup_dir parent d c) as [ab c']. rewrite Forall_forall in IH. constructor; [assumption|].
  intros s Hs. apply in_map_iff in Hs. destruct Hs as (x & <- & Hx). auto.
Qed.
Lemma setup_lin_passes : forall s parent, lin_passes s -> lin_passes (setup parent s).
Proof.
  induction s as [p d c r|p d c nl ln subs IH] using sys_ind2; intros parent H; inversion H; subst; cbn; [constructor|].
  destruct (setup_dir parent d c) as [ab c']. rewrite Forall_forall in IH. constructor; [assumption|].
  intros s Hs. apply in_map_iff in Hs. destruct Hs as (x & <- & Hx). auto.
Qed.

Lemma lives_leaf : forall s parent c d, lives parent s c d -> leaf s c.
Proof.
  induction s as [p dr ct r|p dr ct nl ln subs IH] using sys_ind2; intros parent c d H; inversion H; subst;
    [constructor|]. rewrite Forall_forall in IH. econstructor; eauto.
Qed.
Lemma leaf_path : forall s c, leaf s c -> In c (paths s).
Proof.
  induction s as [p dr ct r|p dr ct nl ln subs IH] using sys_ind2; intros c H; inversion H; subst; [left; reflexivity|].
  rewrite Forall_forall in IH. right. apply in_flat_map. eauto.
Qed.

Lemma nodup_same : forall (subs : list sys) x y q, NoDup (flat_map paths subs) -> In x subs -> In y subs ->
  In q (paths x) -> In q (paths y) -> x = y.
Proof.
  induction subs as [|z subs IH]; intros x y q Hn Hx Hy Qx Qy; [destruct Hx|]. cbn in Hn.
  assert (D : forall l1 l2 : list string, NoDup (l1 ++ l2) -> In q l1 -> In q l2 -> False).
  { induction l1 as [|a l1 IH1]; intros l2 N I1 I2; [destruct I1|]. cbn in N. inversion N; subst.
    destruct I1 as [->|I1]; [apply H1; apply in_or_app; auto|eauto]. }
  assert (T : forall l1 l2 : list string, NoDup (l1 ++ l2) -> NoDup l2).
  { induction l1 as [|a l1 IH1]; intros l2 N; [exact N|]. cbn in N. inversion N; subst. auto. }
  destruct Hx as [->|Hx], Hy as [->|Hy]; auto.
  - exfalso. eapply D; [exact Hn|exact Qx|]. apply in_flat_map. eauto.
  - exfalso. eapply D; [exact Hn|exact Qy|]. apply in_flat_map. eauto.
  - eapply IH; eauto.
Qed.

Lemma lives_det : forall s parent c d d', NoDup (paths s) -> lives parent s c d -> lives parent s c d' -> d = d'.
Proof.
  induction s as [p dr ct r|p dr ct nl ln subs IH] using sys_ind2; intros parent c d d' Hn H1 H2;
    inversion H1; subst; inversion H2; subst.
  - eapply sub_dir_det; eassumption.
  - match goal with A : sub_dir parent dr ?x, B : sub_dir parent dr ?y |- _ =>
      assert (x = y) by (eapply sub_dir_det; eassumption) end. subst.
    inversion Hn; subst.
    match goal with A : lives _ ?x c d, B : lives _ ?y c d' |- _ =>
      assert (x = y) by (eapply (nodup_same subs x y c); eauto using leaf_path, lives_leaf) end. subst.
    rewrite Forall_forall in IH. eapply IH; eauto. eapply nodup_sub; eauto.
Qed.

(** C105: working directories of systems. *)
From Verif Require Import Base BaseFacts DirModel DirSpec DirProofs.
Local Open Scope string_scope.

(** Whatever a script does with the model, and whichever calls raise, the
    process is back in its directory afterwards, and every component was run,
    linearized and solved in the directory of its place in the tree. *)
Theorem C105_run : forall raises root parent ts w,
  NoDup (paths root) -> no_stale root -> plain_solvers root ->
  (s_dir root = "" -> w_cwd w = parent) ->
  Forall (tame root) ts ->
  w_cwd (do_tops raises (setup parent root) ts w) = w_cwd w /\
  exists l, w_log (do_tops raises (setup parent root) ts w) = (w_log w ++ l)%list /\
            Forall (in_place parent root) l.
Proof.
  intros raises root parent ts w Hn Hs Hp Hc Ht.
  destruct (setup_placed root parent Hs) as [b Hb].
  destruct (tops_keeps raises (setup parent root) parent b ts w Hb) as (A & l & B & C).
  - rewrite setup_paths. exact Hn.
  - apply setup_plain. exact Hp.
  - rewrite (proj2 (setup_fields parent root)). intro E. rewrite (Hc E).
    apply placed_sub_dir in Hb. rewrite (proj2 (setup_fields parent root)), E in Hb.
    eapply sub_dir_det; [constructor|exact Hb].
  - eapply Forall_impl; [|exact Ht]. intros t H. destruct t; cbn in *; auto.
    rewrite (proj2 (setup_fields parent root)). exact H.
  - split; [exact A|]. exists l. split; [exact B|]. eapply Forall_impl; [|exact C].
    intros e (d & L & H). exists d. split; [eapply setup_lives; exact L|].
    intros [R|F]; apply H; [left; exact R|right; apply setup_flat; exact F].
Qed.
Print Assumptions C105_run.

(** Without exceptions every component is run, and linearized, there. *)
Theorem C105_all : forall root parent n w c d,
  NoDup (paths root) -> no_stale root -> plain_solvers root ->
  (s_dir root = "" -> w_cwd w = parent) -> lives parent root c d ->
  (nl_passes root -> exists l, w_log (do_tops never (setup parent root) [TRun] w) = (w_log w ++ l)%list /\
     In (c, MSolve, d) l) /\
  (s_dir root = "" -> exists l, w_log (do_tops never (setup parent root) [TGrad n] w) = (w_log w ++ l)%list /\
     In (c, MLin, d) l) /\
  (s_dir root = "" -> lin_passes root -> (0 < n)%nat ->
   exists l, w_log (do_tops never (setup parent root) [TGrad n] w) = (w_log w ++ l)%list /\
     In (c, MSolveLin, d) l).
Proof.
  intros root parent n w c d Hn Hs Hp Hc HL.
  assert (K : forall t m, tame root t -> runs m -> (exists X, logs X (do_top never (setup parent root) t) /\ X c m) ->
    exists l, w_log (do_tops never (setup parent root) [t] w) = (w_log w ++ l)%list /\ In (c, m, d) l).
  { intros t m Ht Hr (X & HX & HXc).
    destruct (C105_run never root parent [t] w Hn Hs Hp Hc) as (_ & l & B & C); [auto|].
    exists l. split; [exact B|]. cbn [do_tops] in B. destruct (HX w) as (_ & l' & B' & C').
    rewrite B' in B. apply app_inv_head in B. subst l'. destruct (C' _ _ HXc) as [d' Hd].
    rewrite Forall_forall in C. destruct (C _ Hd) as (d2 & L2 & E). cbn [fst snd] in *.
    rewrite (E (or_introl Hr)) in Hd. rewrite (lives_det root parent c d d2 Hn HL L2). exact Hd. }
  pose proof (setup_leaf root parent c (lives_leaf _ _ _ _ HL)) as HF. unfold runs in K.
  split; [|split].
  - intro Hnl. apply K; [exact I|auto|]. eexists. split; [apply logs_ctx; apply logs_solve_nl; apply setup_nl_passes; exact Hnl|].
    cbn. auto.
  - intro E. apply K; [exact E|auto|]. eexists. split; [apply logs_ctx; apply logs_andthen; [apply logs_linearize|]|].
    + apply logs_times. apply quiet_solve_lin.
    + cbn. auto.
  - intros E Hl Hlt. apply K; [exact E|auto|]. eexists. split; [apply logs_ctx; apply logs_andthen; [apply logs_linearize|]|].
    + apply logs_times. apply logs_solve_lin. apply setup_lin_passes. exact Hl.
    + cbn. auto.
Qed.
Print Assumptions C105_all.

(** A context keeps the directory to return to on the context object, so one
    entered twice forgets it. calc_gradient does that to the root: a model
    whose root has a directory always leaves the process there. *)
Theorem C105_gradient_refuted : forall raises root parent n w base,
  NoDup (paths root) -> no_stale root -> plain_solvers root ->
  s_dir root <> "" -> sub_dir parent (s_dir root) base ->
  w_cwd (do_tops raises (setup parent root) [TGrad n] w) = base.
Proof.
  intros raises root parent n w base Hn Hs Hp Hd Hb. cbn [do_tops].
  destruct (setup_placed root parent Hs) as [b Hpl].
  rewrite (grad_leaks raises (setup parent root) parent b n w Hpl).
  - apply placed_sub_dir in Hpl. rewrite (proj2 (setup_fields parent root)) in Hpl.
    eapply sub_dir_det; eassumption.
  - rewrite setup_paths. exact Hn.
  - apply setup_plain. exact Hp.
  - rewrite (proj2 (setup_fields parent root)). exact Hd.
Qed.
Print Assumptions C105_gradient_refuted.

(** a model: a group g in directory "n" with two components, one with an
    absolute directory, and a component h without directory *)
Definition ex_root (nl : list nact) (ln : list lact) : sys :=
  Grp "" "" None [NChildren; NApply] [LForward]
    [ Grp "g" "n" None nl ln
        [ Comp "g.a" "" None true; Comp "g.b" "/abs" None false; Comp "g.c" "sub" None true ];
      Comp "h" "" None true ].
Definition ex_w (cwd : string) : world := mkW cwd [] [].

Ltac ex_in := repeat (match goal with H : In _ (_ :: _) |- _ => destruct H as [<-|H] end || match goal with H : In _ [] |- _ => destruct H end).

Lemma ex_stale : forall nl ln, no_stale (ex_root nl ln).
Proof.
  intros nl ln. unfold ex_root. repeat (constructor; [auto|]); intros s H.
  ex_in; repeat (constructor; auto). intros s H. ex_in; constructor; auto.
Qed.
Lemma ex_nodup : forall nl ln, NoDup (paths (ex_root nl ln)).
Proof.
  intros nl ln. cbn. repeat constructor; cbn; intro H; repeat (destruct H as [H|H]; try discriminate H); exact H.
Qed.

Example C105_case : forall raises,
  let root := ex_root [NChildren; NApply; NChildren] [LForward; LReverse; LApply] in
  NoDup (paths root) /\ no_stale root /\ plain_solvers root /\ nl_passes root /\ lin_passes root /\
  w_cwd (do_tops raises (setup "/w" root) [TRunOnce; TGrad 2] (ex_w "/w")) = "/w" /\
  lives "/w" root "g.a" "/w/n" /\ lives "/w" root "g.b" "/abs" /\ lives "/w" root "g.c" "/w/n/sub" /\
  lives "/w" root "h" "/w" /\
  filter (fun e => match snd (fst e) with MSolve => true | _ => false end)
    (w_log (do_tops never (setup "/w" root) [TRun] (ex_w "/w"))) =
  [("g.a", MSolve, "/w/n"); ("g.b", MSolve, "/abs"); ("g.c", MSolve, "/w/n/sub");
   ("g.a", MSolve, "/w/n"); ("g.b", MSolve, "/abs"); ("g.c", MSolve, "/w/n/sub"); ("h", MSolve, "/w")].
Proof.
  intros raises root.
  assert (Hp : plain_solvers root).
  { unfold root, ex_root. constructor; [intros H; exfalso; apply H; reflexivity|].
    intros s H. ex_in; constructor; [|intros s H; ex_in; constructor].
    intros _. split; repeat constructor. }
  split; [apply ex_nodup|]. split; [apply ex_stale|]. split; [exact Hp|].
  split. { unfold root, ex_root. constructor; [cbn; auto|]. intros s H.
           ex_in; constructor; [cbn; auto|]. intros s H. ex_in; constructor. }
  split. { unfold root, ex_root. constructor; [cbn; auto|]. intros s H.
           ex_in; constructor; [cbn; auto|]. intros s H. ex_in; constructor. }
  split. { apply (C105_run raises root "/w" [TRunOnce; TGrad 2] (ex_w "/w")); auto using ex_nodup, ex_stale.
           - apply ex_nodup. - apply ex_stale. - repeat constructor. }
  assert (Sn : sub_dir "/w" "n" "/w/n").
  { apply (sub_rel "/w" "n"); try discriminate; try reflexivity; intros d' H; discriminate H. }
  split; [eapply lives_grp; [constructor|left; reflexivity|]; eapply lives_grp; [exact Sn|left; reflexivity|]; constructor; constructor|].
  split; [eapply lives_grp; [constructor|left; reflexivity|]; eapply lives_grp; [exact Sn|right; left; reflexivity|]; constructor; apply (sub_abs "/w/n" "abs")|].
  split; [eapply lives_grp; [constructor|left; reflexivity|]; eapply lives_grp; [exact Sn|right; right; left; reflexivity|]; constructor;
    apply (sub_rel "/w/n" "sub"); try discriminate; try reflexivity; intros d' H; discriminate H|].
  split; [eapply lives_grp; [constructor|right; left; reflexivity|]; constructor; constructor|].
  vm_compute. reflexivity.
Qed.

(** Newton on the group enters its context again: the next component runs in
    the group's directory, and the script is left there. *)
Theorem C105_newton_refuted :
  let root := ex_root [NChildren; NApply; NLin; NSolveLin [LForward]; NApply] [LForward] in
  let w := do_tops never (setup "/w" root) [TRun] (ex_w "/w") in
  NoDup (paths root) /\ no_stale root /\ lives "/w" root "h" "/w" /\
  In ("h", MSolve, "/w/n") (w_log w) /\ w_cwd w = "/w/n".
Proof.
  cbv zeta. split; [apply ex_nodup|]. split; [apply ex_stale|].
  split; [eapply lives_grp; [constructor|right; left; reflexivity|]; constructor; constructor|].
  vm_compute. split; [|reflexivity]. tauto.
Qed.
Print Assumptions C105_newton_refuted.

(** So does a preconditioner, during the gradients. *)
Theorem C105_precon_refuted :
  let root := ex_root [NChildren] [LPrecon [LForward]; LApply] in
  let w := do_tops never (setup "/w" root) [TGrad 1] (ex_w "/w") in
  NoDup (paths root) /\ no_stale root /\ lives "/w" root "h" "/w" /\
  In ("h", MSolveLin, "/w/n") (w_log w) /\ w_cwd w = "/w/n".
Proof.
  cbv zeta. split; [apply ex_nodup|]. split; [apply ex_stale|].
  split; [eapply lives_grp; [constructor|right; left; reflexivity|]; constructor; constructor|].
  vm_compute. split; [|reflexivity]. tauto.
Qed.
Print Assumptions C105_precon_refuted.

(** Residuals are evaluated in the directory of whoever asks for them: the
    component, which apply_nonlinear runs again if it is explicit, is not in
    its own directory. *)
Theorem C105_apply_refuted :
  let root := ex_root [NChildren] [LForward] in
  let w := do_tops never (setup "/w" root) [TRunOnce] (ex_w "/w") in
  lives "/w" root "g.c" "/w/n/sub" /\ In ("g.c", MSolve, "/w/n/sub") (w_log w) /\
  In ("g.c", MApply, "/w") (w_log w).
Proof.
  cbv zeta. split.
  - eapply lives_grp; [constructor|left; reflexivity|].
    eapply lives_grp; [apply (sub_rel "/w" "n"); try discriminate; try reflexivity; intros d' H; discriminate H
      |right; right; left; reflexivity|]. constructor.
    apply (sub_rel "/w/n" "sub"); try discriminate; try reflexivity; intros d' H; discriminate H.
  - vm_compute. tauto.
Qed.
Print Assumptions C105_apply_refuted.

(** A directory that is taken away before another setup keeps its effect. *)
Definition clear_dir (s : sys) : sys :=
  match s with Comp p _ c r => Comp p "" c r | Grp p _ c nl ln subs => Grp p "" c nl ln subs end.
Theorem C105_stale_refuted : forall parent dir p r w,
  dir <> "" -> lives parent (clear_dir (setup parent (Comp p dir None r))) p parent /\
  exists base, sub_dir parent dir base /\
    w_log (do_tops never (setup parent (clear_dir (setup parent (Comp p dir None r)))) [TRun] w) =
    (w_log w ++ [(p, MSolve, base)])%list.
Proof.
  intros parent dir p r w H. split; [cbn; constructor; constructor|].
  exists (fst (setup_dir parent dir None)). split; [apply sub_dir_setup|].
  cbn. unfold setup_dir. destruct (String.eqb dir "") eqn:E; [apply String.eqb_eq in E; contradiction|]. reflexivity.
Qed.
Print Assumptions C105_stale_refuted.

(** A model without a root directory runs wherever the process is at the time,
    while systems with directories use that of the first setup. *)
Theorem C105_cwd_refuted :
  let root := ex_root [NChildren] [LForward] in
  let w := do_tops never (setup "/w" root) [TRun] (ex_w "/elsewhere") in
  lives "/w" root "h" "/w" /\ In ("h", MSolve, "/elsewhere") (w_log w) /\ In ("g.a", MSolve, "/w/n") (w_log w).
Proof.
  cbv zeta. split; [eapply lives_grp; [constructor|right; left; reflexivity|]; constructor; constructor|].
  vm_compute. tauto.
Qed.
Print Assumptions C105_cwd_refuted.

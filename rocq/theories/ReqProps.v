(** Theorems about processor requirements (C40) and the derivative mode (C38). *)
From Coq Require Import Permutation.
From Verif Require Import Base BaseFacts AllocModel ReqModel ReqSpec ReqProofs.
Local Open Scope string_scope.
Local Open Scope nat_scope.
Local Open Scope list_scope.

(** ** C38 *)
(** The mode is decided exactly when every name is known, and then by argument, by
    option, by size: rev when the inputs are larger than the outputs. The size of a
    list of quantities is the sum over its distinct names (names: any duplicate-free
    list of the names mentioned) of the size of the first variable of that name. *)
Theorem mode_selected : forall arg opt vars ps us pn un, NoDup pn -> NoDup un -> (forall n, In n pn <-> mentioned ps n) -> (forall n, In n un <-> mentioned us n) ->
    (forall n, mentioned ps n \/ mentioned us n -> In n (map fst vars)) ->
    let bigger := list_sum (map (size_of vars) un) < list_sum (map (size_of vars) pn) in
    exists m, mode arg opt vars ps us = Ok m /\
      (forall a, arg = Some a -> m = a) /\ (forall o, arg = None -> opt = Some o -> m = o) /\ (arg = None -> opt = None -> (m = Rev <-> bigger)).
Proof.
  intros arg opt vars ps us pn un NP NU HP HU K bigger. unfold mode.
  destruct (total_size_ok vars (voi_names us) 0 (NoDup_nodup _ _)) as [U1 U2]. destruct (total_size_ok vars (voi_names ps) 0 (NoDup_nodup _ _)) as [P1 P2].
  destruct (total_size vars (voi_names us) 0) as [ul uset]. destruct (total_size vars (voi_names ps) 0) as [pl pset]. cbn [fst snd] in *.
  destruct uset as [|x uset]; [|exfalso; destruct (proj1 (U2 x) (or_introl eq_refl)) as [Q1 Q2]; apply Q2; apply K; right; apply voi_names_iff; exact Q1].
  destruct pset as [|x pset]; [|exfalso; destruct (proj1 (P2 x) (or_introl eq_refl)) as [Q1 Q2]; apply Q2; apply K; left; apply voi_names_iff; exact Q1].
  assert (SUM : forall vs ns, NoDup ns -> (forall n, In n ns <-> mentioned vs n) -> list_sum (map (size_of vars) (voi_names vs)) = list_sum (map (size_of vars) ns)).
  { intros vs ns N H. assert (P : Permutation (voi_names vs) ns) by (apply NoDup_Permutation; [apply NoDup_nodup|exact N|]; intros n; rewrite voi_names_iff, H; reflexivity).
    apply (Permutation_map (size_of vars)) in P. clear -P. induction P; unfold list_sum in *; cbn [fold_right] in *; lia. }
  eexists. split; [reflexivity|]. split; [intros a ->; reflexivity|]. split; [intros o -> ->; reflexivity|]. intros -> ->. unfold bigger. rewrite <- (SUM us un NU HU), <- (SUM ps pn NP HP).
  destruct (Nat.ltb_spec ul pl); split; intros; try reflexivity; try discriminate; lia.
Qed.
Print Assumptions mode_selected.
(** an unknown name is an error whatever mode is asked for *)
Theorem mode_unknown : forall arg opt vars ps us n, mentioned ps n \/ mentioned us n -> ~ In n (map fst vars) -> mode arg opt vars ps us = Err RuntimeError.
Proof.
  intros arg opt vars ps us n H NI. unfold mode.
  destruct (total_size_ok vars (voi_names us) 0 (NoDup_nodup _ _)) as [_ U2]. destruct (total_size_ok vars (voi_names ps) 0 (NoDup_nodup _ _)) as [_ P2].
  destruct (total_size vars (voi_names us) 0) as [ul uset]. destruct (total_size vars (voi_names ps) 0) as [pl pset]. cbn [fst snd] in *.
  destruct H as [H|H]; rewrite <- voi_names_iff in H.
  - assert (In n pset) by (apply P2; auto). destruct uset; [|reflexivity]. destruct pset; [contradiction|reflexivity].
  - assert (In n uset) by (apply U2; auto). destruct uset; [contradiction|reflexivity].
Qed.
Print Assumptions mode_unknown.
(** the sizes are those of whole variables: an input of which k entries are of
    interest counts with its size n, so the mode may be rev with fewer inputs than
    outputs of interest *)
Theorem mode_indices_refuted : exists n k m, k < m /\ k <= n /\ mode None None [("x", n); ("y", m)] [One "x"] [One "y"] = Ok Rev.
Proof. exists 10, 1, 5. repeat split; try lia. Qed.
Print Assumptions mode_indices_refuted.

Example mode_case : let vars := [("y", 3); ("z", 1); ("x", 2); ("x", 7)] in
  mode None None vars [One "x"; Many ["x"; "y"]] [Many ["y"]; One "z"] = Ok Rev /\
  mode None None vars [One "x"] [One "y"; One "y"] = Ok Fwd /\
  mode (Some Fwd) (Some Rev) vars [One "x"; One "y"] [One "z"] = Ok Fwd /\
  mode None (Some Fwd) vars [One "x"; One "y"] [One "z"] = Ok Fwd /\
  mode (Some Fwd) None vars [One "x"; One "w"] [One "z"] = Err RuntimeError.
Proof. repeat split. Qed.

(** ** C40 *)
(** In every hierarchy the reported pair is consistent, *)
Theorem requirements_consistent : forall s, wf_sys s -> consistent (req s).
Proof. exact req_consistent. Qed.
Print Assumptions requirements_consistent.
(** and covers every system below. *)
Theorem requirements_cover : forall s r, wf_sys r -> inside s r -> covers (req r) (req s).
Proof. exact req_covers. Qed.
Print Assumptions requirements_cover.
Theorem driver_requirements : forall mpi k s, 1 <= k -> wf_sys s -> consistent (driver_req mpi k s) /\ covers (driver_req mpi k s) (req s).
Proof.
  intros mpi k s Hk W. pose proof (req_consistent s W) as C. unfold driver_req. destruct mpi; [apply times_req_ok; assumption|]. split; [exact C|apply covers_refl].
Qed.
Print Assumptions driver_requirements.

(** no group asks for more than it can give work to: a parallel group uses as many
    processes as its subsystems together, a group as many as its largest subsystem *)
Theorem requirements_exact : forall l, (forall s, In s l -> wf_sys s) ->
    (forall m, snd (req (SGroup l)) = Some m -> m = 1 \/ exists s, In s l /\ snd (req s) = Some m) /\
    (snd (req (SGroup l)) = None -> exists s, In s l /\ snd (req s) = None) /\
    (fst (req (SGroup l)) = 1 \/ exists s, In s l /\ fst (req s) = fst (req (SGroup l))) /\
    (fst (req (SParallel l)) = 1 \/ exists s, In s l /\ fst (req s) = fst (req (SParallel l))) /\
    (l <> [] -> (forall s, In s l -> snd (req s) <> None) -> snd (req (SParallel l)) = Some (list_sum (map (fun s => match snd (req s) with Some m => m | None => 0 end) l))) /\
    ((exists s, In s l /\ snd (req s) = None) <-> snd (req (SParallel l)) = None).
Proof. exact req_exact. Qed.
Print Assumptions requirements_exact.

Example requirements_case : let s := SParallel [SComp (1, Some 1); SGroup [SComp (2, None); SComp (1, Some 1)]; SParallelFD 3 [SComp (1, Some 2); SComp (1, Some 1)]] in
  wf_sys s /\ req s = (3, None) /\ inside (SComp (2, None)) s /\ req (SParallelFD 3 [SComp (1, Some 2); SComp (1, Some 1)]) = (3, Some 6).
Proof.
  cbv zeta. split; [|split; [reflexivity|split; [|reflexivity]]].
  - apply wf_par. intros s [<-|[<-|[<-|[]]]].
    + apply wf_comp. split; cbn; lia.
    + apply wf_group. intros s [<-|[<-|[]]]; apply wf_comp; split; cbn; try lia; exact I.
    + apply wf_fd; [lia|]. intros s [<-|[<-|[]]]; apply wf_comp; split; cbn; lia.
  - eapply in_par; [right; left; reflexivity|]. eapply in_group; [left; reflexivity|]. apply in_self.
Qed.

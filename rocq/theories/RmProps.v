(** C103: what recorders store when several processes share the variables of
    a system. *)
From Verif Require Import Base BaseFacts RecordModel RecordSpec RecordProofs RmModel RmSpec RmProofs RmProofs2 RmProofs3 RmProofs4.
Local Open Scope string_scope.

Lemma existsb_serial : forall rs : list (rec_opts * bool), rs <> [] ->
    Forall (fun cfg => snd cfg = false) rs -> existsb (fun cfg => negb (snd cfg)) rs = true.
Proof. intros [|cfg rs] N F; [contradiction|]. inversion F; subst. simpl. now rewrite H1. Qed.
Lemma existsb_parallel : forall rs : list (rec_opts * bool),
    Forall (fun cfg => snd cfg = true) rs -> existsb (fun cfg => negb (snd cfg)) rs = false.
Proof. intros rs F. induction F as [|cfg rs E F IH]; simpl; auto. now rewrite E. Qed.
Lemma logs_nth : forall V (ms1 ms : list (mgr V)) k m, map logs ms1 = map logs ms -> nth_error ms k = Some m ->
    exists m1, nth_error ms1 k = Some m1 /\ logs m1 = logs m.
Proof.
  intros V ms1 ms k m E N. assert (X : nth_error (map logs ms1) k = Some (logs m)) by (rewrite E; now apply map_nth_error).
  rewrite nth_error_map in X. destruct (nth_error ms1 k); [|discriminate]. injection X as X. eauto.
Qed.

(** Only serial recorders: after startup every process goes through every
    iteration; on process 0 every recorder has one new entry for each
    iteration, holding each variable its options choose once, with the value
    of the first process that has the variable; on the other processes
    nothing is stored. *)
Theorem C103_serial : forall V matches path pn un lp lu (ms : list (mgr V)) rs worlds its,
    laid_out pn un lp lu -> lp <> [] -> length ms = length lp -> length worlds = length lp ->
    rs <> [] -> Forall (fun cfg => snd cfg = false) rs -> Forall (fun m => config m = rs) ms ->
    (forall k m, nth_error ms k = Some m -> no_stale lp lu k m) ->
    nth_error worlds 0 = Some 0%nat -> (forall k, (0 < k)%nat -> nth_error worlds k <> Some 0%nat) ->
    Forall (fun it => get_pathname (fst it) = path /\ vectors_of lp lu (snd it)) its ->
    exists ms1 ms', startup_all matches lu lp path pn un ms = map Ok ms1 /\
      record_run worlds ms1 its = Some ms' /\ length ms' = length ms /\
      (forall m m' i o, nth_error ms 0 = Some m -> nth_error ms' 0 = Some m' -> nth_error rs i = Some (o, false) ->
         grown (whole_entry matches o pn un) its (log_of m i) (log_of m' i)) /\
      (forall k m m', (0 < k)%nat -> nth_error ms k = Some m -> nth_error ms' k = Some m' -> logs m' = logs m).
Proof.
  intros V matches path pn un lp lu ms rs worlds its L NLP LM LW NRS SER CF NS W0 WK OK.
  destruct (startup_all_ok matches path pn un lp lu L rs true ms LM NS CF) as (ms1 & E1 & RD & LG).
  { apply Forall_forall. intros m _. rewrite existsb_serial by auto. apply orb_true_r. }
  destruct (serial_run matches path pn un lp lu L rs worlds its ms1 RD SER NRS NLP LW W0 WK OK)
    as (ms' & E2 & LE & F0 & FK).
  assert (L1 : length ms1 = length ms) by (destruct RD; congruence).
  exists ms1, ms'. split; [exact E1|]. split; [exact E2|]. split; [congruence|]. split.
  - intros m m' i o M M' C. destruct (logs_nth _ ms1 ms 0 m LG M) as (m1 & M1 & G1).
    destruct (Forall3_nth _ _ _ _ _ _ _ i (o, false) (F0 _ _ M1 M') C) as (r & r' & R & R' & es & X & Y).
    exists es. split.
    + unfold log_of at 2. rewrite <- G1. fold (log_of m1 i). rewrite (log_of_nth _ _ _ _ R), (log_of_nth _ _ _ _ R'). exact X.
    + exact Y.
  - intros k m m' K M M'. destruct (logs_nth _ ms1 ms k m LG M) as (m1 & M1 & G1).
    specialize (FK k m' K M'). congruence.
Qed.
Print Assumptions C103_serial.

(** Only parallel recorders: on every process each recorder has one new entry
    for each iteration, holding the chosen variables that the process is the
    first to have. *)
Theorem C103_parallel : forall V matches path pn un lp lu (ms : list (mgr V)) rs worlds its,
    laid_out pn un lp lu -> lp <> [] -> length ms = length lp -> length worlds = length lp ->
    rs <> [] -> Forall (fun cfg => snd cfg = true) rs -> Forall (fun m => config m = rs) ms ->
    Forall (fun m => mg_serial m = false) ms ->
    (forall k m, nth_error ms k = Some m -> no_stale lp lu k m) ->
    Forall (fun it => get_pathname (fst it) = path /\ vectors_of lp lu (snd it)) its ->
    exists ms1 ms', startup_all matches lu lp path pn un ms = map Ok ms1 /\
      record_run worlds ms1 its = Some ms' /\ length ms' = length ms /\
      (forall k m m' i o, nth_error ms k = Some m -> nth_error ms' k = Some m' -> nth_error rs i = Some (o, true) ->
         grown (share_entry matches o pn un lp lu k) its (log_of m i) (log_of m' i)).
Proof.
  intros V matches path pn un lp lu ms rs worlds its L NLP LM LW NRS PAR CF SF NS OK.
  destruct (startup_all_ok matches path pn un lp lu L rs false ms LM NS CF) as (ms1 & E1 & RD & LG).
  { eapply Forall_impl; [|exact SF]. intros m E. cbv beta in *. rewrite E, existsb_parallel by auto. reflexivity. }
  destruct (parallel_run matches path pn un lp lu L rs worlds its ms1 RD PAR NRS NLP LW OK)
    as (ms' & E2 & LE & F0).
  assert (L1 : length ms1 = length ms) by (destruct RD; congruence).
  exists ms1, ms'. split; [exact E1|]. split; [exact E2|]. split; [congruence|].
  intros k m m' i o M M' C. destruct (logs_nth _ ms1 ms k m LG M) as (m1 & M1 & G1).
  destruct (Forall3_nth _ _ _ _ _ _ _ i (o, true) (F0 _ _ _ M1 M') C) as (r & r' & R & R' & es & X & Y).
  exists es. split.
  - unfold log_of at 2. rewrite <- G1. fold (log_of m1 i). rewrite (log_of_nth _ _ _ _ R), (log_of_nth _ _ _ _ R'). exact X.
  - exact Y.
Qed.
Print Assumptions C103_parallel.

(** Each variable is in the share of exactly one process, so together the
    processes store each chosen variable once. *)
Theorem C103_once : forall pn un lp lu n, laid_out pn un lp lu ->
    (In n pn -> exists! k, first_at lp n k) /\ (In n un -> exists! k, first_at lu n k).
Proof.
  intros pn un lp lu n L. split; intro I.
  - destruct (first_at_ex lp n (lo_p _ _ _ _ L n I)) as (k & K). exists k. split; auto.
    intros j J. eapply first_at_uniq; eauto.
  - destruct (first_at_ex lu n (lo_u _ _ _ _ L n I)) as (k & K). exists k. split; auto.
    intros j J. eapply first_at_uniq; eauto.
Qed.
Print Assumptions C103_once.

(** Serial recorders next to parallel ones: on process 0 the serial recorders
    store everything and the parallel ones the share of process 0 ... *)
Theorem C103_mixed_first : forall V matches path pn un lp lu (ms : list (mgr V)) rs worlds c vs,
    laid_out pn un lp lu -> lp <> [] -> length ms = length lp -> length worlds = length lp ->
    (exists o, In (o, false) rs) -> Forall (fun m => config m = rs) ms ->
    (forall k m, nth_error ms k = Some m -> no_stale lp lu k m) ->
    nth_error worlds 0 = Some 0%nat -> get_pathname c = path -> vectors_of lp lu vs ->
    exists ms1, startup_all matches lu lp path pn un ms = map Ok ms1 /\
      forall m, nth_error ms 0 = Some m ->
      exists m', nth_error (record_all c (procs_of worlds ms1 vs)) 0 = Some (Returns m') /\
        forall i o par, nth_error rs i = Some (o, par) ->
          grown (if par then share_entry matches o pn un lp lu 0 else whole_entry matches o pn un)
            [(c, vs)] (log_of m i) (log_of m' i).
Proof.
  intros V matches path pn un lp lu ms rs worlds c vs L NLP LM LW (o0 & I0) CF NS W0 G VS.
  assert (NRS : rs <> []) by (intros ->; destruct I0).
  destruct (startup_all_ok matches path pn un lp lu L rs true ms LM NS CF) as (ms1 & E1 & RD & LG).
  { apply Forall_forall. intros m _. replace (existsb _ rs) with true; [apply orb_true_r|].
    symmetry. apply existsb_exists. exists (o0, false). auto. }
  exists ms1. split; [exact E1|]. intros m M. destruct (logs_nth _ ms1 ms 0 m LG M) as (m1 & M1 & G1).
  destruct (record_all_gathers matches path pn un lp lu L rs ms1 worlds vs c RD NRS NLP LW VS)
    as (d & u & s & LEN & H0 & _ & GP & GU & GR).
  destruct (first_ok matches path pn un lp lu L rs true m1 vs c d u s (proj2 RD _ _ M1) G GP GU GR) as (m' & E & _ & F).
  rewrite (H0 _ _ W0 M1), E. exists m'. split; [reflexivity|].
  intros i o par C. destruct (Forall3_nth _ _ _ _ _ _ _ i (o, par) F C) as (r & r' & R & R' & e & X & Y).
  exists [e]. split.
  - unfold log_of at 2. rewrite <- G1. fold (log_of m1 i). rewrite (log_of_nth _ _ _ _ R), (log_of_nth _ _ _ _ R'). exact X.
  - constructor; [|constructor]. unfold first_rel in Y. cbn [snd] in Y. destruct par; exact Y.
Qed.
Print Assumptions C103_mixed_first.

(** ... but on the other processes the parallel recorders store nothing: when
    a recorder chooses a param, the iteration is passed over, and when none
    does and a recorder chooses an unknown, a parallel recorder of unknowns
    raises. *)
Theorem C103_mixed_refuted : forall V matches path pn un lp lu (ms : list (mgr V)) rs worlds c vs,
    laid_out pn un lp lu -> lp <> [] -> length ms = length lp -> length worlds = length lp ->
    (exists o, In (o, false) rs) -> Forall (fun m => config m = rs) ms ->
    (forall k m, nth_error ms k = Some m -> no_stale lp lu k m) ->
    get_pathname c = path -> vectors_of lp lu vs ->
    exists ms1, startup_all matches lu lp path pn un ms = map Ok ms1 /\
      forall k m, (0 < k)%nat -> nth_error ms k = Some m ->
      ((exists o par n, In (o, par) rs /\ ro_params o = true /\ wanted matches o pn n) ->
       exists m', nth_error (record_all c (procs_of worlds ms1 vs)) k = Some (Returns m') /\ logs m' = logs m) /\
      (nth_error worlds k <> Some 0%nat ->
       (forall o par n, In (o, par) rs -> ro_params o = true -> ~ wanted matches o pn n) ->
       (exists o par n, In (o, par) rs /\ ro_unknowns o = true /\ wanted matches o un n) ->
       (exists o, In (o, true) rs /\ ro_unknowns o = true) ->
       nth_error (record_all c (procs_of worlds ms1 vs)) k = Some (Raises AttributeError)).
Proof.
  intros V matches path pn un lp lu ms rs worlds c vs L NLP LM LW (o0 & I0) CF NS G VS.
  assert (NRS : rs <> []) by (intros ->; destruct I0).
  destruct (startup_all_ok matches path pn un lp lu L rs true ms LM NS CF) as (ms1 & E1 & RD & LG).
  { apply Forall_forall. intros m _. replace (existsb _ rs) with true; [apply orb_true_r|].
    symmetry. apply existsb_exists. exists (o0, false). auto. }
  exists ms1. split; [exact E1|]. intros k m K M. destruct (logs_nth _ ms1 ms k m LG M) as (m1 & M1 & G1).
  destruct (record_all_gathers matches path pn un lp lu L rs ms1 worlds vs c RD NRS NLP LW VS)
    as (d & u & s & LEN & _ & HK & _).
  destruct RD as (LM1 & RD).
  destruct (nth_same _ _ ms1 worlds k m1) as (w & W); [congruence|auto|].
  specialize (HK k w m1 K W M1). rewrite HK. split.
  - intros (o & par & n & I & O & WN).
    assert (B : bp matches pn rs = true).
    { apply (nonempty_in (fp matches pn) rs (o, par) n I). unfold fp. cbn [fst]. rewrite O. now apply sel_in. }
    rewrite B. cbn [rest_of record_case ended_of]. exists m1. auto.
  - intros W0 NP (o & par & n & I & O & WN) PU.
    assert (B : bp matches pn rs = false).
    { unfold bp. destruct (existsb _ rs) eqn:X; auto. apply existsb_exists in X. destruct X as ((o1 & par1) & I1 & X).
      cbn [fst] in X. unfold fp in X. destruct (ro_params o1) eqn:O1; [|discriminate].
      destruct (sel matches o1 pn) as [|a l] eqn:S; [discriminate|]. exfalso. apply (NP o1 par1 a I1 O1).
      apply sel_in. rewrite S. simpl; auto. }
    assert (BU : bu matches un rs = true).
    { apply (nonempty_in (fu matches un) rs (o, par) n I). unfold fu. cbn [fst]. rewrite O. now apply sel_in. }
    rewrite B, BU. cbn [rest_of record_case].
    rewrite (record_loop_raises matches path pn un lp lu w _ c k rs (mg_recs m1)); auto.
    + eapply rd_recs. apply RD. exact M1.
    + congruence.
    + unfold rest_of. destruct (br matches un rs); auto.
Qed.
Print Assumptions C103_mixed_refuted.

(** The serial recorders of a system that does not run on process 0 of the
    world store nothing at all. *)
Theorem C103_subgroup_refuted : forall V matches path pn un lp lu (ms : list (mgr V)) rs worlds its,
    laid_out pn un lp lu -> lp <> [] -> length ms = length lp -> length worlds = length lp ->
    rs <> [] -> Forall (fun cfg => snd cfg = false) rs -> Forall (fun m => config m = rs) ms ->
    (forall k m, nth_error ms k = Some m -> no_stale lp lu k m) ->
    (forall k, nth_error worlds k <> Some 0%nat) ->
    Forall (fun it => get_pathname (fst it) = path /\ vectors_of lp lu (snd it)) its ->
    exists ms1 ms', startup_all matches lu lp path pn un ms = map Ok ms1 /\
      record_run worlds ms1 its = Some ms' /\ map logs ms' = map logs ms.
Proof.
  intros V matches path pn un lp lu ms rs worlds its L NLP LM LW NRS SER CF NS WK OK.
  destruct (startup_all_ok matches path pn un lp lu L rs true ms LM NS CF) as (ms1 & E1 & RD & LG).
  { apply Forall_forall. intros m _. rewrite existsb_serial by auto. apply orb_true_r. }
  exists ms1, ms1. split; [exact E1|]. split; [|exact LG].
  eapply subgroup_run; eauto.
Qed.
Print Assumptions C103_subgroup_refuted.

(** ** Examples *)
Definition glob (n pat : string) : bool := (String.eqb pat "*" || String.eqb n pat)%bool.
Definition o_all : rec_opts := mkOpts true true true ["*"] ["z"].
Definition o_def : rec_opts := mkOpts false true false ["*"] [].
Definition ex_c : coord := mkCoord 0 [("Driver", [1%nat]); ("root", [1%nat])].
Definition ex_pn := ["a.x"; "b.x"].
Definition ex_un := ["p"; "y"; "z"].
(** p is local to both processes, the rest to one each *)
Definition ex_lp := [["a.x"]; ["b.x"]].
Definition ex_lu := [["p"; "y"]; ["p"; "z"]].
Definition ex_vs : list (vecs nat) :=
  [mkVecs [("a.x", 1%nat)] [("p", 2%nat); ("y", 3%nat)] [("p", 4%nat); ("y", 5%nat)];
   mkVecs [("b.x", 6%nat)] [("p", 7%nat); ("z", 8%nat)] [("p", 9%nat); ("z", 10%nat)]].
Definition fresh (rs : list (rec_opts * bool)) : mgr nat :=
  mkMgr [] [] [] false false false false (map (fun cfg => mkRec (fst cfg) (snd cfg) [] []) rs).

Definition ex_started (rs : list (rec_opts * bool)) : list (mgr nat) :=
  match oks (startup_all glob ex_lu ex_lp "" ex_pn ex_un [fresh rs; fresh rs]) with Some l => l | None => [] end.
Definition ended_logs (l : list (ended nat)) : list (res (list (list (entry nat)))) :=
  map (fun e => match e with Returns m => Ok (logs m) | Raises x => Err x | Waits => Err RuntimeError end) l.

Example C103_laid : laid_out ex_pn ex_un ex_lp ex_lu.
Proof.
  assert (D : forall A (x : A) l, In x l -> In x l) by auto.
  constructor; unfold ex_pn, ex_un, ex_lp, ex_lu.
  - reflexivity.
  - intros n I J. simpl in I, J. intuition congruence.
  - intros l q I J. simpl in I. destruct I as [<-|[<-|[]]]; simpl in J |- *; tauto.
  - intros l q I J. simpl in I. destruct I as [<-|[<-|[]]]; simpl in J |- *; tauto.
  - repeat constructor; simpl; intuition congruence.
  - repeat constructor; simpl; intuition congruence.
  - intros n I. simpl in I. destruct I as [<-|[<-|[]]]; [exists ["a.x"]|exists ["b.x"]]; simpl; auto.
  - intros n I. simpl in I. destruct I as [<-|[<-|[<-|[]]]]; [exists ["p"; "y"]|exists ["p"; "y"]|exists ["p"; "z"]]; simpl; auto.
Qed.

Lemma fresh_no_stale : forall lp lu k rs, no_stale lp lu k (fresh rs).
Proof. intros lp lu k rs. split; [|split]; intros n []. Qed.

(** a serial recorder: everything but z, on process 0 *)
Example C103_serial_ex :
  ended_logs (record_all ex_c (procs_of [0%nat; 3%nat] (ex_started [(o_all, false)]) ex_vs))
  = [Ok [[mkEntry ex_c (Some [("b.x", 6%nat); ("a.x", 1%nat)])
            (Some [("y", 3%nat); ("p", 2%nat)]) (Some [("y", 5%nat); ("p", 4%nat)])]];
     Ok [[]]].
Proof. vm_compute. reflexivity. Qed.
Example C103_serial_applies : exists ms1 ms',
  startup_all glob ex_lu ex_lp "" ex_pn ex_un [fresh [(o_all, false)]; fresh [(o_all, false)]] = map Ok ms1 /\
  record_run [0%nat; 3%nat] ms1 [(ex_c, ex_vs); (ex_c, ex_vs)] = Some ms' /\
  exists m', nth_error ms' 0 = Some m' /\
    grown (whole_entry glob o_all ex_pn ex_un) [(ex_c, ex_vs); (ex_c, ex_vs)] [] (log_of m' 0).
Proof.
  destruct (C103_serial nat glob "" ex_pn ex_un ex_lp ex_lu [fresh [(o_all, false)]; fresh [(o_all, false)]] [(o_all, false)]
    [0%nat; 3%nat] [(ex_c, ex_vs); (ex_c, ex_vs)] C103_laid) as (ms1 & ms' & A & B & C & D & _);
    try reflexivity; try discriminate.
  - repeat constructor.
  - repeat constructor.
  - intros [|[|[|k]]] m E; simpl in E; try discriminate; injection E as <-; apply fresh_no_stale.
  - intros [|[|[|k]]] H; simpl; try discriminate; lia.
  - repeat constructor.
  - exists ms1, ms'. split; [exact A|]. split; [exact B|].
    destruct ms' as [|m' ms'']; [discriminate|]. exists m'. split; [reflexivity|].
    exact (D _ m' 0%nat o_all eq_refl eq_refl eq_refl).
Qed.

(** a parallel recorder: each process its share *)
Example C103_parallel_ex :
  ended_logs (record_all ex_c (procs_of [0%nat; 3%nat] (ex_started [(o_all, true)]) ex_vs))
  = [Ok [[mkEntry ex_c (Some [("a.x", 1%nat)]) (Some [("y", 3%nat); ("p", 2%nat)]) (Some [("y", 5%nat); ("p", 4%nat)])]];
     Ok [[mkEntry ex_c (Some [("b.x", 6%nat)]) (Some []) (Some [])]]].
Proof. vm_compute. reflexivity. Qed.

(** both: b.x is in no parallel recorder *)
Example C103_mixed_ex :
  ended_logs (record_all ex_c (procs_of [0%nat; 3%nat] (ex_started [(o_all, true); (o_all, false)]) ex_vs))
  = [Ok [[mkEntry ex_c (Some [("a.x", 1%nat)]) (Some [("y", 3%nat); ("p", 2%nat)]) (Some [("y", 5%nat); ("p", 4%nat)])];
         [mkEntry ex_c (Some [("b.x", 6%nat); ("a.x", 1%nat)])
            (Some [("y", 3%nat); ("p", 2%nat)]) (Some [("y", 5%nat); ("p", 4%nat)])]];
     Ok [[]; []]].
Proof. vm_compute. reflexivity. Qed.

(** both, with the default options: process 1 raises *)
Example C103_mixed_default_ex :
  nth_error (ended_logs (record_all ex_c (procs_of [0%nat; 3%nat] (ex_started [(o_def, true); (o_def, false)]) ex_vs))) 1
  = Some (Err AttributeError).
Proof. vm_compute. reflexivity. Qed.

(** serial, but the group runs on processes 2 and 3 of the world *)
Example C103_subgroup_ex :
  ended_logs (record_all ex_c (procs_of [2%nat; 3%nat] (ex_started [(o_all, false)]) ex_vs)) = [Ok [[]]; Ok [[]]].
Proof. vm_compute. reflexivity. Qed.

(** A second setup keeps the names of the first: when y is gone from the
    model, process 0 raises KeyError in the next record_iteration, although
    the new startup succeeds (names from before are stale). *)
Theorem C103_restart_refuted :
  exists (ms1 ms2 : list (mgr nat)) vs,
    startup_all glob ex_lu ex_lp "" ex_pn ex_un [fresh [(o_def, false)]; fresh [(o_def, false)]] = map Ok ms1 /\
    laid_out ex_pn ["p"; "z"] ex_lp [["p"]; ["p"; "z"]] /\
    startup_all glob [["p"]; ["p"; "z"]] ex_lp "" ex_pn ["p"; "z"] ms1 = map Ok ms2 /\
    vectors_of ex_lp [["p"]; ["p"; "z"]] vs /\
    nth_error (record_all ex_c (procs_of [0%nat; 3%nat] ms2 vs)) 0 = Some (Raises KeyError).
Proof.
  eexists _, _, [mkVecs [("a.x", 1%nat)] [("p", 2%nat)] [("p", 4%nat)];
                 mkVecs [("b.x", 6%nat)] [("p", 7%nat); ("z", 8%nat)] [("p", 9%nat); ("z", 10%nat)]].
  split; [|split; [|split; [|split]]].
  - instantiate (1 := [_; _]). cbn [map]. vm_compute. reflexivity.
  - constructor; unfold ex_pn, ex_lp.
    + reflexivity.
    + intros n I J. simpl in I, J. intuition congruence.
    + intros l q I J. simpl in I. destruct I as [<-|[<-|[]]]; simpl in J |- *; tauto.
    + intros l q I J. simpl in I. destruct I as [<-|[<-|[]]]; simpl in J |- *; tauto.
    + repeat constructor; simpl; intuition congruence.
    + repeat constructor; simpl; intuition congruence.
    + intros n I. simpl in I. destruct I as [<-|[<-|[]]]; [exists ["a.x"]|exists ["b.x"]]; simpl; auto.
    + intros n I. simpl in I. destruct I as [<-|[<-|[]]]; [exists ["p"]|exists ["p"; "z"]]; simpl; auto.
  - instantiate (1 := [_; _]). cbn [map]. vm_compute. reflexivity.
  - repeat split.
  - vm_compute. reflexivity.
Qed.
Print Assumptions C103_restart_refuted.

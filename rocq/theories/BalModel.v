(** Model of the load balanced design of experiments under MPI
    (openmdao/drivers/predeterminedruns_driver.py: _run_lb, _distrib_lb_build_runlist,
    _setup_communicators): the master and the worker processes, which are arranged in
    groups; all processes of a group run the same case.
    One step is what the master does between two receives, or one action of a worker;
    which process moves is not determined.  Messages between two processes arrive in
    order, messages of different workers in any order, and a send does not wait.
    A process is named by the number of its group and its place there; [layout] and
    [doe_ids] give the ranks.
    What running a case on a process gives is the relation [ev].
    Simplified: the communication between the processes of a group while they run a case
    is not modelled; _prep_case and the recorders do not raise. *)
From Verif Require Import Base TransferModel.
Local Open Scope nat_scope.

(** sizes and offsets of the parallel does for a communicator of [nprocs] processes,
    _setup_communicators lines 125-133; with load balancing rank 0, the master, is doe 0 *)
Definition layout (lb : bool) (ndoe nprocs : nat) : res (list nat * list nat) :=
  if lb then let! so := evenly_distrib_idxs (Z.of_nat ndoe - 1) (Z.of_nat nprocs - 1) in Ok (1 :: map Z.to_nat (fst so), 0 :: map (fun o => Z.to_nat (o + 1)) (snd so))
  else let! so := evenly_distrib_idxs (Z.of_nat ndoe) (Z.of_nat nprocs) in Ok (map Z.to_nat (fst so), map Z.to_nat (snd so)).
(** lines 138-145: color, whose entry for a rank is the _par_doe_id of that process, and
    _id_map *)
Definition colors (sizes : list nat) : list nat := flat_map (fun ig => repeat (fst ig) (snd ig)) (combine (seq 0 (length sizes)) sizes).
Definition id_map (sizes offsets : list nat) : list (nat * (nat * nat)) := combine (seq 0 (length sizes)) (combine sizes offsets).
(** lines 702-706: the doe of a rank *)
Definition put (d : list (nat * nat)) (k v : nat) : list (nat * nat) := (k, v) :: filter (fun e => negb (fst e =? k)) d.
Definition doe_ids (m : list (nat * (nat * nat))) : list (nat * nat) :=
  fold_left (fun d e => fold_left (fun d i => put d (i + snd (snd e)) (fst e)) (seq 0 (fst (snd e))) d) m [].
Definition get (d : list (nat * nat)) (k : nat) : option nat := option_map snd (find (fun e => fst e =? k) d).

Section Bal.
  (** cases and the values of variables *)
  Variables C V : Type.
  (** what a worker sends: lines 791-797.  [rterm] is meta['terminate'], [rsucc] and
      [rmsg] are meta['success'] and meta['msg'], [rdata] the local variables (params,
      unknowns and residuals in one dictionary; these are kept apart in the program) *)
  Record result := mkRes { rterm : nat; rsucc : bool; rmsg : string; rdata : list (string * V) }.
  Variable ev : C -> nat * nat -> result -> Prop.

  Inductive wpc := Idle | Busy (c : C) | Exited.
  (** a worker: messages on their way to it, its state, messages on their way to the
      master.  None is the message to stop. *)
  Record worker := mkW { win : list (option C); wst : wpc; wout : list result }.
  (** caseinfo, lines 694-697.  [cur] (the case the group has been sent) and [got] (the
      results received for it, with the member) are not part of the program. *)
  Record info := mkI { cur : option C; got : list (nat * result); count : nat; term : nat; success : bool; msg : string; data : list (string * V) }.
  Record group := mkG { ginfo : info; procs : list worker }.
  (** what is given to the recorders, line 760 *)
  Record entry := mkE { e_success : bool; e_msg : string; e_data : list (string * V) }.
  Inductive mpc := Start | Recv | Returned.
  (** [finished_cases] (case, group, results) and [runs] (case, process, result) are not
      part of the program *)
  Record st := mkSt { pc : mpc; left : list C; sent : nat; received : nat; more : bool; recorded : list entry; gs : list group;
                      finished_cases : list (C * nat * list (nat * result)); runs : list (C * (nat * nat) * result) }.

  (** lines 719-727 and 769-781: send the case to all processes of the group *)
  Definition push (c : option C) (w : worker) : worker := mkW (win w ++ [c]) (wst w) (wout w).
  Definition deal (c : C) (g : group) : group :=
    let i := ginfo g in mkG (mkI (Some c) [] (count i + length (procs g)) (term i) (success i) (msg i) (data i)) (map (push (Some c)) (procs g)).
  (** lines 710-727: seed the workers; also the number of messages sent *)
  Fixpoint seed (cs : list C) (gs : list group) : list C * list group * nat :=
    match gs, cs with
    | g :: gs', c :: cs' => let '(l, r, n) := seed cs' gs' in (l, deal c g :: r, length (procs g) + n)
    | _, _ => (cs, gs, 0)
    end.
  (** lines 787-793: tell all workers to stop *)
  Definition stop_group (g : group) : group := mkG (ginfo g) (map (push None) (procs g)).
  Definition stop_all (gs : list group) : list group := map stop_group gs.
  (** lines 737-757: dict.update, and the merge of the metadata *)
  Definition upd (d : list (string * V)) (u : list (string * V)) : list (string * V) := fold_left (fun d e => dset String.eqb d (fst e) (snd e)) u d.
  Definition absorb (i : info) (j : nat) (r : result) : info :=
    mkI (cur i) (got i ++ [(j, r)]) (count i - 1) (term i + rterm r)
        (success i && rsucc r) (if success i then rmsg r else msg i) (upd (data i) (rdata r)).
  (** lines 773-774: a fresh caseinfo for the next case *)
  Definition renew (g : group) : group := let i := ginfo g in mkG (mkI (cur i) (got i) (count i) 0 true "" (data i)) (procs g).
  Definition entry_of (i : info) : entry := mkE (success i) (msg i) (data i).

  (** lines 732-785, once the result r of member j of group number k is received *)
  Definition receive (s : st) (pre : list group) (g : group) (post : list group) (j : nat) (r : result) : st :=
    let i := absorb (ginfo g) j r in
    let g1 := mkG i (procs g) in
    let '(l, g2, n, m, rc, fin) :=
      if count i =? 0 then
        let fin := match cur i with Some c => [(c, length pre, got i)] | None => [] end in
        if 0 <? term i then (left s, g1, 0, false, [], fin)
        else match (if more s then left s else []) with
             | c :: l => (l, deal c (renew g1), length (procs g), more s, [entry_of i], fin)
             | [] => (left s, g1, 0, false, [entry_of i], fin)
             end
      else (left s, g1, 0, more s, [], []) in
    let gs' := pre ++ g2 :: post in
    let stop := S (received s) =? sent s + n in
    mkSt (if stop then Returned else Recv) l (sent s + n) (S (received s)) m (recorded s ++ rc) (if stop then stop_all gs' else gs') (finished_cases s ++ fin) (runs s).

  Inductive step : st -> st -> Prop :=
  (** lines 710-730 *)
  | s_start : forall cs sn rc m rec gs fin rn l gs' n, seed cs gs = (l, gs', n) ->
      step (mkSt Start cs sn rc m rec gs fin rn)
           (mkSt (if 0 <? sn + n then Recv else Returned) l (sn + n) rc true rec (if 0 <? sn + n then gs' else stop_all gs') fin rn)
  (** lines 732-785 *)
  | s_recv : forall l sn rc m rec pre i p1 q p r o p2 post fin rn,
      step (mkSt Recv l sn rc m rec (pre ++ mkG i (p1 ++ mkW q p (r :: o) :: p2) :: post) fin rn)
           (receive (mkSt Recv l sn rc m rec (pre ++ mkG i (p1 ++ mkW q p (r :: o) :: p2) :: post) fin rn) pre (mkG i (p1 ++ mkW q p o :: p2)) post (length p1) r)
  (** lines 800-808: a worker receives a case *)
  | s_take : forall pc l sn rc m rec pre i p1 c q o p2 post fin rn,
      step (mkSt pc l sn rc m rec (pre ++ mkG i (p1 ++ mkW (Some c :: q) Idle o :: p2) :: post) fin rn)
           (mkSt pc l sn rc m rec (pre ++ mkG i (p1 ++ mkW q (Busy c) o :: p2) :: post) fin rn)
  (** or the message to stop *)
  | s_exit : forall pc l sn rc m rec pre i p1 q o p2 post fin rn,
      step (mkSt pc l sn rc m rec (pre ++ mkG i (p1 ++ mkW (None :: q) Idle o :: p2) :: post) fin rn)
           (mkSt pc l sn rc m rec (pre ++ mkG i (p1 ++ mkW q Exited o :: p2) :: post) fin rn)
  (** _run_lb lines 511-518, and lines 811-821: the case is run, the result is sent *)
  | s_run : forall pc l sn rc m rec pre i p1 q c o p2 post fin rn r, ev c (length pre, length p1) r ->
      step (mkSt pc l sn rc m rec (pre ++ mkG i (p1 ++ mkW q (Busy c) o :: p2) :: post) fin rn)
           (mkSt pc l sn rc m rec (pre ++ mkG i (p1 ++ mkW q Idle (o ++ [r]) :: p2) :: post) fin (rn ++ [(c, (length pre, length p1), r)])).

  (** groups of the given sizes *)
  Definition new_group (n : nat) : group := mkG (mkI None [] 0 0 true "" []) (repeat (mkW [] Idle []) n).
  Definition init (cs : list C) (sizes : list nat) : st := mkSt Start cs 0 0 true [] (map new_group sizes) [] [].
  Definition finished (s : st) : Prop := pc s = Returned /\ Forall (fun g => Forall (fun w => wst w = Exited) (procs g)) (gs s).
End Bal.
Arguments mkRes {V}. Arguments rterm {V}. Arguments rsucc {V}. Arguments rmsg {V}. Arguments rdata {V}.
Arguments mkW {C V}. Arguments win {C V}. Arguments wst {C V}. Arguments wout {C V}. Arguments Idle {C}. Arguments Busy {C}. Arguments Exited {C}.
Arguments mkI {C V}. Arguments cur {C V}. Arguments got {C V}. Arguments count {C V}. Arguments term {C V}. Arguments success {C V}. Arguments msg {C V}. Arguments data {C V}.
Arguments mkG {C V}. Arguments ginfo {C V}. Arguments procs {C V}. Arguments mkE {V}. Arguments e_success {V}. Arguments e_msg {V}. Arguments e_data {V}.
Arguments mkSt {C V}. Arguments pc {C V}. Arguments left {C V}. Arguments sent {C V}. Arguments received {C V}. Arguments more {C V}. Arguments recorded {C V}. Arguments gs {C V}. Arguments finished_cases {C V}. Arguments runs {C V}.
Arguments push {C V}. Arguments deal {C V}. Arguments seed {C V}. Arguments stop_group {C V}. Arguments stop_all {C V}. Arguments upd {V}. Arguments absorb {C V}. Arguments renew {C V}. Arguments entry_of {C V}. Arguments receive {C V}.
Arguments step {C V}. Arguments new_group {C V}. Arguments init {C V}. Arguments finished {C V}.

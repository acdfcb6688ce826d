(** Model of the design of experiments over local worker processes
    (openmdao/drivers/predeterminedruns_driver.py: worker and _run_lb_multiproc): the main
    process and the workers, with a queue of tasks and a queue of responses.  One step is
    what the main process does between two waits, or one action of a worker; which
    process moves is not determined.  Tasks are taken in the order in which they were
    put; a response may be received in any order.  A put does not wait.
    What running a case does is the relation [ev]. *)
From Verif Require Import Base.
Local Open Scope nat_scope.

Section Mp.
  (** cases, and the values of the response variables *)
  Variables C V : Type.
  (** what a worker does with a case, lines 51-76: it responds with values (also when
      the analysis failed), or with metadata that asks to stop; in the second case
      [Fatal true] if _try_case returned terminate = True, which is so when the case
      raised an exception and load_balance is False; [Crash] if _prep_case raised *)
  Inductive outcome := Good (v : V) | Fatal (set : bool) | Crash.
  Variable ev : nat * C -> outcome -> Prop.
  Local Notation task := (nat * C)%type.

  Inductive wpc := Idle | Busy (t : task) | Exited.
  (** a worker and its variable terminate, line 46 *)
  Record worker := mkW { wterm : bool; wst : wpc }.
  (** _run_lb_multiproc: before the workers are started (578-593), in the loop (597-615),
      collecting the last k responses (622-631), joining the workers (633-634), done *)
  Inductive mpc := Start | Loop | Drain (k : nat) | Join | Returned.
  (** [fin], the responses received, and [runs], those put, are not part of the program *)
  Record st := mkSt { pc : mpc; left : list C; iter_count : nat; num_active : nat; tasks : list (option task); responses : list (task * outcome);
                      recorded : list (nat * V); ws : list worker; fin : list (task * outcome); runs : list (task * outcome) }.

  Definition number (k : nat) (cs : list C) : list task := combine (seq k (length cs)) cs.
  (** lines 617-619 *)
  Definition stop (s : st) : st :=
    mkSt (Drain (num_active s)) (left s) (iter_count s) (num_active s) (tasks s ++ repeat None (length (ws s))) (responses s) (recorded s) (ws s) (fin s) (runs s).
  (** lines 587-596: the first cases, one per worker; the loop is skipped if they run out *)
  Definition start (s : st) : st :=
    let n := length (ws s) in
    let first := firstn n (left s) in
    let s' := mkSt Loop (skipn n (left s)) (length first) (length first) (map Some (number 0 first)) [] [] (ws s) [] [] in
    if length (left s) <? n then stop s' else s'.
  (** _build_case, lines 522-538, and recording *)
  Definition record (t : task) (o : outcome) : list (nat * V) := match o with Good v => [(fst t, v)] | _ => [] end.
  (** lines 599-613, with the response of task t *)
  Definition get_one (s : st) (r1 : list (task * outcome)) (t : task) (o : outcome) (r2 : list (task * outcome)) : st :=
    let s' := mkSt Loop (left s) (iter_count s) (num_active s - 1) (tasks s) (r1 ++ r2) (recorded s ++ record t o) (ws s) (fin s ++ [(t, o)]) (runs s) in
    match o, left s with
    | Good _, c :: l => mkSt Loop l (S (iter_count s)) (S (num_active s - 1)) (tasks s ++ [Some (iter_count s, c)]) (r1 ++ r2) (recorded s ++ record t o) (ws s) (fin s ++ [(t, o)]) (runs s)
    | _, _ => stop s'
    end.

  Inductive step : st -> st -> Prop :=
  | s_start : forall l it na ts rs rec ws fin rn, step (mkSt Start l it na ts rs rec ws fin rn) (start (mkSt Start l it na ts rs rec ws fin rn))
  | s_get : forall l it na ts r1 t o r2 rec ws fin rn, 0 < na ->
      step (mkSt Loop l it na ts (r1 ++ (t, o) :: r2) rec ws fin rn) (get_one (mkSt Loop l it na ts (r1 ++ (t, o) :: r2) rec ws fin rn) r1 t o r2)
  (** line 598 *)
  | s_none : forall l it ts rs rec ws fin rn, step (mkSt Loop l it 0 ts rs rec ws fin rn) (stop (mkSt Loop l it 0 ts rs rec ws fin rn))
  (** lines 622-631 *)
  | s_drain : forall k l it na ts r1 t o r2 rec ws fin rn,
      step (mkSt (Drain (S k)) l it na ts (r1 ++ (t, o) :: r2) rec ws fin rn) (mkSt (Drain k) l it na ts (r1 ++ r2) (rec ++ record t o) ws (fin ++ [(t, o)]) rn)
  | s_drained : forall l it na ts rs rec ws fin rn, step (mkSt (Drain 0) l it na ts rs rec ws fin rn) (mkSt Join l it na ts rs rec ws fin rn)
  (** lines 633-634 *)
  | s_join : forall l it na ts rs rec ws fin rn, Forall (fun w => wst w = Exited) ws -> step (mkSt Join l it na ts rs rec ws fin rn) (mkSt Returned l it na ts rs rec ws fin rn)
  (** line 47: a worker takes a task; lines 50-51: it drops it if it has failed before *)
  | s_take : forall pc l it na t ts rs rec pre b post fin rn,
      step (mkSt pc l it na (Some t :: ts) rs rec (pre ++ mkW b Idle :: post) fin rn) (mkSt pc l it na ts rs rec (pre ++ mkW b (if b then Idle else Busy t) :: post) fin rn)
  | s_exit : forall pc l it na ts rs rec pre b post fin rn,
      step (mkSt pc l it na (None :: ts) rs rec (pre ++ mkW b Idle :: post) fin rn) (mkSt pc l it na ts rs rec (pre ++ mkW b Exited :: post) fin rn)
  (** lines 53-76 *)
  | s_run : forall pc l it na ts rs rec pre b t o post fin rn, ev t o -> o <> Crash ->
      step (mkSt pc l it na ts rs rec (pre ++ mkW b (Busy t) :: post) fin rn)
           (mkSt pc l it na ts (rs ++ [(t, o)]) rec (pre ++ mkW (match o with Fatal set => set | _ => false end) Idle :: post) fin (rn ++ [(t, o)]))
  (** lines 77-79 *)
  | s_crash : forall pc l it na ts rs rec pre b t post fin rn, ev t Crash ->
      step (mkSt pc l it na ts rs rec (pre ++ mkW b (Busy t) :: post) fin rn) (mkSt pc l it na ts rs rec (pre ++ mkW b Exited :: post) fin rn).

  Definition init (cs : list C) (n : nat) : st := mkSt Start cs 0 0 [] [] [] (repeat (mkW false Idle) n) [] [].
  Definition finished (s : st) : Prop := pc s = Returned /\ Forall (fun w => wst w = Exited) (ws s).
End Mp.
Arguments Good {V}. Arguments Fatal {V}. Arguments Crash {V}. Arguments Idle {C}. Arguments Busy {C}. Arguments Exited {C}.
Arguments mkW {C}. Arguments wterm {C}. Arguments wst {C}. Arguments mkSt {C V}. Arguments pc {C V}. Arguments left {C V}. Arguments iter_count {C V}. Arguments num_active {C V}.
Arguments tasks {C V}. Arguments responses {C V}. Arguments recorded {C V}. Arguments ws {C V}. Arguments fin {C V}. Arguments runs {C V}.
Arguments number {C}. Arguments stop {C V}. Arguments start {C V}. Arguments record {C V}. Arguments get_one {C V}. Arguments step {C V}. Arguments init {C V}. Arguments finished {C V}.

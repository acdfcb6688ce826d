(** Model of openmdao/util/concurrent.py: the master and the workers of
    concurrent_eval_lb as processes that exchange messages.  One step is one step of
    one process; which process moves is not determined.  Messages from the master to
    a worker arrive in order; the master receives the results in any order.  A send
    does not wait for its receiver.  A case is (args, kwargs); [None] stands for a
    case whose args are None.  What a call of the function does is the relation [ev]:
    it relates a case to the results (retval, err) it may have. *)
From Verif Require Import Base.
Local Open Scope nat_scope.

Section Eval.
  Variables A R : Type.
  Variable ev : A -> R -> Prop.

  (** _concurrent_eval_lb_master, lines 55-106: seeding worker i (68-75), waiting for
      results (79-100), stopping worker i (103-104), returned (106) *)
  Inductive mpc := Seed (i : nat) | Recv | Stop (i : nat) | Returned.
  (** _concurrent_eval_lb_worker, lines 108-128 *)
  Inductive wpc := Idle | Busy (a : A) | Exited.
  Record worker := mkW { win : list (option A); wst : wpc }.
  (** [log] lists the calls of the function; it is not part of the program *)
  Record st := mkSt { pc : mpc; left : list (option A); sent : nat; received : nat; results : list R; inbox : list (nat * R); ws : list worker; log : list (A * R) }.

  (** where the master goes after the seeds, line 78 *)
  Definition after_seed (n : nat) : mpc := if 0 <? n then Recv else Stop 1.

  Inductive step : st -> st -> Prop :=
  (** lines 68-75: the next case goes to worker i *)
  | s_seed : forall c l sn rc rs ib pre w post lg,
      step (mkSt (Seed (S (length pre))) (c :: l) sn rc rs ib (pre ++ w :: post) lg)
           (mkSt (Seed (S (S (length pre)))) l (S sn) rc rs ib (pre ++ mkW (win w ++ [c]) (wst w) :: post) lg)
  (** lines 71-72: no case is left *)
  | s_seed_stop : forall i sn rc rs ib ws lg, 1 <= i <= length ws -> step (mkSt (Seed i) [] sn rc rs ib ws lg) (mkSt (after_seed sn) [] sn rc rs ib ws lg)
  (** line 68: every worker has a case *)
  | s_seed_end : forall l sn rc rs ib ws lg, step (mkSt (Seed (S (length ws))) l sn rc rs ib ws lg) (mkSt (after_seed sn) l sn rc rs ib ws lg)
  (** lines 81-91: a result is received, and there is none to wait for *)
  | s_recv_last : forall l sn rc rs i1 k r i2 ws lg, S rc = sn ->
      step (mkSt Recv l sn rc rs (i1 ++ (k, r) :: i2) ws lg) (mkSt (Stop 1) l sn (S rc) (rs ++ [r]) (i1 ++ i2) ws lg)
  (** lines 93-96: no case is left *)
  | s_recv_none : forall sn rc rs i1 k r i2 ws lg, S rc <> sn ->
      step (mkSt Recv [] sn rc rs (i1 ++ (k, r) :: i2) ws lg) (mkSt Recv [] sn (S rc) (rs ++ [r]) (i1 ++ i2) ws lg)
  (** lines 97-100: the next case goes to the same worker *)
  | s_recv_send : forall c l sn rc rs i1 r i2 pre w post lg, S rc <> sn ->
      step (mkSt Recv (c :: l) sn rc rs (i1 ++ (S (length pre), r) :: i2) (pre ++ w :: post) lg)
           (mkSt Recv l (S sn) (S rc) (rs ++ [r]) (i1 ++ i2) (pre ++ mkW (win w ++ [c]) (wst w) :: post) lg)
  (** lines 103-104 *)
  | s_stop : forall l sn rc rs ib pre w post lg,
      step (mkSt (Stop (S (length pre))) l sn rc rs ib (pre ++ w :: post) lg) (mkSt (Stop (S (S (length pre)))) l sn rc rs ib (pre ++ mkW (win w ++ [None]) (wst w) :: post) lg)
  | s_return : forall l sn rc rs ib ws lg, step (mkSt (Stop (S (length ws))) l sn rc rs ib ws lg) (mkSt Returned l sn rc rs ib ws lg)
  (** line 111: a worker receives a case *)
  | s_work : forall p l sn rc rs ib pre a q post lg, step (mkSt p l sn rc rs ib (pre ++ mkW (Some a :: q) Idle :: post) lg) (mkSt p l sn rc rs ib (pre ++ mkW q (Busy a) :: post) lg)
  (** lines 113-114 *)
  | s_exit : forall p l sn rc rs ib pre q post lg, step (mkSt p l sn rc rs ib (pre ++ mkW (None :: q) Idle :: post) lg) (mkSt p l sn rc rs ib (pre ++ mkW q Exited :: post) lg)
  (** lines 116-128: the call, and the answer to the master *)
  | s_answer : forall p l sn rc rs ib pre a r q post lg, ev a r ->
      step (mkSt p l sn rc rs ib (pre ++ mkW q (Busy a) :: post) lg) (mkSt p l sn rc rs (ib ++ [(S (length pre), r)]) (pre ++ mkW q Idle :: post) (lg ++ [(a, r)])).

  (** all ranks call the function, with n workers beside the master *)
  Definition init (cases : list (option A)) (n : nat) : st := mkSt (Seed 1) cases 0 0 [] [] (repeat (mkW [] Idle) n) [].
  (** every process has returned *)
  Definition finished (s : st) : Prop := pc s = Returned /\ Forall (fun w => wst w = Exited) (ws s).
End Eval.
Arguments mkW {A}. Arguments mkSt {A R}. Arguments Idle {A}. Arguments Busy {A}. Arguments Exited {A}.
Arguments step {A R}. Arguments init {A R}. Arguments finished {A R}. Arguments win {A}. Arguments wst {A}.
Arguments pc {A R}. Arguments left {A R}. Arguments results {A R}. Arguments ws {A R}. Arguments log {A R}. Arguments sent {A R}. Arguments received {A R}. Arguments inbox {A R}.

(** lines 37-51, without a communicator: [call a] is what calling the function with
    case a gives *)
Definition serial {A R} (call : A -> R) (cases : list A) : list R := fold_left (fun rs a => rs ++ [call a]) cases [].

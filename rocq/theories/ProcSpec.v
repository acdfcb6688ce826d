(** What running external commands should satisfy. *)
From Coq Require Import Qround.
From Verif Require Import Base ProcModel.
Local Open Scope nat_scope.

(** the command ends at time c with a status; poll k happens at time (tick k) *)
Definition polled (tick : nat -> Q) (c : Q) (status : Z) (k : nat) : option Z :=
  if Qle_bool c (tick k) then Some status else None.
(** a command that never ends *)
Definition endless (k : nat) : option Z := None.

(** sleeps last at least d and at most d + e; tick 0 is the start *)
Definition ticking (d e : Q) (tick : nat -> Q) : Prop :=
  (tick 0%nat == 0)%Q /\ forall k, (tick k + d <= tick (S k) <= tick k + d + e)%Q.

Definition time_of (tick : nat -> Q) (w : waited) : option Q :=
  match w with Finished _ k | Stopped k => Some (tick k) | Waiting => None end.

(** a successful run of an external code *)
Definition success (o : options) (w : world) : Prop :=
  (exists program args, o_command o = program :: args /\ w_found w program = true) /\
  (forall f, In f (o_inputs o) -> w_before w f = true) /\
  w_start w = Ok tt /\ w_wait w = Some 0%Z /\
  (forall f, In f (o_outputs o) -> w_after w f = true).

(** the command was run, and ended with a status *)
Definition ended (o : options) (w : world) (s : Z) : Prop :=
  (exists program args, o_command o = program :: args /\ w_found w program = true) /\
  (forall f, In f (o_inputs o) -> w_before w f = true) /\ w_start w = Ok tt /\ w_wait w = Some s.

(** the program cannot be run at all *)
Definition unusable (o : options) (w : world) : Prop :=
  o_command o = [] \/
  exists program args, o_command o = program :: args /\ w_found w program = false /\ missing (w_before w) (o_inputs o) = [].
(** the run exceeded its time *)
Definition timed_out (o : options) (w : world) : Prop :=
  (exists program args, o_command o = program :: args /\ w_found w program = true) /\
  missing (w_before w) (o_inputs o) = [] /\ w_start w = Ok tt /\ w_wait w = None.

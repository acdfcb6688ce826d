(** Transfer of variables passed by object between processes: openmdao/core/petsc_impl.py
    (PetscDataTransfer.transfer 447-485), openmdao/core/group.py (_get_owning_ranks 1637-1668).

    Processes are numbered 0..n-1 and run concurrently; a state of the network has the remaining
    program and the memory of each process and the messages under way.  A message is sent with a
    tag; messages with the same sender, receiver and tag arrive in the order in which they were
    sent (MPI's non-overtaking rule).  comm.barrier returns when all processes have called it.
    Not modelled: the scatter before it (DtrModel.v), a name that is missing in the vectors (a
    local variable is there). *)
From Verif Require Import Base.
Local Open Scope string_scope.
Local Open Scope nat_scope.
Local Open Scope list_scope.

Section Net.
  Context {V M : Type}.
  Inductive act : Type :=
  | Send (d t : nat) (f : M -> V)          (** comm.send(val, dest=d, tag=t) *)
  | Recv (s t : nat) (g : V -> M -> M)     (** val = comm.recv(source=s, tag=t), and what is done with it *)
  | Barrier                                (** comm.barrier() *)
  | Local (g : M -> M).                    (** anything inside the process *)
  Record proc : Type := mkProc { prog : list act; mem : M }.
  (** [chan s d t]: the messages from [s] to [d] with tag [t], first one first *)
  Record net : Type := mkNet { size : nat; procs : nat -> proc; chan : nat -> nat -> nat -> list V }.

  Definition put_proc (ps : nat -> proc) (i : nat) (x : proc) : nat -> proc := fun j => if j =? i then x else ps j.
  Definition put_chan (ch : nat -> nat -> nat -> list V) (s d t : nat) (q : list V) : nat -> nat -> nat -> list V :=
    fun x y z => if (x =? s) && (y =? d) && (z =? t) then q else ch x y z.
  (** a step of the process [i] alone, when a send only hands over its message (buffered) *)
  Definition fire (i : nat) (s : net) : option net :=
    match prog (procs s i) with
    | [] => None
    | a :: p =>
        let m := mem (procs s i) in
        let go m' ch := Some (mkNet (size s) (put_proc (procs s) i (mkProc p m')) ch) in
        match a with
        | Local g => go (g m) (chan s)
        | Send d t f => go m (put_chan (chan s) i d t (chan s i d t ++ [f m]))
        | Recv q t g => match chan s q i t with [] => None | v :: r => go (g v m) (put_chan (chan s) q i t r) end
        | Barrier => None
        end
    end.
  Definition at_barrier (p : proc) : bool := match prog p with Barrier :: _ => true | _ => false end.
  Definition pop (p : proc) : proc := mkProc (tl (prog p)) (mem p).
  (** all leave the barrier *)
  Definition sync (s : net) : option net :=
    if (0 <? size s) && forallb (fun i => at_barrier (procs s i)) (seq 0 (size s)) then Some (mkNet (size s) (fun i => if i <? size s then pop (procs s i) else procs s i) (chan s)) else None.
  Definition step (s s' : net) : Prop := (exists i, i < size s /\ fire i s = Some s') \/ sync s = Some s'.

  (** a send that waits until the message is received (synchronous): both processes go on *)
  Definition meet (i : nat) (s : net) : option net :=
    match prog (procs s i) with
    | Send d t f :: p =>
        match prog (procs s d) with
        | Recv q t' g :: p' => if (q =? i) && (t' =? t) && negb (i =? d) then Some (mkNet (size s) (put_proc (put_proc (procs s) i (mkProc p (mem (procs s i)))) d (mkProc p' (g (f (mem (procs s i))) (mem (procs s d))))) (chan s)) else None
        | _ => None
        end
    | Local g :: p => Some (mkNet (size s) (put_proc (procs s) i (mkProc p (g (mem (procs s i))))) (chan s))
    | _ => None
    end.
  Definition step_meet (s s' : net) : Prop := (exists i, i < size s /\ meet i s = Some s') \/ sync s = Some s'.
End Net.

Section Pbo.
  Context {V : Type}.
  Variable none : V.
  (** tgtvec[tgt] = val, or tgtvec[tgt]._assign_to(val) when there is a FileRef: the new value *)
  Variable assign : option V -> V -> V.
  (** srcvec and tgtvec of a process *)
  Record vecs : Type := mkVecs { unk : list (string * V); par : list (string * V) }.
  Definition look (src : string) (m : vecs) : V := match dget String.eqb (unk m) src with Some v => v | None => none end.
  Definition give (tgt : string) (v : V) (m : vecs) : vecs := mkVecs (unk m) (dset String.eqb (par m) tgt (assign (dget String.eqb (par m) tgt) v)).

  (** a transfer: sysdata.all_locals, byobj_conns as (tgt, src), and what each process computes
      afterwards until the next transfer *)
  Record round : Type := mkRound { locals : list (list string); conns : list (string * string); comp : nat -> vecs -> vecs }.
  Definition has (rd : round) (i : nat) (x : string) : bool := existsb (String.eqb x) (nth i (locals rd) []).
  (** _get_owning_ranks *)
  Definition owner (rd : round) (x : string) : option nat := find (fun i => has rd i x) (seq 0 (length (locals rd))).
  Definition is_owner (rd : round) (x : string) (i : nat) : bool := match owner rd x with Some o => o =? i | None => false end.

  (** 451-462 *)
  Definition receivers (rd : round) (i : nat) (tgt src : string) : list nat := filter (fun d => negb (d =? i) && negb (has rd d src) && has rd d tgt) (seq 0 (length (locals rd))).
  Fixpoint sends (rd : round) (i t : nat) (cs : list (string * string)) : list (@act V vecs) :=
    match cs with
    | [] => []
    | (tgt, src) :: r => (if is_owner rd src i then map (fun d => Send d t (look src)) (receivers rd i tgt src) else []) ++ sends rd i (S t) r
    end.
  (** 470-485; owning_ranks[src] of a source no process has is a KeyError, not modelled (see [sourced]) *)
  Fixpoint recvs (rd : round) (i t : nat) (cs : list (string * string)) : list (@act V vecs) :=
    match cs with
    | [] => []
    | (tgt, src) :: r =>
        (if has rd i tgt then
           if has rd i src then [Local (fun m => give tgt (look src m) m)]
           else match owner rd src with Some o => [Recv o t (give tgt)] | None => [] end
         else []) ++ recvs rd i (S t) r
    end.
  Definition transfer_prog (rd : round) (i : nat) : list (@act V vecs) :=
    match conns rd with [] => [] | cs => sends rd i 0 cs ++ [Barrier] ++ recvs rd i 0 cs end.
  Fixpoint program (rds : list round) (i : nat) : list (@act V vecs) :=
    match rds with [] => [] | rd :: r => transfer_prog rd i ++ Local (comp rd i) :: program r i end.
  Definition initial (n : nat) (rds : list round) (ms : nat -> vecs) : @net V vecs := mkNet n (fun i => mkProc (program rds i) (ms i)) (fun _ _ _ => []).
End Pbo.

(** What the transfer of variables passed by object should do. *)
From Verif Require Import Base PboModel.
Local Open Scope string_scope.
Local Open Scope nat_scope.
Local Open Scope list_scope.

Section Exec.
  Context {V M : Type}.
  (** the same state *)
  Definition same (a b : @net V M) : Prop := size a = size b /\ (forall i, i < size a -> procs a i = procs b i) /\ (forall s d t, chan a s d t = chan b s d t).
  (** [k] steps of the network, in any order of the processes *)
  Inductive steps : nat -> @net V M -> @net V M -> Prop :=
  | steps_0 : forall a b, same a b -> steps 0 a b
  | steps_S : forall k a b c, step a b -> steps k b c -> steps (S k) a c.
  Definition stuck (s : @net V M) : Prop := forall s', ~ step s s'.
  Definition all_done (s : @net V M) : Prop := forall i, i < size s -> prog (procs s i) = [].
  Definition no_messages (s : @net V M) : Prop := forall x y z, chan s x y z = [].
End Exec.

Section Story.
  Context {V : Type}.
  Variable none : V.
  Variable assign : option V -> V -> V.
  Definition local (rd : @round V) (i : nat) (x : string) : Prop := In x (nth i (locals rd) []).
  (** the process whose value of a source the process [i] uses: itself, or the lowest that has it *)
  Definition holder (rd : @round V) (i : nat) (src : string) (q : nat) : Prop :=
    local rd q src /\ (local rd i src -> q = i) /\ (~ local rd i src -> forall q', q' < q -> ~ local rd q' src).
  (** the vectors of the process [i] after a transfer *)
  Definition received (rd : @round V) (ms : nat -> @vecs V) (i : nat) (m' : @vecs V) : Prop :=
    unk m' = unk (ms i) /\
    (forall tgt src q, In (tgt, src) (conns rd) -> local rd i tgt -> holder rd i src q ->
       dget String.eqb (par m') tgt = Some (assign (dget String.eqb (par (ms i)) tgt) (look none src (ms q)))) /\
    (forall p, (forall src, In (p, src) (conns rd) -> ~ local rd i p) -> dget String.eqb (par m') p = dget String.eqb (par (ms i)) p).
  (** transfer, computation, transfer, computation, ... *)
  Inductive story (n : nat) : list (@round V) -> (nat -> @vecs V) -> (nat -> @vecs V) -> Prop :=
  | story_nil : forall ms ms', (forall i, i < n -> ms' i = ms i) -> story n [] ms ms'
  | story_cons : forall rd rds ms mid ms', (forall i, i < n -> received rd ms i (mid i)) -> story n rds (fun i => comp rd i (mid i)) ms' -> story n (rd :: rds) ms ms'.
  (** a target has one source, and some process has it *)
  Definition sourced (n : nat) (rd : @round V) : Prop :=
    length (locals rd) = n /\ NoDup (map fst (conns rd)) /\ (forall tgt src, In (tgt, src) (conns rd) -> exists i, local rd i src).
End Story.

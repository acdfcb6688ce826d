(** What a parallel design of experiments must do. *)
From Verif Require Import Base ParModel.
Local Open Scope nat_scope.

Section ParSpec.
  Context {C : Type}.
  (** the cases of each doe, and the number of does *)
  Variable mine : nat -> list C.
  Variable ndoe : nat.
  (** round t of the experiment: the t-th case of every doe that has one *)
  Definition round (t : nat) : list C := flat_map (fun g => match nth_error (mine g) t with Some c => [c] | None => [] end) (seq 0 ndoe).
  (** the cases a process gives to its recorders in rounds 0 .. n - 1: a serial recorder
      gets all cases in the process with rank 0, a parallel recorder the cases of its process *)
  Definition to_record (recorders serial : bool) (n : nat) (p : pid) : list C :=
    if negb recorders then [] else if serial then (if (fst p =? 0) && (snd p =? 0) then flat_map round (seq 0 n) else []) else firstn n (mine (fst p)).
  (** the processes have all returned, after n rounds: each has run the cases of its doe *)
  Definition all_done (recorders serial : bool) (n : nat) (sizes : list nat) (s : st C) : Prop :=
    s = map (fun p => (p, PDone (mine (fst p)) (to_record recorders serial n p))) (pids sizes).
  (** the processes have all raised an exception in round n *)
  Definition all_failed (recorders serial : bool) (n : nat) (sizes : list nat) (s : st C) : Prop :=
    s = map (fun p => (p, PFail (firstn (S n) (mine (fst p))) (to_record recorders serial n p))) (pids sizes).
  (** a fatal failure in round t *)
  Definition fails_in (fatal : pid -> C -> bool) (sizes : list nat) (t : nat) : Prop := exists p c, In p (pids sizes) /\ nth_error (mine (fst p)) t = Some c /\ fatal p c = true.
  (** every doe has a case in round t *)
  Definition full_round (t : nat) : Prop := forall g, g < ndoe -> nth_error (mine g) t <> None.
  (** a doe without a case in round t has a single process *)
  Definition short_single (sizes : list nat) (t : nat) : Prop := forall g n, nth_error sizes g = Some n -> nth_error (mine g) t = None -> n = 1.
  Definition is_round (t : nat) : Prop := exists g, g < ndoe /\ nth_error (mine g) t <> None.
End ParSpec.

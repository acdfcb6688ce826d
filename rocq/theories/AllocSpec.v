(** What an allocation should satisfy. *)
From Coq Require Import Permutation.
From Verif Require Import Base AllocModel.
Local Open Scope nat_scope.

Definition procs_total (bs : list bucket) : nat := list_sum (map fst bs).

(** every one of n subsystems is in exactly one bucket *)
Definition each_once (n : nat) (bs : list bucket) : Prop := Permutation (concat (map snd bs)) (seq 0 n).

(** subsystem i runs on p processes *)
Definition runs_on (bs : list bucket) (i p : nat) : Prop := exists b, In b bs /\ In i (snd b) /\ fst b = p.

(** p is at most this maximum *)
Definition at_most (p : nat) (mx : option nat) : Prop := match mx with Some m => p <= m | None => True end.

(** sum of the maxima of some subsystems, None if one has no maximum *)
Fixpoint capacity (l : list (option nat)) : option nat :=
  match l with
  | [] => Some 0
  | None :: _ => None
  | Some m :: r => match capacity r with Some c => Some (m + c) | None => None end
  end.
(** the largest maximum *)
Fixpoint largest (l : list (option nat)) : option nat :=
  match l with
  | [] => Some 0
  | None :: _ => None
  | Some m :: r => match largest r with Some c => Some (Nat.max m c) | None => None end
  end.

(** min(size, capacity) *)
Definition usable (size : nat) (c : option nat) : nat := match c with Some k => Nat.min size k | None => size end.

(** requirements as get_req_procs reports them *)
Definition req_ok (r : reqs) : Prop := 0 < fst r /\ at_most (fst r) (snd r).

(** two subsystems differ by more than one process only if the smaller one has
    its maximum *)
Definition balanced (subs : list reqs) (bs : list bucket) : Prop :=
  forall i j p q, runs_on bs i p -> runs_on bs j q -> S p < q -> exists mn, nth_error subs i = Some (mn, Some p).

(** the most that some subsystem of a bucket can use *)
Definition bucket_cap (subs : list reqs) (b : bucket) : option nat := largest (map (fun i => nth i (map snd subs) None) (snd b)).
Definition min_of (subs : list reqs) (i : nat) : nat := nth i (map fst subs) 0.

Definition opt_dec : forall a b : option nat, {a = b} + {a <> b}.
Proof. decide equality. apply Nat.eq_dec. Defined.

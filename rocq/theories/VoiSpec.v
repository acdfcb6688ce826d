(** What the groups of variables of interest should be. *)
From Coq Require Import Permutation.
From Verif Require Import Base DriverModel VoiModel.
Local Open Scope string_scope.

(** the call number k of a program is made and raises no exception *)
Definition accepted (mpi multi : bool) (cs : list call) (k : nat) (c : call) : Prop :=
  nth_error cs k = Some c /\ exists d, perform mpi (program mpi multi (firstn k cs)) c = Ok d.
Definition declared (mpi multi : bool) (cs : list call) (k : nat) (n : string) : Prop :=
  exists j m, (j < k)%nat /\ (accepted mpi multi cs j (AddDesvar n m) \/ accepted mpi multi cs j (AddObjective n m) \/
                       accepted mpi multi cs j (AddConstraint n m)).
Definition is_desvar (mpi multi : bool) (cs : list call) (k : nat) (n : string) : Prop :=
  exists j m, (j < k)%nat /\ accepted mpi multi cs j (AddDesvar n m).
Definition grouped (mpi multi : bool) (cs : list call) (k : nat) (n : string) : Prop :=
  exists j vn, (j < k)%nat /\ accepted mpi multi cs j (ParallelDerivs vn) /\ In n vn.
(** both were named in one call of parallel_derivs *)
Definition together (mpi multi : bool) (cs : list call) (a b : string) : Prop :=
  exists k vn, accepted mpi multi cs k (ParallelDerivs vn) /\ In a vn /\ In b vn.

(** the indices a declaration asks for; an empty list is none *)
Definition asked_indices (m : meta) : option (list Z) := match m_indices m with Some (i :: l) => Some (i :: l) | _ => None end.

(** a is before b in a list *)
Definition before (l : list string) (a b : string) : Prop := exists x y z, l = (x ++ a :: y ++ b :: z)%list.
(** the names of a dictionary are in the order of the accepted calls *)
Definition in_order (mpi multi : bool) (cs : list call) (f : string -> meta -> call) (l : list string) : Prop :=
  forall a b, before l a b <-> exists j m k m', (j < k)%nat /\ accepted mpi multi cs j (f a m) /\ accepted mpi multi cs k (f b m').

(** the variables in groups: each variable once, no group is empty, the members of a
    group are in the order of the list, and two variables share a group exactly when
    they should *)
Record grouping (l : list string) (R : string -> string -> Prop) (gs : list (list string)) : Prop := {
  gr_perm : Permutation (concat gs) l;
  gr_full : Forall (fun g => g <> []) gs;
  gr_order : Forall (fun g => exists f, g = filter f l) gs;
  gr_same : forall a b, In a l -> In b l -> ((exists g, In g gs /\ In a g /\ In b g) <-> a = b \/ R a b) }.

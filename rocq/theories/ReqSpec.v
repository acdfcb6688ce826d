(** Requirements and mode, specified. *)
From Verif Require Import Base AllocModel ReqModel.
Local Open Scope nat_scope.

(** at least one process, and not more than the maximum *)
Definition consistent (r : reqs) : Prop := 1 <= fst r /\ match snd r with Some m => fst r <= m | None => True end.
(** r covers s: whatever s needs at least r needs, whatever s can use r can use *)
Definition covers (r s : reqs) : Prop := fst s <= fst r /\ match snd r, snd s with Some a, Some b => b <= a | Some _, None => False | None, _ => True end.
Inductive wf_sys : sys -> Prop :=
| wf_comp : forall r, consistent r -> wf_sys (SComp r)
| wf_group : forall l, (forall s, In s l -> wf_sys s) -> wf_sys (SGroup l)
| wf_par : forall l, (forall s, In s l -> wf_sys s) -> wf_sys (SParallel l)
| wf_fd : forall k l, 1 <= k -> (forall s, In s l -> wf_sys s) -> wf_sys (SParallelFD k l).
(** s lies below (or is) r *)
Inductive inside (s : sys) : sys -> Prop :=
| in_self : inside s s
| in_group : forall c l, In c l -> inside s c -> inside s (SGroup l)
| in_par : forall c l, In c l -> inside s c -> inside s (SParallel l)
| in_fd : forall c k l, In c l -> inside s c -> inside s (SParallelFD k l).

(** the size of the first variable of a name *)
Definition size_of (vars : list (string * nat)) (n : string) : nat := match sget vars n with Some k => k | None => 0 end.
Definition mentioned (vs : list voi) (n : string) : Prop := exists v, In v vs /\ match v with One m => n = m | Many ms => In n ms end.

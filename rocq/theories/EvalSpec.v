(** Executions of a transition relation. *)
From Verif Require Import Base.
Local Open Scope nat_scope.

Section Exec.
  Context {S : Type}.
  Variable step : S -> S -> Prop.
  Inductive exec : S -> S -> Prop :=
  | exec_nil : forall s, exec s s
  | exec_cons : forall s t u, step s t -> exec t u -> exec s u.
  Inductive exec_n : nat -> S -> S -> Prop :=
  | exec_0 : forall s, exec_n 0 s s
  | exec_S : forall n s t u, step s t -> exec_n n t u -> exec_n (Datatypes.S n) s u.
  (** every execution from s is finite, and one that cannot continue has ended in a
      state of P: whatever the schedule, the processes arrive at P *)
  Definition always_ends (s : S) (P : S -> Prop) : Prop :=
    (exists bound, forall n t, exec_n n s t -> n <= bound) /\ forall t, exec s t -> (forall u, ~ step t u) -> P t.
  (** some execution from s arrives at a state that is not final and cannot continue *)
  Definition can_hang (s : S) (final : S -> Prop) : Prop := exists t, exec s t /\ (forall u, ~ step t u) /\ ~ final t.
End Exec.

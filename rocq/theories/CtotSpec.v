(** What a check of total derivatives should report. *)
From Verif Require Import Base GradModel GradSpec CheckModel CtotModel.
Local Open Scope string_scope.
Local Open Scope nat_scope.
Local Open Scope list_scope.

Section Spec.
  Context {F : Type}.
  (** two tables of derivatives agree on the requested entries of a pair of variables *)
  Definition agree (p : prob (F:=F)) (u v : string) (X Y : nat -> nat -> F) : Prop :=
    forall k q, In k (wanted p (p_qoi p) u) -> In q (wanted p (p_poi p) v) -> X k q = Y k q.
  (** every pair of variables, once *)
  Definition pairs (indep unknown : list string) : list (string * string) := flat_map (fun v => map (fun u => (u, v)) unknown) indep.
End Spec.

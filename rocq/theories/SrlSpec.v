(** What the responses of a design of experiments are. *)
From Verif Require Import Base ExprModel LcnModel SrlModel.
Local Open Scope list_scope.

Section Spec.
  Context {X S : Type}.
  (** the model as a function of a case: how it ends, and what is selected when it returns *)
  Variable ends : list (txt * X) -> outcome.
  Variable gives : list txt -> list (txt * X) -> S.
  (** the entry of the i-th case *)
  Definition entry_of (resp : list txt) (i : nat) (c : list (txt * X)) (e : entry S) : Prop :=
    e_iter e = i /\
    match ends c with
    | Done => e_success e = true /\ e_msg e = false /\ e_sel e = gives resp c
    | _ => e_success e = false /\ e_msg e = true
    end.
  Fixpoint entries_of (resp : list txt) (i : nat) (cs : list (list (txt * X))) (es : list (entry S)) : Prop :=
    match cs, es with
    | [], [] => True
    | c :: cs, e :: es => entry_of resp i c e /\ entries_of resp (i + 1) cs es
    | _, _ => False
    end.
  Definition breaks (c : list (txt * X)) : Prop := exists e, ends c = Other e.
End Spec.

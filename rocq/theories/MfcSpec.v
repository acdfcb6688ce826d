(** The first process whose statements failed, and its text. *)
From Verif Require Import Base.
Local Open Scope list_scope.
Local Open Scope nat_scope.

Definition first_of (trace : pyerr -> string) (rs : list (res unit)) (rank : nat) (text : string) : Prop :=
  exists e, nth_error rs rank = Some (Err e) /\ text = trace e /\ forall i, i < rank -> nth_error rs i = Some (Ok tt).

(** What is in a namelist: its groups in order, each with the cards added while it was the last. *)
From Verif Require Import Base.
From Verif Require Import NlbModel.
Local Open Scope list_scope.
Local Open Scope nat_scope.

Section Spec.
  Context {V : Type} (params : list string) (value : string -> option V).
  (** ascending, nothing twice *)
  Fixpoint ascending (l : list string) : Prop :=
    match l with [] => True | a :: l => Forall (fun b => String.leb a b = true /\ a <> b) l /\ ascending l end.
  (** the cards that a call adds *)
  Definition adds (o : call V) (cs : list (card V)) : Prop :=
    match o with
    | AddGroup _ => False
    | AddVar n => exists v, value n = Some v /\ cs = [Card n v false]
    | AddNew n v => cs = [Card n v false]
    | AddComment v => cs = [Card "C" v true]
    | AddContainer path skip =>
        ascending (map c_name cs) /\ (forall c, In c cs -> value (c_name c) = Some (c_value c) /\ c_comment c = false)
        /\ forall n, In n (map c_name cs) <-> In n params /\ exists sub, n = (path ++ ":" ++ sub)%string /\ ~ In sub skip
    end.
  Inductive holds : list (call V) -> list (string * list (card V)) -> Prop :=
  | h_new : holds [] []
  | h_group : forall l d n, holds l d -> holds (l ++ [AddGroup n]) (d ++ [(n, [])])
  | h_cards : forall l d g cs o cs', holds l (d ++ [(g, cs)]) -> adds o cs' -> holds (l ++ [o]) (d ++ [(g, cs ++ cs')])
  | h_none : forall l o, holds l [] -> adds o [] -> holds (l ++ [o]) [].
End Spec.

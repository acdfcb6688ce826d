(** What a sequence of linear solves should give. *)
From Verif Require Import Base DirectModel.
Local Open Scope nat_scope.
Local Open Scope list_scope.

Section Spec.
  Context {M V : Type} (tr : M -> M) (solve : M -> V -> V).
  (** the property: every solve gives the solutions of the system of the last
      linearization, or of its transpose in rev mode *)
  Fixpoint wanted (op : M) (h : list (@devent M V)) : list (list (string * V)) :=
    match h with
    | [] => []
    | Linearize op' :: r => [] :: wanted op' r
    | SetMethod _ _ :: r => [] :: wanted op r
    | Solve _ mode rhs :: r => map (fun p => (fst p, solve (match mode with Fwd => op | Rev => tr op end) (snd p))) rhs :: wanted op r
    end.
  (** The histories for which it holds.  [used]: None before the first linearization;
      Some None after a linearization that no solve has used; Some (Some (who, mode)) when
      it has been used by that solver in that mode. *)
  Fixpoint careful (n : nat) (used : option (option (nat * dmode))) (h : list (@devent M V)) : Prop :=
    match h with
    | [] => True
    | Linearize _ :: r => careful n (Some None) r
    | SetMethod who _ :: r => who < n /\ (used = None \/ used = Some None) /\ careful n used r
    | Solve who mode rhs :: r => who < n /\ (rhs = [] \/ used = Some None \/ used = Some (Some (who, mode))) /\
                                 careful n (match rhs with [] => used | _ => Some (Some (who, mode)) end) r
    end.
  (** the histories of Problem.calc_gradient and Newton.solve: a linearization and then
      solves of one solver in one mode *)
  Definition session (x : M * nat * dmode * list (list (string * V))) : list (@devent M V) :=
    let '(op, who, mode, rhss) := x in Linearize op :: map (Solve who mode) rhss.
End Spec.

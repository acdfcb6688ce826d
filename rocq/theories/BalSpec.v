(** What a load balanced run must do.  A dealing is a case, the number of the group that
    ran it, and the result of each of the processes of the group. *)
From Coq Require Import Permutation.
From Verif Require Import Base BalModel.
Local Open Scope nat_scope.

Section BalSpec.
  Context {C V : Type}.
  Local Notation dealing := (C * nat * list (nat * result V))%type.
  Variable ev : C -> nat * nat -> result V -> Prop.
  (** the case was run by every process of the group, once *)
  Definition ran_by_group (sizes : list nat) (d : dealing) : Prop :=
    let '(c, g, rs) := d in
    exists n, nth_error sizes g = Some n /\ Permutation (map fst rs) (seq 0 n) /\ forall j r, In (j, r) rs -> ev c (g, j) r.
  Definition case_of (d : dealing) : C := fst (fst d).
  Definition runs_of (d : dealing) : list (C * (nat * nat) * result V) := let '(c, g, rs) := d in map (fun jr => (c, (g, fst jr), snd jr)) rs.
  (** no process had a fatal failure *)
  Definition nonfatal (d : dealing) : bool := forallb (fun jr => rterm (snd jr) =? 0) (snd d).
  (** what is recorded of it: success if all processes succeeded, otherwise the message
      of one that did not; every variable of every process, with a value of this case *)
  Definition recorded_as (d : dealing) (e : entry V) : Prop :=
    let rs := snd d in
    e_success e = forallb (fun jr => rsucc (snd jr)) rs /\
    (e_success e = false -> exists j r, In (j, r) rs /\ rsucc r = false /\ e_msg e = rmsg r) /\
    (forall x v, dget String.eqb (e_data e) x = Some v -> exists j r, In (j, r) rs /\ In (x, v) (rdata r)) /\
    (forall j r x, In (j, r) rs -> In x (map fst (rdata r)) -> dget String.eqb (e_data e) x <> None).
End BalSpec.

(** The names of the unknowns of a subsystem, in its parent and in itself. *)
From Verif Require Import Base OrderModel PathModel PathSpec NameModel NameSpec.
Local Open Scope list_scope.
Local Open Scope nat_scope.

(** each unknown of subsystem n = c of s, in order, by its promoted name in s and in c *)
Definition unknowns_in (s : sys) (n : string) (c : sys) : list (path * path) := map (fun q => (prom_of s (n :: q), prom_of c q)) (ulist c).
(** names of systems and variables have no dots *)
Definition plain_names (s : sys) : Prop := forall q, In q (ulist s) -> Forall name_ok q.
Inductive below : sys -> list string -> sys -> Prop :=
| b_here : forall s, below s [] s
| b_in : forall subs src n pats c ns t, In (n, (pats, c)) subs -> below c ns t -> below (Grp subs src) (n :: ns) t.

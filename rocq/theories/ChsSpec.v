(** What the checks of a setup should report. *)
From Verif Require Import Base ExprModel LcnModel.
Local Open Scope list_scope.

(** in alphabetical order, nothing twice *)
Fixpoint increasing (l : list txt) : Prop :=
  match l with
  | a :: (b :: _) as r => leb_text a b = true /\ a <> b /\ increasing r
  | _ => True
  end.
Definition connected (conns : list (txt * txt)) (p : txt) : Prop := exists s, In (p, s) conns.
(** [n] is a variable of the component [c]: names of variables have no dot *)
Definition var_of (c n : txt) : Prop := exists v, n = c ++ "."%char :: v /\ ~ In "."%char v.
(** the relevant variables: those of some variable of interest, or all if there is none *)
Definition relevant_var (reldict : list (option txt * list txt)) (v : txt) : Prop :=
  (exists w l, In (Some w, l) reldict /\ In v l) \/ (length reldict = 1%nat /\ exists l, In (None, l) reldict /\ In v l).

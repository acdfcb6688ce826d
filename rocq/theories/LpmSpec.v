(** Which params have no source, which have a source outside a system, and which
    connections change units. *)
From Verif Require Import Base ExprModel LcnModel LcnSpec LpmModel.
Local Open Scope list_scope.

Definition is_source (conns : list (txt * txt)) (p s : txt) : Prop := In (p, s) conns.
(** [r] is the name of [n] below [path] *)
Definition named (path n r : txt) : Prop := (path = [] /\ n = r) \/ (path <> [] /\ n = path ++ "."%char :: r).
Definition no_units (u : option txt) : Prop := u = None \/ u = Some [].
(** units on one side only *)
Definition one_sided (a b : option txt) : Prop := (no_units a /\ ~ no_units b) \/ (~ no_units a /\ no_units b).
(** a connection within the vectors that converts units *)
Definition converts (path : txt) (pdict udict : list (txt * umeta)) (conns : list (txt * txt)) (e : key * (option txt * option txt)) : Prop :=
  exists t s tm sm, In (t, s) conns /\ In (t, tm) pdict /\ In (s, sm) udict /\ named path s (fst (fst e)) /\ named path t (snd (fst e)) /\
    snd e = (u_units sm, u_units tm) /\ (u_conv tm = true \/ one_sided (u_units sm) (u_units tm)).
(** pairs in the order of tuples of texts *)
Definition before (a b : key) : Prop := (fst a <> fst b /\ leb_text (fst a) (fst b) = true) \/ (fst a = fst b /\ leb_text (snd a) (snd b) = true).

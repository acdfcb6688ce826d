(** What a view of the connections should show. *)
From Verif Require Import Base ExprModel LcnModel ChsSpec VcModel.
Local Open Scope list_scope.

Section Spec.
  Context {V I C : Type} (pick : V -> I -> V) (vadd vmul : V -> C -> V).
  Definition has_source (y : sys V I C) (t s : txt) : Prop := exists i, dget (s_conns y) t = Some (s, i).
  (** the variables of the system: distinct names, and every source of a param is one *)
  Definition complete (y : sys V I C) : Prop :=
    (forall t s, In t (map fst (s_params y)) -> has_source y t s -> exists v, source_val y s = Ok v)
    /\ (forall s, In s (s_unks y) -> exists v, source_val y s = Ok v)
    /\ (forall t s, In t (map fst (s_params y)) -> has_source y t s -> s <> noconn)
    /\ NoDup (map fst (s_params y)) /\ NoDup (s_unks y) /\ NoDup (map fst (s_prom y)).
  (** the targets of a source, as they come *)
  Fixpoint targets (y : sys V I C) (s : txt) (l : list txt) (ts : list txt) : Prop :=
    match l with
    | [] => ts = []
    | t :: r => (has_source y t s /\ exists ts', ts = t :: ts' /\ targets y s r ts') \/ (~ has_source y t s /\ targets y s r ts)
    end.
  (** the value of a param: that of its source in the units of the param, or its own *)
  Definition shown_val (y : sys V I C) (t : txt) (m : pmeta V C) (v : V) : Prop :=
    (dget (s_conns y) t = None /\ v = m_val m)
    \/ (exists s i u, dget (s_conns y) t = Some (s, i) /\ source_val y s = Ok u
        /\ let w := match i with Some i => pick u i | None => u end in
           v = match m_conv m with Some (scale, offset) => vmul (vadd w offset) scale | None => w end).
  (** [x] is a system above the variable [s] *)
  Definition above (x s : txt) : Prop := x = [] \/ exists r, s = x ++ "."%char :: r.
End Spec.
Definition decreasing (l : list txt) : Prop := increasing (rev l).

(** Specification vocabulary for running a model. *)
From Verif Require Import Base RunModel.
Local Open Scope string_scope.
Local Open Scope nat_scope.
Local Open Scope list_scope.

Section Spec.
  Context {V : Type}.

  (** every parameter holds what its connection takes from the source *)
  Definition consistent (conns : list (conn V)) (s : st V) : Prop :=
    forall k, In k conns -> pv s (k_tgt k) = k_conv k (uv s (k_src k)).

  (** the outputs of [c] are the result of running it on its present parameters *)
  Definition solved (c : comp V) (s : st V) : Prop :=
    exists guess, c_solve c (map (pv s) (c_params c)) guess = Ok (map (uv s) (c_unks c)).

  (** the outputs do not depend on earlier outputs *)
  Definition explicit (c : comp V) : Prop := forall p u u', c_solve c p u = c_solve c p u'.
  (** an IndepVarComp leaves its outputs alone *)
  Definition indep (c : comp V) : Prop := forall p u, c_solve c p u = Ok u.

  (** the residuals of [c] at [s] are the numbers [rs] *)
  Definition true_residual (vadd : V -> V -> V) (vopp : V -> V) (c : comp V) (s : st V) (rs : list V) : Prop :=
    match c_resid c with
    | Some f => f (map (pv s) (c_params c)) (map (uv s) (c_unks c)) = Ok rs
    | None => exists us, c_solve c (map (pv s) (c_params c)) (map (uv s) (c_unks c)) = Ok us /\
                length us = length (c_unks c) /\
                rs = map (fun x => vadd (vopp (fst x)) (snd x)) (combine (map (uv s) (c_unks c)) us)
    end.
  (** ... and the residual vector holds them, scaled *)
  Definition residual_shown (vadd : V -> V -> V) (vopp : V -> V) (c : comp V) (s : st V) : Prop :=
    exists rs, true_residual vadd vopp c s rs /\
      map (rv s) (c_unks c) = map (fun x => c_scale c (fst x) (snd x)) (combine (c_unks c) rs) /\
      length rs = length (c_unks c).

  (** [a] is run before [b] *)
  Definition runs_before (root : sys V) (a b : comp V) : Prop :=
    exists l1 l2 l3, comps root = l1 ++ a :: l2 ++ b :: l3.
  Definition in_order (root : sys V) (k : conn V) : Prop :=
    exists a b, runs_before root a b /\ In (k_src k) (c_unks a) /\ In (k_tgt k) (c_params b).
  Definition feed_forward (root : sys V) (conns : list (conn V)) : Prop := forall k, In k conns -> in_order root k.

  (** names are unique, a parameter has one source, connections are between
      variables of different components of the model *)
  Record legal_model (root : sys V) (conns : list (conn V)) : Prop := {
    lm_names : NoDup (map c_name (comps root));
    lm_params : NoDup (flat_map c_params (comps root));
    lm_unks : NoDup (flat_map c_unks (comps root));
    lm_targets : NoDup (map k_tgt conns);
    lm_ends : forall k, In k conns -> exists a b, In a (comps root) /\ In b (comps root) /\ c_name a <> c_name b /\
                In (k_src k) (c_unks a) /\ In (k_tgt k) (c_params b) }.

  (** subsystems of a parallel group do not feed each other *)
  Fixpoint parallel_independent (conns : list (conn V)) (t : sys V) : Prop :=
    match t with
    | Comp _ => True
    | Grp par _ subs =>
        (par = true -> forall x k, In x subs -> In k conns -> In (k_tgt k) (flat_map c_params (comps x)) ->
           In (k_src k) (flat_map c_unks (comps t)) -> In (k_src k) (flat_map c_unks (comps x))) /\
        (fix all (l : list (sys V)) : Prop :=
           match l with [] => True | x :: l' => parallel_independent conns x /\ all l' end) subs
    end.
  (** no parallel groups at all *)
  Fixpoint serial (t : sys V) : Prop :=
    match t with
    | Comp _ => True
    | Grp par _ subs => par = false /\
        (fix all (l : list (sys V)) : Prop := match l with [] => True | x :: l' => serial x /\ all l' end) subs
    end.

  (** ** solvers: a solver which finishes has swept over the children, and has at
      most evaluated residuals since *)
  Inductive calls (ch ap : st V -> res (st V)) : st V -> st V -> Prop :=
  | calls_none : forall s, calls ch ap s s
  | calls_ch : forall s s1 s2, calls ch ap s s1 -> ch s1 = Ok s2 -> calls ch ap s s2
  | calls_ap : forall s s1 s2, calls ch ap s s1 -> ap s1 = Ok s2 -> calls ch ap s s2.
  Definition ends_with_sweep (nl : solver V) : Prop :=
    forall ch ap s s', nl ch ap s = Ok s' ->
      exists s1 s2, calls ch ap s s1 /\ ch s1 = Ok s2 /\ (s' = s2 \/ ap s2 = Ok s').
  Fixpoint solvers_sweep (t : sys V) : Prop :=
    match t with
    | Comp _ => True
    | Grp _ nl subs => ends_with_sweep nl /\
        (fix all (l : list (sys V)) : Prop := match l with [] => True | x :: l' => solvers_sweep x /\ all l' end) subs
    end.

  (** every group uses RunOnce *)
  Fixpoint all_once (t : sys V) : Prop :=
    match t with
    | Comp _ => True
    | Grp _ nl subs => nl = run_once /\
        (fix all (l : list (sys V)) : Prop := match l with [] => True | x :: l' => all_once x /\ all l' end) subs
    end.
  (** the component never raises and gives one value per unknown *)
  Definition total (c : comp V) : Prop := forall p u, exists us, c_solve c p u = Ok us /\ length us = length (c_unks c).

  (** same values of all variables of the model *)
  Definition same_values (root : sys V) (s s' : st V) : Prop :=
    (forall p, In p (flat_map c_params (comps root)) -> pv s p = pv s' p) /\
    (forall u, In u (flat_map c_unks (comps root)) -> uv s u = uv s' u).
  (** same inputs: unconnected parameters and outputs of independent components *)
  Definition same_inputs (root : sys V) (conns : list (conn V)) (s s' : st V) : Prop :=
    (forall p, In p (flat_map c_params (comps root)) -> ~ In p (map k_tgt conns) -> pv s p = pv s' p) /\
    (forall c u, In c (comps root) -> indep c -> In u (c_unks c) -> uv s u = uv s' u).
End Spec.

(** What a SubProblem should do. *)
From Verif Require Import Base RunModel RunSpec SubpModel.
Local Open Scope string_scope.
Local Open Scope nat_scope.
Local Open Scope list_scope.

Definition ins (pl : place) : list string := match pl with Inputs l => l | Output _ => [] end.
Definition outs (pl : place) : list string := match pl with Inputs _ => [] | Output u => [u] end.

Section Spec.
  Context {V : Type}.
  (** the wrapped model can be set through the params: they stand for unconnected inputs
      and outputs of independent components, no two for the same one *)
  Record settable (P : subp V) : Prop := {
    se_ins : NoDup (flat_map ins (b_params P));
    se_outs : NoDup (flat_map outs (b_params P));
    se_free : forall v, In v (flat_map ins (b_params P)) -> In v (sys_params (b_root P)) /\ ~ In v (map k_tgt (b_conns P));
    se_indep : forall u, In u (flat_map outs (b_params P)) -> exists c, In c (comps (b_root P)) /\ indep c /\ In u (c_unks c);
    se_unks : forall u, In u (b_unks P) -> In u (sys_unks (b_root P)) }.
  (** a wrapped model which one run solves (C79), made of components whose outputs depend on
      their inputs only *)
  Record runnable (P : subp V) : Prop := {
    ru_legal : legal_model (b_root P) (b_conns P);
    ru_par : parallel_independent (b_conns P) (b_root P);
    ru_sweep : solvers_sweep (b_root P);
    ru_ff : feed_forward (b_root P) (b_conns P);
    ru_expl : forall c, In c (comps (b_root P)) -> explicit c \/ indep c }.
  (** the variables the params stand for hold the given values *)
  Definition holds (P : subp V) (s : st V) (p : list V) : Prop :=
    Forall2 (fun pl x => (forall v, In v (ins pl) -> pv s v = x) /\ forall u, In u (outs pl) -> uv s u = x) (b_params P) p.
  (** the other inputs of the wrapped model are the same *)
  Definition same_others (P : subp V) (s t : st V) : Prop :=
    (forall v, In v (sys_params (b_root P)) -> ~ In v (map k_tgt (b_conns P)) -> ~ In v (flat_map ins (b_params P)) -> pv s v = pv t v) /\
    (forall c u, In c (comps (b_root P)) -> indep c -> In u (c_unks c) -> ~ In u (flat_map outs (b_params P)) -> uv s u = uv t u).
  (** [s] is a solution of the wrapped model for the values [p], with the other inputs of
      [s0] *)
  Definition solution (P : subp V) (s0 : st V) (p : list V) (s : st V) : Prop :=
    consistent (b_conns P) s /\ (forall c, In c (comps (b_root P)) -> solved c s) /\ holds P s p /\ same_others P s0 s.

  (** ** the vectors inside after any calls: a call that fails leaves the inputs it has set
      and anything else *)
  Inductive after (vadd vsub : V -> V -> V) (vopp : V -> V) (P : subp V) (s0 : st V) : st V -> Prop :=
  | after_setup : after vadd vsub vopp P s0 s0
  | after_solve : forall s p o, after vadd vsub vopp P s0 s -> length p = length (b_params P) -> sub_solve vadd vsub vopp P s p = Ok o -> after vadd vsub vopp P s0 (o_inner o)
  | after_apply : forall s p u o, after vadd vsub vopp P s0 s -> length p = length (b_params P) -> sub_apply vadd vsub vopp P s p u = Ok o -> after vadd vsub vopp P s0 (o_inner o)
  | after_linearize : forall M (gradient : st V -> res (list (string * list (string * M)))) s p s' j, after vadd vsub vopp P s0 s -> length p = length (b_params P) -> sub_linearize gradient P s p = Ok (s', j) -> after vadd vsub vopp P s0 s'
  | after_failure : forall s p e s', after vadd vsub vopp P s0 s -> length p = length (b_params P) -> sub_solve vadd vsub vopp P s p = Err e ->
      same_inputs (b_root P) (b_conns P) (set_params P p s) s' -> after vadd vsub vopp P s0 s'.

  (** ** the same model without the SubProblem: its components are part of the outer model,
      connections to its params go to the inputs they stand for, connections from its
      unknowns come from the unknowns of the same place *)
  Definition flat_src (un : list string) (P : subp V) (x : string) : string := match sget (combine un (b_unks P)) x with Some y => y | None => x end.
  Definition flat_tgts (pn : list string) (P : subp V) (x : string) : list string := match sget (combine pn (b_params P)) x with Some pl => ins pl | None => [x] end.
  Definition flat_conns (pn un : list string) (P : subp V) (conns : list (conn V)) : list (conn V) :=
    flat_map (fun k => map (fun v => mkK v (flat_src un P (k_src k)) (k_conv k)) (flat_tgts pn P (k_tgt k))) conns ++ b_conns P.
  (** [flat] has the components of [root] but [sub], and those of the wrapped model *)
  Definition flattens (root flat : sys V) (sub : comp V) (P : subp V) : Prop :=
    forall c, In c (comps flat) <-> (In c (comps root) /\ c_name c <> c_name sub) \/ In c (comps (b_root P)).
  (** the wrapped model has no variable in common with the outer one *)
  Definition foreign (root : sys V) (P : subp V) : Prop :=
    (forall v, In v (sys_params (b_root P)) -> ~ In v (sys_params root)) /\ forall u, In u (sys_unks (b_root P)) -> ~ In u (sys_unks root).
  (** [t] has the inputs of the outer vectors [s] and the inner ones [s0] *)
  Definition flat_inputs (root : sys V) (conns : list (conn V)) (sub : comp V) (P : subp V) (s s0 t : st V) : Prop :=
    (forall c v, In c (comps root) -> c_name c <> c_name sub -> In v (c_params c) -> ~ In v (map k_tgt conns) -> pv t v = pv s v) /\
    (forall c u, In c (comps root) -> c_name c <> c_name sub -> indep c -> In u (c_unks c) -> uv t u = uv s u) /\
    (forall i x pl v, nth_error (c_params sub) i = Some x -> nth_error (b_params P) i = Some pl -> ~ In x (map k_tgt conns) -> In v (ins pl) -> pv t v = pv s x) /\
    same_others P s0 t.
End Spec.

(** what a name in the list of params stands for *)
Definition stands_for (dangling : list (string * list string)) (unks : list (string * bool)) (n : string) (pl : place) : Prop :=
  match pl with
  | Inputs l => sget dangling n = Some l
  | Output u => u = n /\ sget dangling n = None /\ sget unks n = Some true
  end.

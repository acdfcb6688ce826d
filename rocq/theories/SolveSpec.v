(** Specification for the nonlinear solvers. *)
From Verif Require Import Base VecModel OptionsModel SolveModel.
Local Open Scope nat_scope.

Definition finite (f : fl) : Prop := exists q, f = Fin q.

(** a tolerance is met: the residual norm is at most atol, at most rtol times
    the reference norm, or the unknowns changed by at most utol *)
Definition met (atol rtol utol base : Q) (obs : fl * fl) : Prop :=
  exists r u, obs = (Fin r, Fin u) /\ (r <= atol \/ r <= rtol * base \/ u <= utol)%Q.

(** norms are not negative *)
Definition norms_ok {S} (sys : system S) : Prop :=
  (forall s q, rnorm sys s = Fin q -> 0 <= q)%Q /\ (forall v q, vnorm sys v = Fin q -> 0 <= q)%Q.

(** the model computes without raising *)
Definition no_raise {S} (sys : system S) : Prop :=
  (forall s, snd (children sys s) = None) /\ (forall s, snd (apply_nl sys s) = None).

(** the iteration without any stopping rule: state after iteration k *)
Fixpoint plain_iterate {S} (sys : system S) (s : S) (k : nat) : S :=
  match k with
  | 0 => s
  | Datatypes.S k' => fst (apply_nl sys (fst (children sys (plain_iterate sys s k'))))
  end.

(** the reference norm: the first norm, or 1 if that is already within atol *)
Definition reference (atol : Q) (first base : Q) : Prop :=
  ((first <= atol -> base == 1) /\ (atol < first -> base == first))%Q.

(** all entries of a vector of unknowns respect the declared bounds of their
    variables *)
Fixpoint in_bounds (vars : list nvar) (u : list Q) : Prop :=
  match vars with
  | [] => True
  | v :: rest =>
      (forall j x, nth_error (firstn (n_size v) u) j = Some x ->
         (forall l b, n_lower v = Some l -> nth_error l j = Some b -> b <= x)%Q /\
         (forall l b, n_upper v = Some l -> nth_error l j = Some b -> x <= b)%Q) /\
      in_bounds rest (skipn (n_size v) u)
  end.

(** a variable that takes part: no 'remote' or 'pass_by_obj' key, bounds of its
    own size *)
Definition plain_var (v : nvar) : Prop :=
  n_remote v = false /\ n_pbo v = false /\
  (forall l, n_lower v = Some l -> length l = n_size v) /\ (forall l, n_upper v = Some l -> length l = n_size v).

Definition total_size (vars : list nvar) : nat := list_sum (map n_size vars).

(** reading the unknowns gives what was written; calls that succeed do not move
    the unknowns *)
Definition frames {S} (ns : nsystem S) : Prop :=
  (forall s u, get_u (n_sys ns) (set_u (n_sys ns) s u) = u) /\
  (forall s t, apply_nl (n_sys ns) s = (t, None) -> get_u (n_sys ns) t = get_u (n_sys ns) s) /\
  (forall s t, linearize ns s = (t, None) -> get_u (n_sys ns) t = get_u (n_sys ns) s) /\
  (forall s t, direction ns s = (t, None) -> get_u (n_sys ns) t = get_u (n_sys ns) s) /\
  (forall s, length (get_du ns s) = total_size (n_vars ns)).

(** dictionaries as System.__init__ builds them: 'type' holds one of its allowed
    values, and a step size that was never set by the user is the default of the
    type 'fd' or 'cs' *)
Definition value_of (d : dict) (n : string) : option value := option_map o_val (sget (d_options d) n).
Definition usual_options (d : dict) : Prop :=
  d_kind d = Deriv /\
  (exists o l v, sget (d_options d) "type" = Some o /\ o_values o = Some l /\ o_val o = VStr v /\
                 In (VStr v) l /\ In (VStr "user") l) /\
  (exists o, sget (d_options d) "step_size" = Some o /\
     (o_changed o = false -> (value_of d "type" = Some (VStr "fd") -> o_val o = step_fd) /\
                             (value_of d "type" = Some (VStr "cs") -> o_val o = step_cs))).

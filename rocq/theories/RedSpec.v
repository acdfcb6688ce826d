(** When the relevant variables suffice: conditions on the entries of the matrix. *)
From Verif Require Import Base LinModel LinSpec GradModel GradSpec RedModel.
Local Open Scope nat_scope.
Local Open Scope list_scope.

Section Spec.
  Context {F : Type} (F0 F1 : F) (fadd fmul : F -> F -> F) (fopp : F -> F).
  Notation sys := (sys (F:=F)).
  Notation prob := (prob (F:=F)).
  Variables keep_u keep_p : nat -> bool.

  (** names are used once, no state has the name of a parameter, and variables are kept
      or dropped as a whole *)
  Definition whole_us (us : list (uvar (F:=F))) : Prop := forall u i, In u us -> i < u_size u -> keep_u (u_off u + i) = keep_u (u_off u).
  Definition whole_comp (c : comp (F:=F)) : Prop :=
    NoDup (map u_name (c_unks c)) /\ NoDup (map p_name (c_params c)) /\
    (forall u p, In u (c_unks c) -> In p (c_params c) -> u_name u <> p_name p) /\
    whole_us (c_unks c) /\ (forall p i, In p (c_params c) -> i < p_size p -> keep_p (p_off p + i) = keep_p (p_off p)).
  (** a kept parameter has a kept source, and a parameter with a kept source is kept
      where a kept variable depends on it *)
  Definition kept_conns (ks : list conn) (m : list (entry (F:=F))) : Prop :=
    forall k, In k ks -> (keep_p (k_tgt k) = true -> keep_u (k_src k) = true) /\
      forall e, In e m -> e_col e = CP (k_tgt k) -> keep_u (e_row e) = true -> keep_u (k_src k) = true -> keep_p (k_tgt k) = true.
  Fixpoint whole (s : sys) : Prop :=
    match s with
    | Comp c => whole_comp c
    | Indep us => whole_us us
    | FdGroup ks c => whole_comp c /\ kept_conns ks (comp_mat F1 fmul fopp None c)
    | Group _ _ ks subs => fold_right (fun s P => whole s /\ P) True subs /\ kept_conns ks (flat_map (sys_mat F1 fmul fopp None) subs)
    end.

  (** unknown r depends directly on unknown c *)
  Definition depends (s : sys) (r c : nat) : Prop := exists e, In e (sys_mat F1 fmul fopp None s) /\ e_row e = r /\ e_col e = CU c.

  (** reach: all that depends on the positions 'from' (forward), or all that the positions
      'from' depend on (reverse).  What is kept lies in it, nothing in it that a kept
      variable depends on (or that depends on a kept variable) is missing, and the
      positions that are asked for are kept if they are in it *)
  Definition relevant (fwd : bool) (s : sys) (from asked : list nat) : Prop :=
    exists reach : nat -> bool,
      (forall q, In q from -> reach q = true) /\
      (forall r c, depends s r c -> if fwd then reach c = true -> reach r = true else reach r = true -> reach c = true) /\
      (forall k, In k (rows s) -> keep_u k = true -> reach k = true) /\
      (forall r c, depends s r c -> if fwd then keep_u r = true -> reach c = true -> keep_u c = true
                                    else keep_u c = true -> reach r = true -> keep_u r = true) /\
      (forall k, In k asked -> reach k = true -> keep_u k = true).
End Spec.

Section Solver.
  Context {F : Type} (F0 F1 : F) (fadd fmul : F -> F -> F) (fopp : F -> F).
  Notation sys := (sys (F:=F)).
  Notation prob := (prob (F:=F)).
  (** the solver for a key solves the equations of a system, or their transpose *)
  Definition exact_for (p : prob) (key : option string) (s : sys) (fwd : bool) : Prop := forall rhs k, In k (rows s) ->
    (if fwd then row_of F0 fadd fmul (sys_mat F1 fmul fopp None s) (over (p_solve p true key rhs) (fun _ => F0)) k
     else col_of F0 fadd fmul (sys_mat F1 fmul fopp None s) (p_solve p false key rhs) (CU k)) = rhs k.

  (** each variable with vectors of its own (n ranges over the design variables in forward
      mode, over the functions in reverse mode) has vectors which suffice, and its solver
      solves the equations of the system seen through them *)
  Definition reduced (p : prob) (s : sys) (fwd : bool) (indep unknown : list string) : Prop :=
    let names := if fwd then indep else unknown in
    let idx := if fwd then p_poi p else p_qoi p in
    let others := if fwd then unknown else indep in
    let oidx := if fwd then p_qoi p else p_poi p in
    forall n, In n names -> keyed p n -> exists keep_u keep_p,
      whole F1 fmul fopp keep_u keep_p s /\
      relevant F1 fmul fopp keep_u fwd s (wanted p idx n) (flat_map (wanted p oidx) others) /\
      (forall o k, In o others -> In k (wanted p oidx o) -> p_rel p (Some n) o = keep_u k) /\
      exact_for p (Some n) (reduce keep_u keep_p s) fwd.

  (** the solver for a key is one sweep of LinearGaussSeidel over a group *)
  Definition swept_for (fsub : F -> F -> F) (tiny : list F -> bool) (p : prob) (key : option string) (fwd : bool)
      (ns : list string) (ks : list conn) (subs : list sys) : Prop :=
    forall rhs : nat -> F, exists st st' : state (F:=F),
      (forall k, In k (flat_map rows subs) -> du st k = F0) /\ (forall t, In t (flat_map outside_params subs) -> dp st t = F0) /\
      sweep F0 fadd fmul fsub fopp tiny fwd ns ks subs rhs st = Ok st' /\
      forall k, In k (flat_map rows subs) -> p_solve p fwd key rhs k = (if fwd then du st' k else dr st' k).
End Solver.

(** Positions and the variables they belong to (absolute paths, as in RelModel.v): a
    direct dependence is that of an entry on itself, goes through a connection, or couples
    two unknowns of a component, both of which are kept or dropped *)
Definition through {F} (F1 : F) fmul fopp (conns : list (list string * list string * nat)) (owner : nat -> list string) (keep_u : nat -> bool) (s : sys (F:=F)) : Prop :=
  forall r c, depends F1 fmul fopp s r c ->
    r = c \/ (exists tgt w, In (owner c, tgt, w) conns /\ removelast tgt = removelast (owner r)) \/
    (removelast (owner r) = removelast (owner c) /\ keep_u r = keep_u c).
(** promoted names: an unknown shares its name only with parameters connected to it *)
Definition names_fit {F} (prom : list string -> string) (abs : string -> list string) (conns : list (list string * list string * nat))
    (vois : list string) (owner : nat -> list string) (s : sys (F:=F)) : Prop :=
  forall k, In k (rows s) ->
    (forall a b w, In (a, b, w) conns -> prom (owner k) = prom a \/ prom (owner k) = prom b -> owner k = a) /\
    (forall n, In n vois -> prom (owner k) = n -> owner k = abs n).

(** as reduced, with one sweep of LinearGaussSeidel over what is kept of the root group *)
Definition reduced_sweep {F} (F0 F1 : F) fadd fmul fopp (fsub : F -> F -> F) (tiny : list F -> bool) (p : prob (F:=F)) (fwd : bool) (indep unknown : list string)
    (ns : list string) (ks : list conn) (subs : list (sys (F:=F))) : Prop :=
  let s := Group ns None ks subs in
  let names := if fwd then indep else unknown in
  let idx := if fwd then p_poi p else p_qoi p in
  let others := if fwd then unknown else indep in
  let oidx := if fwd then p_qoi p else p_poi p in
  forall n, In n names -> keyed p n -> exists keep_u keep_p,
    whole F1 fmul fopp keep_u keep_p s /\
    relevant F1 fmul fopp keep_u fwd s (wanted p idx n) (flat_map (wanted p oidx) others) /\
    (forall o k, In o others -> In k (wanted p oidx o) -> p_rel p (Some n) o = keep_u k) /\
    wf (reduce keep_u keep_p s) /\ feed_forward F0 F1 fadd fmul fopp fwd (reduce keep_u keep_p s) /\ unscaled (reduce keep_u keep_p s) /\
    swept_for F0 fadd fmul fopp fsub tiny p (Some n) fwd ns (reduce_conns keep_u keep_p ks) (map (reduce keep_u keep_p) subs).

(** Model of openmdao/solvers/solver_base.py error_wrap_nl (lines 14-66), the decorator of
    NonLinearSolver.solve in run_once.py (26), nl_gauss_seidel.py (77) and newton.py (117), and
    of the stack of solvers made by Group.solve_nonlinear (core/group.py 734-739).
    The entries of a vector are given by their being finite.  A solver is its vectors and a list
    of steps, each an action of its own (a component, an update) or the solver of a subgroup;
    which steps are taken is part of the actions, hence the list may be any.  Python exceptions
    leave the state as it was when they were raised. *)
From Verif Require Import Base ExprModel LcnModel.
Local Open Scope list_scope.

(** vec._dat[var].val: a flat view, or, for a remote param, the initial value, here a float
    (core/vec_wrapper.py TgtVecWrapper.setup 1105-1115 maps only the local ones) *)
Inductive val := Flat (finite : list bool) | Scalar (finite : bool).
Record var := mkVar { v_name : txt; v_pbo : bool; v_val : val }.
Record vectors := mkVecs { g_params : list var; g_unknowns : list var; g_resids : list var }.
(** lines 31-48; all(numpy.bool_) raises TypeError *)
Fixpoint nonfinite (l : list var) : res (list txt) :=
  match l with
  | [] => Ok []
  | v :: l =>
      if v_pbo v then nonfinite l
      else match v_val v with
           | Scalar _ => Err TypeError
           | Flat b => let! r := nonfinite l in Ok (if negb (forallb (fun x => x) b) then v_name v :: r else r)
           end
  end.
(** repr of a list of strings without quotes *)
Definition quote (n : txt) : txt := t_ "'" ++ n ++ t_ "'".
Fixpoint commas (l : list txt) : txt :=
  match l with [] => [] | [n] => quote n | n :: l => quote n ++ t_ ", " ++ commas l end.
Definition repr (l : list txt) : txt := t_ "[" ++ commas l ++ t_ "]".
Definition newline : txt := ["010"%char].
Definition piece (what : txt) (l : list txt) : txt :=
  match l with [] => [] | _ => newline ++ t_ "The following " ++ what ++ t_ " are nonfinite: " ++ repr l end.
(** lines 50-56 *)
Definition report (g : vectors) (msg : txt) : res txt :=
  let! u := nonfinite (g_unknowns g) in
  let! r := nonfinite (g_resids g) in
  let! p := nonfinite (g_params g) in
  Ok (msg ++ piece (t_ "unknowns") u ++ piece (t_ "resids") r ++ piece (t_ "params") p).

(** FloatingPointError with its message and the attribute seen, or another exception *)
Inductive exn := Fpe (msg : txt) (seen : bool) | Other (e : pyerr).
Section Stack.
  Context {S : Type}.
  Definition code := S -> S * option exn.
  Definition wrap (view : S -> vectors) (fn : code) : code := fun s =>
    let (s', e) := fn s in
    (s', match e with
         | Some (Fpe m true) => e
         | Some (Fpe m false) => match report (view s') m with Ok m' => Some (Fpe m' true) | Err x => Some (Other x) end
         | _ => e
         end).
  Inductive solver := Solver (view : S -> vectors) (steps : list step)
  with step := Act (a : code) | Sub (sub : solver).
  (** the body of solve: an exception ends it *)
  Definition andthen (a b : code) : code := fun s => match a s with (s', None) => b s' | r => r end.
  Fixpoint solve (x : solver) : code :=
    match x with
    | Solver view steps =>
        wrap view ((fix body l := match l with [] => fun s => (s, None) | a :: l => andthen (take a) (body l) end) steps)
    end
  with take (a : step) : code := match a with Act a => a | Sub x => solve x end.
End Stack.
Arguments code : clear implicits.
Arguments solver : clear implicits.
Arguments step : clear implicits.

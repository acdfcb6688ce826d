(** Model of the Krylov solver and of the direct solver of a group's linear system:
    openmdao/solvers/scipy_gmres.py solve 95-180 and _precon 182-236,
    openmdao/solvers/solver_base.py mult 266-299 (the product of C28),
    openmdao/core/group.py solve_linear 887-959 with such a solver,
    openmdao/solvers/ln_direct.py solve 83-138 with jacobian_method 'MVP' after a
    linearization (its caching is the subject of C62).

    Numbers are the elements of a commutative ring.  scipy's gmres is any procedure which
    asks for products with the operator and for applications of the preconditioner, one
    after the other, and returns a vector and a code; what it asks may depend on the
    answers so far.  Its arrays are lists.  One key (vectors of None); rel_inputs is None.
    The monitor, iteration counts and printing are not modelled. *)
From Verif Require Import Base LinModel AssembleModel.
Local Open Scope string_scope.
Local Open Scope nat_scope.
Local Open Scope list_scope.

Section Kry.
  Context {F : Type} (F0 F1 : F) (fadd fmul fsub : F -> F -> F) (fopp : F -> F) (tiny : list F -> bool).
  Notation sys := (sys (F:=F)).
  Notation state := (state (F:=F)).

  (** scipy.sparse.linalg.gmres(A, rhs, M=M, ...) *)
  Inductive gm : Type :=
  | Done (x : list F) (info : Z)
  | Product (v : list F) (k : list F -> gm)
  | Precon (v : list F) (k : list F -> gm).

  (** an array on the positions of a system; the value at other positions is not used *)
  Fixpoint spread (cells : list nat) (l : list F) : nat -> F :=
    match cells, l with
    | c :: cells', a :: l' => fun k => if k =? c then a else spread cells' l' k
    | _, _ => fun _ => F0
    end.
  Definition on (s : sys) (v : nat -> F) : list F := map v (rows s).

  (** mult 266-299: sol_vec.vec[:] = arg fails if the sizes differ *)
  Definition product (fwd : bool) (s : sys) (v : list F) (st : state) : res (list F * state) :=
    if length v =? length (rows s) then
      let! r := mult F0 fadd fmul fsub fwd s (spread (rows s) v) st in Ok (on s (fst r), snd r)
    else Err ValueError.
  (** _precon 182-236; pre is system.solve_linear(..., solver=self.preconditioner) *)
  Definition precon (fwd : bool) (s : sys) (pre : state -> res state) (v : list F) (st : state) : res (list F * state) :=
    if length v =? length (rows s) then
      let v := spread (rows s) v in
      let st := if fwd then mkS (du st) (copy_at (rows s) v (dr st)) (clear_dparams F0 s (dp st))
                else mkS (copy_at (rows s) v (du st)) (dr st) (clear_dparams F0 s (dp st)) in
      let! st := pre st in Ok (on s (if fwd then du st else dr st), st)
    else Err ValueError.
  (** the callbacks of gmres; without a preconditioner M is None: the identity *)
  Fixpoint drive (fwd : bool) (s : sys) (pre : option (state -> res state)) (t : gm) (st : state) : res (list F * Z * state) :=
    match t with
    | Done x info => Ok (x, info, st)
    | Product v k => let! r := product fwd s v st in drive fwd s pre (k (fst r)) (snd r)
    | Precon v k =>
        match pre with
        | None => drive fwd s pre (k v) st
        | Some f => let! r := precon fwd s f v st in drive fwd s pre (k (fst r)) (snd r)
        end
    end.
  (** solve 122-178; err: options['err_on_maxiter'] *)
  Definition gmres_solve (fwd err : bool) (s : sys) (pre : option (state -> res state)) (g : list F -> gm) (rhs : list F) (st : state)
    : res (list F * state) :=
    let! r := drive fwd s pre (g rhs) st in
    let '(x, info, st) := r in
    if (0 <? info)%Z then if err then Err AnalysisError else Ok (x, st)
    else if (info <? 0)%Z then Err RuntimeError
    else Ok (x, st).

  (** LinearGaussSeidel (one sweep) as preconditioner of a group *)
  Definition gs_pre (fwd : bool) (ns : list string) (ks : list conn) (subs : list sys) : state -> res state :=
    sys_solve F0 fadd fmul fsub fopp tiny fwd (Group ns None ks subs).

  (** DirectSolver.solve: lin is lu_solve(lu_factor(jacobian), rhs) or linalg.solve, which
      fail for singular matrices *)
  Definition direct_mvp (fwd : bool) (s : sys) (lin : list (list F) -> list F -> res (list F)) (rhs : list F) (st : state) : res (list F * state) :=
    let! m := assemble_mvp F0 F1 fadd fmul fsub fwd s st in
    let! x := lin (map (fun i => map (fst m i) (rows s)) (rows s)) rhs in
    Ok (x, snd m).

  (** Group.solve_linear 938-959 with a solver of this kind *)
  Definition group_linear (fwd : bool) (s : sys) (solve : list F -> state -> res (list F * state)) (st : state) : res state :=
    let rhs := on s (if fwd then dr st else du st) in
    if tiny rhs then Ok (if fwd then mkS (zero_at F0 (rows s) (du st)) (dr st) (dp st) else mkS (du st) (zero_at F0 (rows s) (dr st)) (dp st))
    else
      let! r := solve rhs st in
      let (x, st) := r in
      if length x =? length (rows s) then
        Ok (if fwd then mkS (copy_at (rows s) (spread (rows s) x) (du st)) (dr st) (dp st)
            else mkS (du st) (copy_at (rows s) (spread (rows s) x) (dr st)) (dp st))
      else Err ValueError.
End Kry.

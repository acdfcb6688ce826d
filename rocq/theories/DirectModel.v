(** Model of openmdao/solvers/ln_direct.py: DirectSolver.__init__ 36-58, solve 83-138, with
    the flag _jacobian_changed of the system (core/system.py lines 194, 958).
    A matrix is an element of a type [M].  The system's current linearization is the
    matrix of its fwd operator; Group.assemble_jacobian gives it in fwd mode and its
    transpose in rev mode (properties C29, C30).  lu_factor keeps the matrix; lu_solve and
    linalg.solve are the argument [solve]; lu_solve of no factorization and linalg.solve
    of no matrix are a TypeError.  Several solvers can belong to one system (the
    ln_solver of the group and the one of its Newton solver). *)
From Verif Require Import Base.
Local Open Scope nat_scope.
Local Open Scope list_scope.

Section Direct.
  Context {M V : Type} (tr : M -> M) (solve : M -> V -> V).
  Inductive dmode : Type := Fwd | Rev.
  Definition dmode_eqb (a b : dmode) : bool := match a, b with Fwd, Fwd | Rev, Rev => true | _, _ => false end.
  Inductive dmeth : Type := LU | Plain.
  (** the attributes of a solver *)
  Record dsolver : Type := mkDs { ds_meth : dmeth; ds_jac : option M; ds_lup : option M; ds_mode : option dmode }.
  Definition new_solver : dsolver := mkDs LU None None None.
  (** the system: its linearization and _jacobian_changed *)
  Record dsystem : Type := mkSys { sy_op : M; sy_changed : bool }.
  (** group.assemble_jacobian(mode=mode, ...), group.py lines 980-1088; method 'MVP' uses
      the mode of the solver, which has just been set to [mode] *)
  Definition assembled (op : M) (mode : dmode) : M := match mode with Fwd => op | Rev => tr op end.

  (** the body of the loop over the quantities of interest, lines 111-136 *)
  Definition solve_one (mode : dmode) (sy : dsystem) (s : dsolver) (rhs : V) : res (dsystem * dsolver * V) :=
    let (sy, s) :=
      if sy_changed sy
      then let j := assembled (sy_op sy) mode in
           (mkSys (sy_op sy) false, mkDs (ds_meth s) (Some j) (match ds_meth s with LU => Some j | Plain => ds_lup s end) (Some mode))
      else (sy, s) in
    match (match ds_meth s with LU => ds_lup s | Plain => ds_jac s end) with
    | Some m => Ok (sy, s, solve m rhs)
    | None => Err TypeError
    end.
  Fixpoint solve_loop (mode : dmode) (sy : dsystem) (s : dsolver) (rhs_mat : list (string * V)) : res (dsystem * dsolver * list (string * V)) :=
    match rhs_mat with
    | [] => Ok (sy, s, [])
    | (voi, rhs) :: r =>
        let! x := solve_one mode sy s rhs in
        let '(sy1, s1, d) := x in
        let! y := solve_loop mode sy1 s1 r in
        let '(sy2, s2, sol) := y in
        Ok (sy2, s2, (voi, d) :: sol)
    end.
  (** solve, lines 83-138; lines 106-107 *)
  Definition direct_solve (mode : dmode) (sy : dsystem) (s : dsolver) (rhs_mat : list (string * V)) : res (dsystem * dsolver * list (string * V)) :=
    let s := match ds_mode s with None => mkDs (ds_meth s) (ds_jac s) (ds_lup s) (Some mode) | Some _ => s end in
    solve_loop mode sy s rhs_mat.

  (** what happens to a system and its solvers *)
  Inductive devent : Type :=
  | Linearize (op : M)                                      (** _sys_linearize, core/system.py 890-959 *)
  | Solve (who : nat) (mode : dmode) (rhs_mat : list (string * V))
  | SetMethod (who : nat) (m : dmeth).                       (** options['solve_method'] = m *)
  Definition set_nth {A} (l : list A) (i : nat) (a : A) : list A := firstn i l ++ a :: skipn (S i) l.
  Definition dstate : Type := (dsystem * list dsolver)%type.
  (** one event: the new state and, for a solve, the solutions *)
  Definition dstep (st : dstate) (e : devent) : res (dstate * list (string * V)) :=
    let (sy, ss) := st in
    match e with
    | Linearize op => Ok ((mkSys op true, ss), [])
    | SetMethod who m => match nth_error ss who with
                         | Some s => Ok ((sy, set_nth ss who (mkDs m (ds_jac s) (ds_lup s) (ds_mode s))), [])
                         | None => Err IndexError
                         end
    | Solve who mode rhs => match nth_error ss who with
                            | Some s => let! x := direct_solve mode sy s rhs in
                                        let '(sy', s', sol) := x in Ok ((sy', set_nth ss who s'), sol)
                            | None => Err IndexError
                            end
    end.
  Fixpoint drun (st : dstate) (h : list devent) : res (dstate * list (list (string * V))) :=
    match h with
    | [] => Ok (st, [])
    | e :: r => let! x := dstep st e in let (st1, sol) := x in
                let! y := drun st1 r in let (st2, sols) := y in Ok (st2, sol :: sols)
    end.
End Direct.

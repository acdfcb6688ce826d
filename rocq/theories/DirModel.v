(** Model of the working directories of systems: System._setup_dir
    (core/system.py 471-486), DirContext (util/file_util.py 188-203), and the
    places where a context is entered: Driver.run_once (core/driver.py
    785-786), Group.children_solve_nonlinear (core/group.py 741-759),
    ParallelGroup.children_solve_nonlinear (core/parallel_group.py 79-91),
    System._sys_linearize (core/system.py 896-958), LinearGaussSeidel.solve
    (solvers/ln_gauss_seidel.py 115-198), Newton.solve (solvers/newton.py
    184-192), the preconditioner of ScipyGMRES (solvers/scipy_gmres.py
    196-231) and PetscKSP (solvers/petsc_ksp.py), Problem.run_once and
    calc_gradient (core/problem.py 1163-1175, 1297-1310).

    Simplifications: one process, every system active; directories exist
    (create_dirs is not modelled), so os.chdir does not fail; components leave
    the working directory as they find it; a system's directory is a string
    (not a function of the rank); solvers are lists of what they do to their
    system, so that any number of iterations is covered; groups with deriv
    type 'fd' are not modelled; all data are left out. *)
From Verif Require Import Base.
Local Open Scope string_scope.

(** methods of components that the framework calls *)
Inductive meth : Type :=
| MSolve      (** solve_nonlinear *)
| MApply      (** apply_nonlinear (which runs explicit components again) *)
| MLin        (** linearize, or the finite differences instead *)
| MSolveLin   (** solve_linear *)
| MApplyLin.  (** apply_linear *)

(** what a linear solver does to its system *)
Inductive lact : Type :=
| LApply                      (** _sys_apply_linear of the system *)
| LForward                    (** one forward pass of LinearGaussSeidel *)
| LReverse                    (** one reverse pass *)
| LPrecon (l : list lact).    (** the preconditioner, itself a linear solver *)

(** what a nonlinear solver does to its system *)
Inductive nact : Type :=
| NChildren                   (** children_solve_nonlinear *)
| NApply                      (** apply_nonlinear *)
| NLin                        (** _sys_linearize *)
| NSolveLin (l : list lact).  (** Newton's linear solve *)

(** systems: path, attribute directory, attribute _dircontext (None for
    _DummyContext, the dpath of a DirContext otherwise); for components
    _run_apply, for groups the solvers and the subsystems *)
Inductive sys : Type :=
| Comp (path dir : string) (ctx : option string) (run_apply : bool)
| Grp (path dir : string) (ctx : option string) (nl : list nact) (ln : list lact) (subs : list sys).

Definition s_path (s : sys) : string := match s with Comp p _ _ _ => p | Grp p _ _ _ _ _ => p end.
Definition s_dir (s : sys) : string := match s with Comp _ d _ _ => d | Grp _ d _ _ _ _ => d end.
Definition s_ctx (s : sys) : option string := match s with Comp _ _ c _ => c | Grp _ _ c _ _ _ => c end.
(** _run_apply: groups always have it (group.py 89) *)
Definition s_run_apply (s : sys) : bool := match s with Comp _ _ _ r => r | Grp _ _ _ _ _ _ => true end.

(** os.path.isabs *)
Definition isabs (p : string) : bool :=
  match p with String "/" _ => true | _ => false end.

(** last character is a slash *)
Fixpoint ends_slash (p : string) : bool :=
  match p with
  | "" => false
  | String "/" "" => true
  | String _ p' => ends_slash p'
  end.

(** os.path.join of two parts *)
Definition join (a b : string) : string :=
  if isabs b then b
  else if (String.eqb a "" || ends_slash a)%bool then a ++ b
  else a ++ "/" ++ b.

(** System._setup_dir, 471-482: the absolute directory and the context *)
Definition setup_dir (parent dir : string) (old : option string) : string * option string :=
  if String.eqb dir "" then (parent, old)
  else let absdir := if isabs dir then dir else join parent dir in (absdir, Some absdir).

(** _setup_communicators over the tree (component.py 438, group.py 393-397) *)
Fixpoint setup (parent : string) (s : sys) : sys :=
  match s with
  | Comp p d c r => Comp p d (snd (setup_dir parent d c)) r
  | Grp p d c nl ln subs =>
      let (absdir, c') := setup_dir parent d c in
      Grp p d c' nl ln (map (setup absdir) subs)
  end.

(** the process: its working directory, the attribute start of the contexts,
    and the calls so far with the directory they ran in *)
Record world : Type := mkW {
  w_cwd : string; w_start : list (string * string); w_log : list (string * meth * string) }.

(** a program: the new world, and whether it ended without an exception *)
Definition prog : Type := world -> world * bool.

Definition skip : prog := fun w => (w, true).
Definition andthen (f g : prog) : prog :=
  fun w => let (w1, ok) := f w in if ok then g w1 else (w1, false).
Section RunList.
  Context {A : Type} (f : A -> prog).
  Fixpoint run_list (l : list A) : prog :=
    match l with [] => skip | a :: l' => andthen (f a) (run_list l') end.
  (** over reversed(l) *)
  Fixpoint run_rev (l : list A) : prog :=
    match l with [] => skip | a :: l' => andthen (run_rev l') (f a) end.
End RunList.

(** with s._dircontext: body (DirContext.__enter__, __exit__) *)
Definition with_ctx (s : sys) (body : prog) : prog := fun w =>
  match s_ctx s with
  | None => body w
  | Some d =>
      let w1 := mkW d (sset (w_start w) (s_path s) (w_cwd w)) (w_log w) in
      let (w2, ok) := body w1 in
      (mkW (match sget (w_start w2) (s_path s) with Some st => st | None => w_cwd w2 end)
           (w_start w2) (w_log w2), ok)
  end.

Section Dir.
  (** whether the n-th call raises an exception *)
  Variable raises : nat -> bool.

  (** a call of a method of a component *)
  Definition call (path : string) (m : meth) : prog := fun w =>
    (mkW (w_cwd w) (w_start w) (w_log w ++ [(path, m, w_cwd w)])%list, negb (raises (length (w_log w)))).

  (** Group.apply_nonlinear, group.py 800-818 *)
  Fixpoint apply_nl (s : sys) : prog :=
    match s with
    | Comp p _ _ _ => call p MApply
    | Grp _ _ _ _ _ subs =>
        run_list (fun sub => if s_run_apply sub then apply_nl sub else skip) subs
    end.

  (** _sys_linearize (system.py 917-947), Group.linearize (group.py 835-836) *)
  Fixpoint sys_linearize (s : sys) : prog :=
    with_ctx s (match s with
                | Comp p _ _ _ => call p MLin
                | Grp _ _ _ _ _ subs => run_list sys_linearize subs
                end).

  (** _sys_apply_linear (group.py 838-885) *)
  Fixpoint apply_lin (s : sys) : prog :=
    match s with
    | Comp p _ _ _ => call p MApplyLin
    | Grp _ _ _ _ _ subs => run_list apply_lin subs
    end.

  (** one step of a linear solver of a system; [fwd] and [bwd] are the passes
      over its subsystems *)
  Fixpoint lin_act (s : sys) (fwd bwd : prog) (a : lact) : prog :=
    match a with
    | LApply => apply_lin s
    | LForward => fwd
    | LReverse => bwd
    | LPrecon l => with_ctx s (run_list (lin_act s fwd bwd) l)
    end.

  (** LinearGaussSeidel.solve: what is done to one subsystem in a forward
      (148-155) and in a reverse pass (187-195) *)
  Definition fwd_step (sub : sys) (solve : prog) : prog := andthen (apply_lin sub) (with_ctx sub solve).
  Definition bwd_step (sub : sys) (solve : prog) : prog := andthen (with_ctx sub solve) (apply_lin sub).

  (** solve_linear with the system's own linear solver (group.py 887-939) *)
  Fixpoint solve_lin (s : sys) : prog :=
    match s with
    | Comp p _ _ _ => call p MSolveLin
    | Grp _ _ _ _ ln subs =>
        run_list (lin_act s (run_list (fun sub => fwd_step sub (solve_lin sub)) subs)
                            (run_rev (fun sub => bwd_step sub (solve_lin sub)) subs)) ln
    end.

  (** solve_linear with another solver *)
  Definition solve_lin_by (s : sys) (l : list lact) : prog :=
    match s with
    | Comp p _ _ _ => call p MSolveLin
    | Grp _ _ _ _ _ subs =>
        run_list (lin_act s (run_list (fun sub => fwd_step sub (solve_lin sub)) subs)
                            (run_rev (fun sub => bwd_step sub (solve_lin sub)) subs)) l
    end.

  (** one step of a nonlinear solver; [children] is children_solve_nonlinear *)
  Definition nl_act (s : sys) (children : prog) (a : nact) : prog :=
    match a with
    | NChildren => children
    | NApply => apply_nl s
    | NLin => sys_linearize s
    | NSolveLin l => with_ctx s (solve_lin_by s l)
    end.

  (** solve_nonlinear (group.py 716-739) *)
  Fixpoint solve_nl (s : sys) : prog :=
    match s with
    | Comp p _ _ _ => call p MSolve
    | Grp _ _ _ nl _ subs =>
        run_list (nl_act s (run_list (fun sub => with_ctx sub (solve_nl sub)) subs)) nl
    end.

  (** what a script does with a problem *)
  Inductive top : Type :=
  | TRun             (** Driver.run_once *)
  | TRunOnce         (** Problem.run_once *)
  | TGrad (n : nat). (** Problem.calc_gradient with n linear solves *)

  Fixpoint times (n : nat) (f : prog) : prog :=
    match n with O => skip | S n' => andthen f (times n' f) end.

  Definition do_top (root : sys) (t : top) : prog :=
    match t with
    | TRun => with_ctx root (solve_nl root)
    | TRunOnce => andthen (with_ctx root (solve_nl root)) (with_ctx root (apply_nl root))
    | TGrad n => with_ctx root (andthen (sys_linearize root) (times n (solve_lin root)))
    end.

  (** several of them; the script catches exceptions *)
  Fixpoint do_tops (root : sys) (ts : list top) (w : world) : world :=
    match ts with
    | [] => w
    | t :: rest => do_tops root rest (fst (do_top root t w))
    end.
End Dir.

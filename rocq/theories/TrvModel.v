(** Model of the tree of systems: openmdao/core/system.py _init_sys_data (lines 368-399, the
    pathname), openmdao/core/group.py find_subsystem (92-111), subsystems and subgroups (205-249),
    openmdao/core/problem.py find_subsystem (1117-1132) and print_all_convergence (2429-2459), and
    print_all_convergence of the solvers: solver_base.py 168-178, scipy_gmres.py 81-93,
    petsc_ksp.py 220-232, newton.py 101-115 and 270-284 (the second definition in the class
    replaces the first).
    A system is its name, the linear and the nonlinear solver if it is a group, and its
    subsystems in order.  Of a solver only iprint and the solvers in it are kept; all systems are
    local; no solver is in two places. *)
From Verif Require Import Base PathModel.
Local Open Scope list_scope.
Local Open Scope Z_scope.

Inductive solver :=
| Basic (iprint : Z)
| Krylov (iprint : Z) (preconditioner : option solver)
| Newton (iprint : Z) (line_search ln_solver : option solver).
Inductive sys := Sys (name : string) (solvers : option (solver * solver)) (subs : list sys).
Definition name (x : sys) : string := match x with Sys n _ _ => n end.
Definition solvers (x : sys) : option (solver * solver) := match x with Sys _ k _ => k end.
Definition subs (x : sys) : list sys := match x with Sys _ _ l => l end.
Definition is_group (x : sys) : bool := match solvers x with Some _ => true | None => false end.

(** system.py 391-396 *)
Definition pathname (parent n : string) : string :=
  if String.eqb parent "" then n else if String.eqb n "" then parent else append parent (append "." n).
(** subsystems(recurse=True), each with its pathname *)
Fixpoint subsystems (path : string) (x : sys) : list (string * sys) :=
  match x with
  | Sys _ _ l => flat_map (fun y => (pathname path (name y), y) :: (if is_group y then subsystems (pathname path (name y)) y else [])) l
  end.
(** s._subsystems[part] *)
Definition lookup (x : sys) (part : string) : res sys :=
  match find (fun y => String.eqb (name y) part) (subs x) with Some y => Ok y | None => Err KeyError end.
Definition find_subsystem (x : sys) (n : string) : res sys :=
  fold_left (fun r part => bind r (fun s => lookup s part)) (split_dot n) (Ok x).

(** options['iprint'] = level *)
Definition touch (level : Z) (s : solver) : solver :=
  match s with Basic _ => Basic level | Krylov _ p => Krylov level p | Newton _ a b => Newton level a b end.
Fixpoint tell (level : Z) (s : solver) : solver :=
  match s with
  | Basic _ => Basic level
  | Krylov _ p => Krylov level (match p with Some p => Some (tell level p) | None => None end)
  | Newton _ a b => Newton level (option_map (touch level) a) (option_map (touch level) b)
  end.
Fixpoint dots (s : string) : Z := match s with EmptyString => 0 | String c r => (if Ascii.eqb c "."%char then 1 else 0) + dots r end.
Definition tell_own (level : Z) (x : sys) : sys :=
  match x with
  | Sys n (Some (ln, nl)) l => Sys n (Some (tell level ln, tell level nl)) l
  | _ => x
  end.
(** the loop over subgroups(recurse=True) *)
Fixpoint tell_below (level depth : Z) (path : string) (x : sys) : sys :=
  match x with
  | Sys n k l => Sys n k (map (fun y =>
      let p := pathname path (name y) in
      let y' := if is_group y then tell_below level depth p y else y in
      if is_group y && negb (depth <=? dots p) then tell_own level y' else y') l)
  end.
Definition valid_level (level : Z) : bool := existsb (Z.eqb level) [-1; 0; 1; 2].
Definition print_all_convergence (locked : bool) (level depth : Z) (root : sys) : res sys :=
  if locked then if valid_level level then Ok (tell_own level (tell_below level depth "" root)) else Err ValueError else Err RuntimeError.

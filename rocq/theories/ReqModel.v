(** Processor requirements of a whole model, and the derivative mode:
    openmdao/core/system.py 429-437, core/group.py 1342-1362, core/parallel_group.py
    93-120 (both in AllocModel.v), core/parallel_fd_group.py 117-131,
    drivers/predeterminedruns_driver.py 197-212, core/problem.py 1187-1237 (_mode).
    Not modelled: components/subproblem.py (the requirements of another problem). *)
From Verif Require Import Base AllocModel.
Local Open Scope nat_scope.

(** ParallelFDGroup.get_req_procs and, with MPI, PredeterminedRunsDriver.get_req_procs *)
Definition times_req (k : nat) (r : reqs) : reqs := (fst r * k, option_map (fun m => m * k) (snd r)).

Inductive sys : Type :=
| SComp (r : reqs)                      (** a component with its get_req_procs *)
| SGroup (subs : list sys)
| SParallel (subs : list sys)
| SParallelFD (k : nat) (subs : list sys).
Fixpoint req (s : sys) : reqs :=
  match s with
  | SComp r => r
  | SGroup subs => group_req (map req subs)
  | SParallel subs => parallel_req (map req subs)
  | SParallelFD k subs => times_req k (group_req (map req subs))
  end.
Definition driver_req (mpi : bool) (num_par_doe : nat) (root : sys) : reqs := if mpi then times_req num_par_doe (req root) else req root.

(** ** _mode *)
Inductive voi : Type := One (n : string) | Many (ns : list string).
Definition voi_names (vs : list voi) : list string :=
  nodup string_dec (flat_map (fun v => match v with One n => [n] | Many ns => ns end) vs).
Inductive dmode : Type := Fwd | Rev.
(** the loop of lines 1210-1218, for one of the two sets: the total size and the
    names left; vars: (promoted name, size) of all unknowns, then all params *)
Fixpoint total_size (vars : list (string * nat)) (names : list string) (acc : nat) : nat * list string :=
  match vars with
  | [] => (acc, names)
  | (n, size) :: r => if in_dec string_dec n names then total_size r (remove string_dec n names) (acc + size) else total_size r names acc
  end.
(** None is 'auto' *)
Definition mode (arg option : option dmode) (vars : list (string * nat)) (indep_list unknown_list : list voi) : res dmode :=
  let '(u_length, uset) := total_size vars (voi_names unknown_list) 0 in
  let '(p_length, pset) := total_size vars (voi_names indep_list) 0 in
  match uset, pset with
  | _ :: _, _ => Err RuntimeError
  | [], _ :: _ => Err RuntimeError
  | [], [] =>
      let calculated := if u_length <? p_length then Rev else Fwd in
      Ok (match arg with Some m => m | None => match option with Some m => m | None => calculated end end)
  end.

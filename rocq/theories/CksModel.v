(** The checks of the model's graph and linear solvers: Problem._check_solvers
    (core/problem.py 687-795, with _needs_iteration 2704-2716) and Problem._check_graph
    (901-952).  The tree of systems and the graphs of subsystems are those of OrderModel.v;
    networkx's strongly_connected_components and dfs_edges are arguments (GraphSpec.v).
    Simplifications: all systems are active; the texts of the messages are dropped, a
    message is the path it names and the names it lists; a linear solver is LinearGaussSeidel
    or a Krylov solver with its maxiter, or DirectSolver, which has none. *)
From Verif Require Import Base GraphSpec OrderModel.
Local Open Scope string_scope.
Local Open Scope nat_scope.
Local Open Scope list_scope.

Inductive lnsolver : Type := GaussSeidel (maxiter : nat) | Krylov (maxiter : nat) | Direct.
(** a group: its linear solver, whether its derivatives are by complex step, whether its
    nonlinear solver has a linear solver *)
Record ginfo : Type := mkG { g_ln : lnsolver; g_cs : bool; g_newton : bool }.
(** a component: the names of its states relative to its path (longer than one name only for
    a SubProblem), and whether its class defines solve_linear *)
Inductive stree : Type := SComp (states : list path) (own : bool) | SGrp (g : ginfo) (cs : list (string * stree)).

(** the tree of OrderModel.v *)
Fixpoint erase (t : stree) : tree :=
  match t with
  | SComp _ _ => Leaf
  | SGrp _ cs => Node ((fix go (cs : list (string * stree)) : list (string * tree) := match cs with [] => [] | (n, c) :: r => (n, erase c) :: go r end) cs)
  end.
(** subgroups(recurse=True, include_self=True): group.py 205-249 *)
Fixpoint groups (p : path) (t : stree) : list (path * ginfo * list (string * stree)) :=
  match t with
  | SComp _ _ => []
  | SGrp g cs => (p, g, cs) :: (fix go (l : list (string * stree)) : list (path * ginfo * list (string * stree)) :=
                                  match l with [] => [] | (n, c) :: r => groups (p ++ [n]) c ++ go r end) cs
  end.
(** getattr along a path of names *)
Fixpoint getattr (t : stree) (q : path) : option stree :=
  match q with
  | [] => Some t
  | a :: q' => match t with SGrp _ cs => match sget cs a with Some c => getattr c q' | None => None end | SComp _ _ => None end
  end.
(** the states in _unknowns_dict: absolute names of all states below *)
Fixpoint states_of (p : path) (t : stree) : list path :=
  match t with
  | SComp sts _ => map (app p) sts
  | SGrp _ cs => (fix go (l : list (string * stree)) : list path := match l with [] => [] | (n, c) :: r => states_of (p ++ [n]) c ++ go r end) cs
  end.

(** ** _check_solvers *)
Inductive problem : Type :=
| CsGroup (p : path)
| CsNewton (p : path)
| Cycles (p : path) (strong : list (list path))
| Uniterated (p : path) (states : list path).

Definition peqb (a b : path) : bool := if path_dec a b then true else false.
Definition pmem (x : path) (l : list path) : bool := existsb (peqb x) l.
(** 705-712: maxiter > 1; DirectSolver has no option maxiter *)
Definition iterates (k : lnsolver) : bool := match k with GaussSeidel n | Krylov n => 1 <? n | Direct => true end.
(** 731-739: '.'.join(parts[:i]) for all i < len(parts); ''.split('.') is [''] *)
Definition uppers (p : path) : list path := match p with [] => [[]] | _ => map (fun i => firstn i p) (seq 0 (length p)) end.
Fixpoint any_iterates (d : list (path * bool)) (l : list path) : res bool :=
  match l with
  | [] => Ok false
  | q :: r => match dget peqb d q with None => Err KeyError | Some true => Ok true | Some false => any_iterates d r end
  end.
(** 2704-2716; 760-777 *)
Definition needs_iteration (t : stree) : bool := match t with SComp (_ :: _) own => negb own | _ => false end.
Fixpoint own_solvers (root : stree) (sts it : list path) : res (list path) :=
  match sts with
  | [] => Ok it
  | s :: r => if pmem s it then own_solvers root r it
              else match getattr root (removelast s) with
                   | None => Err AttributeError
                   | Some c => own_solvers root r (if needs_iteration c then it else it ++ [s])
                   end
  end.

Section Checks.
  Variable sccs : graph path -> list (list path).
  (** has_iter_solver, iterated_states, group_states, _setup_errors *)
  Record acc : Type := mkAcc { a_iter : list (path * bool); a_states : list path; a_groups : list (path * list path); a_errs : list problem }.
  Definition strong_of (sg : graph path) (p : path) : list (list path) := filter (fun s => 1 <? length s) (sccs (child_graph p sg)).
  (** 714-729 *)
  Definition cs_errors (root : stree) (p : path) (g : ginfo) : list problem :=
    if g_cs g then (match p with [] => [] | _ => [CsGroup p] end) ++ flat_map (fun e => if g_newton (snd (fst e)) then [CsNewton (fst (fst e))] else []) (groups [] root) else [].
  (** 746-760 *)
  Definition cycle_errors (sg : graph path) (p : path) (k : lnsolver) : list problem :=
    match k with
    | GaussSeidel 1 => match strong_of sg p with [] => [] | strong => [Cycles p strong] end
    | _ => []
    end.
  Definition check_group (root : stree) (sg : graph path) (a : acc) (e : path * ginfo * list (string * stree)) : res acc :=
    let '(p, g, cs) := e in
    let iter := dset peqb (a_iter a) p (iterates (g_ln g)) in
    let errs := a_errs a ++ cs_errors root p g in
    let! above := any_iterates iter (uppers p) in
    if above : bool then Ok (mkAcc iter (a_states a) (a_groups a) errs)
    else
      let errs := errs ++ cycle_errors sg p (g_ln g) in
      match states_of p (SGrp g cs) with
      | [] => Ok (mkAcc iter (a_states a) (a_groups a) errs)
      | sts => let! it := if iterates (g_ln g) then Ok (a_states a ++ sts) else own_solvers root sts (a_states a) in
               Ok (mkAcc iter it (a_groups a ++ [(p, sts)]) errs)
      end.
  Fixpoint check_groups (root : stree) (sg : graph path) (a : acc) (l : list (path * ginfo * list (string * stree))) : res acc :=
    match l with [] => Ok a | e :: r => let! a' := check_group root sg a e in check_groups root sg a' r end.
  (** 779-795 *)
  Definition state_errors (it : list path) (e : path * list path) : list problem :=
    match filter (fun s => negb (pmem s it)) (snd e) with [] => [] | u => [Uniterated (fst e) u] end.
  Definition check_solvers (root : stree) (sg : graph path) : res (list problem) :=
    let! a := check_groups root sg (mkAcc [([], false)] [] [] []) (groups [] root) in
    Ok (a_errs a ++ flat_map (state_errors (a_states a)) (a_groups a)).

  (** ** _check_graph *)
  Variable lt : path -> path -> bool.
  Variable dfs : graph path -> path -> list path.
  (** nearest_child for a name below the group (PathModel.v) *)
  Definition child_of (p n : path) : string := nth (length p) n "".
  (** list.index *)
  Fixpoint index (l : list string) (x : string) : res nat :=
    match l with [] => Err ValueError | y :: r => if String.eqb x y then Ok 0 else let! k := index r x in Ok (S k) end.
  (** sorted([(subs.index(s), s) for s in ..]), 918-922, after the last append instead of after each *)
  Fixpoint insert (e : nat * string) (l : list (nat * string)) : list (nat * string) :=
    match l with
    | [] => [e]
    | f :: r => if fst e <=? fst f then e :: l else f :: insert e r
    end.
  Fixpoint indexed (order : list string) (l : list string) : res (list (nat * string)) :=
    match l with [] => Ok [] | s :: r => let! k := index order s in let! rest := indexed order r in Ok (insert (k, s) rest) end.
  Definition in_order (order : list string) (l : list string) : res (list string) := let! r := indexed order l in Ok (map snd r).
  Fixpoint cycles_of (p : path) (order : list string) (strong : list (list path)) : res (list (list string)) :=
    match strong with
    | [] => Ok []
    | s :: r => let! c := in_order order (map (child_of p) s) in let! rest := cycles_of p order r in Ok (c :: rest)
    end.
  (** 929-935: out_of_order as a dictionary of sets *)
  Definition note (p : path) (sub : path) (d : list (string * list path)) (v : path) : list (string * list path) :=
    let n := child_of p v in
    let l := match sget d n with Some l => l | None => [] end in
    sset d n (if pmem sub l then l else l ++ [sub]).
  Definition visit (p : path) (h : graph path) (st : list path * list (string * list path)) (name : string) : list path * list (string * list path) :=
    let sub := p ++ [name] in
    let visited := sub :: fst st in
    (visited, fold_left (fun d v => if pmem v visited then note p sub d v else d) (dfs h sub) (snd st)).
  Definition out_of_order (p : path) (h : graph path) (order : list string) : list (string * list string) :=
    map (fun e => (fst e, map (child_of p) (snd e))) (snd (fold_left (visit p h) order ([], []))).
  (** one group: its cycles (917-926, None if it has none) and its entry of ooo (937-948); None
      outside is the recursion limit of break_scc, which is never reached *)
  Definition graph_of_group (sg : graph path) (e : path * ginfo * list (string * stree)) : option (res (list (list string)) * (path * list (string * list string))) :=
    let '(p, _, cs) := e in
    let g := child_graph p sg in
    match break_cycles path_dec lt sccs g with
    | None => None
    | Some (h, _) => Some (cycles_of p (map fst cs) (strong_of sg p), (p, out_of_order p h (map fst cs)))
    end.
  Fixpoint check_graph (sg : graph path) (l : list (path * ginfo * list (string * stree))) : option (res (list (list (list string)) * list (path * list (string * list string)))) :=
    match l with
    | [] => Some (Ok ([], []))
    | e :: r => match graph_of_group sg e, check_graph sg r with
                | Some (c, o), Some rest => Some (let! c := c in let! rest := rest in
                                                  Ok ((match c with [] => [] | _ => [c] end) ++ fst rest, (match snd o with [] => [] | _ => [o] end) ++ snd rest))
                | _, _ => None
                end
    end.
End Checks.

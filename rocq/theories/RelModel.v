(** Relevance of systems and variables to variables of interest:
    openmdao/core/relevance.py 15-55, 60-80, 104-126, 150-232.
    The system graph is sys_graph of OrderModel.v. Sets are lists. nx.dfs_edges is an
    argument (its edges' heads). abs (to_abs_uname) and prom (to_prom_name) are total
    functions: Problem.setup checks the names of the variables of interest before
    (problem.py 590-602). Simplified: variables of interest come as flat lists, the
    loops over tuples being nested. *)
From Verif Require Import Base GraphSpec OrderModel.
Local Open Scope nat_scope.

Section Rel.
  Variable dfs : graph path -> path -> list path.
  Variable abs : string -> path.
  Variable prom : path -> string.

  Definition comp (n : string) : path := removelast (abs n).
  (** sgraph.reverse() *)
  Definition reverse (g : graph path) : graph path := (fst g, map (fun e : path * path * nat => (snd (fst e), fst (fst e), snd e)) (snd g)).
  (** succs[node], lines 176-181; preds, lines 188-190 *)
  Definition from (g : graph path) (n : string) : list path := if in_dec path_dec (comp n) (fst g) then comp n :: dfs g (comp n) else [].
  Definition common (g : graph path) (inp out : string) : list path := filter (fun c => if in_dec path_dec c (from (reverse g) out) then true else false) (from g inp).

  Definition get {V} (r : list (string * list V)) (n : string) : list V := match sget r n with Some l => l | None => [] end.
  Definition update {V} (r : list (string * list V)) (n : string) (l : list V) : list (string * list V) := sset r n (get r n ++ l).

  (** lines 171-174 and the loop of lines 184-195 *)
  Definition start (inputs : list string) : list (string * list path) := fold_left (fun r n => sset r n []) inputs [].
  Definition output_step (g : graph path) (inputs : list string) (r : list (string * list path)) (node : string) : list (string * list path) :=
    fold_left (fun r inp => let c := common g inp node in update (update r node c) inp c) inputs (sset r node []).
  Definition relevant0 (g : graph path) (inputs outputs : list string) : list (string * list path) :=
    fold_left (output_step g inputs) outputs (start inputs).

  Definition memp (l : list path) (c : path) : bool := if in_dec path_dec c l then true else false.
  (** lines 200-220 *)
  Definition vois (r : list (string * list path)) (relcomps : list path) : list string := filter (fun n => memp relcomps (comp n)) (dkeys r).
  Definition conn_vars (conns : list (path * path * nat)) (relcomps : list path) : list string :=
    flat_map (fun cn : path * path * nat => let '(src, tgt, _) := cn in
                if memp relcomps (removelast tgt) && memp relcomps (removelast src) then [prom tgt; prom src] else []) conns.
  Definition relvars (conns : list (path * path * nat)) (r : list (string * list path)) : list (string * list string) :=
    map (fun e : string * list path => (fst e, vois r (snd e) ++ conn_vars conns (snd e))) r.

  (** '.'.join(parts[:i+1]) for i in range(len(parts)), lines 226-228 *)
  Definition ancestors (p : path) : list path := map (fun i => firstn (i + 1) (removelast p)) (seq 0 (length (removelast p))).
  Definition relsystems (r : list (string * list path)) : list (string * list path) :=
    map (fun e : string * list path => (fst e, snd e ++ flat_map ancestors (snd e))) r.

  Definition is_relevant (conns : list (path * path * nat)) (r : list (string * list path)) (voi v : string) : bool :=
    match sget (relvars conns r) voi with Some l => if in_dec string_dec v l then true else false | None => true end.
  Definition is_relevant_system (r : list (string * list path)) (voi : option string) (p : path) : res bool :=
    match voi with
    | None => Ok true
    | Some n => match sget (relsystems r) n with Some l => Ok (memp l p) | None => Err KeyError end
    end.
End Rel.

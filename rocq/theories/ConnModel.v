(** Connections: openmdao/core/group.py 647-693 (_get_explicit_connections),
    core/problem.py 177-290 (_setup_connections), 2396-2427
    (_add_implicit_connections), for the systems and names of NameModel.v.
    nx.dfs_edges and the order of a set are arguments. src_indices are lists of
    non-negative indices. Not modelled: the sorting of the result's keys. *)
From Verif Require Import Base GraphSpec OrderModel PathModel NameModel.
Local Open Scope nat_scope.

Notation conns_dict := (list (path * list (path * idxs))).
(** d.setdefault(k, []).append(x) *)
Definition append {V} (d : list (path * list V)) (k : path) (x : V) : list (path * list V) :=
  pset d k (match pget d k with Some l => l ++ [x] | None => [x] end).

(** the body of the loops of group.py 663-691 for one target and source *)
Definition connect_one (d : data) (tgt src : path) (i : idxs) (cs : conns_dict) : res conns_dict :=
  let! srcs := match pget (abs_u d) src with
               | Some u => Ok [u]
               | None => match pget (abs_p d) src with Some l => Ok l | None => Err NameError end
               end in
  match pget (abs_p d) tgt with
  | Some tgts => Ok (fold_left (fun cs t => fold_left (fun cs s => append cs t (s, i)) srcs cs) tgts cs)
  | None => Err NameError
  end.
Fixpoint connect_srcs (d : data) (tgt : path) (srcs : list (path * idxs)) (cs : conns_dict) : res conns_dict :=
  match srcs with
  | [] => Ok cs
  | (s, i) :: r => let! cs' := connect_one d tgt s i cs in connect_srcs d tgt r cs'
  end.
Fixpoint connect_all (d : data) (src : list (path * list (path * idxs))) (cs : conns_dict) : res conns_dict :=
  match src with
  | [] => Ok cs
  | (t, srcs) :: r => let! cs' := connect_srcs d t srcs cs in connect_all d r cs'
  end.
(** dict.update *)
Definition update_all {V} (a b : list (path * V)) : list (path * V) := fold_left (fun d e => pset d (fst e) (snd e)) b a.
(** _get_explicit_connections; the names of every group have been set up before *)
Fixpoint explicit (pth : path) (s : sys) : res conns_dict :=
  match s with
  | Comp _ _ => Ok []
  | Grp subs src =>
      let! cs := (fix go (subs : list (string * (list pattern * sys))) (acc : conns_dict) : res conns_dict :=
                    match subs with
                    | [] => Ok acc
                    | (n, (_, c)) :: r => let! sc := explicit (pth ++ [n]) c in go r (update_all acc sc)
                    end) subs [] in
      let! d := setup_variables pth s in
      connect_all d src cs
  end.
(** _add_implicit_connections *)
Definition implicit (d : data) (cs : conns_dict) : conns_dict :=
  fold_left (fun cs (e : path * list path) => match pget (abs_u d) (fst e) with
                                              | Some u => fold_left (fun cs p => append cs p (u, None)) (snd e) cs
                                              | None => cs
                                              end) (abs_p d) cs.
Definition noconns (d : data) (prom : path) : bool := match pget (abs_u d) prom with Some _ => false | None => true end.

(** ** the graph of inputs *)
Definition igraph : Type := (list path * list ((path * path) * idxs))%type.
Definition pair_dec (a b : path * path) : {a = b} + {a <> b}.
Proof. decide equality; apply path_dec. Defined.
Definition eeqb (a b : path * path) : bool := if pair_dec a b then true else false.
(** add_edge: the data of an existing edge are replaced *)
Definition add_edge (g : igraph) (s t : path) (i : idxs) : igraph := (add_node (add_node (fst g) s) t, dset eeqb (snd g) (s, t) i).
Definition children (g : igraph) (s : path) : list path := map (fun e => snd (fst e)) (filter (fun e : (path * path) * idxs => peqb (fst (fst e)) s) (snd g)).
Definition shape (g : igraph) : graph path := (fst g, map (fun e : (path * path) * idxs => (fst (fst e), snd (fst e), 0)) (snd g)).

(** lines 210-214 *)
Definition conn_edges (cs : conns_dict) (g : igraph) : igraph :=
  fold_left (fun g (e : path * list (path * idxs)) => fold_left (fun g (x : path * idxs) => add_edge g (fst x) (fst e) (snd x)) (snd e) g) cs g.
(** lines 216-223 *)
Definition star (d : data) (g : igraph) (e : path * list path) : igraph :=
  let g1 : igraph := (fold_left add_node (snd e) (fst g), snd g) in
  if noconns d (fst e) then
    match snd e with
    | start :: r => fold_left (fun g p => add_edge g start p None) r g1
    | [] => g1
    end
  else g1.
Definition input_graph (d : data) (cs : conns_dict) : igraph := fold_left (star d) (abs_p d) (conn_edges cs ([], [])).
(** usrcs, without repetitions *)
Definition usrcs (d : data) (cs : conns_dict) : list path :=
  nodup path_dec (filter (fun s => if in_dec path_dec s (unknowns d) then true else false) (flat_map (fun e : path * list (path * idxs) => map fst (snd e)) cs)).

(** nx.dfs_edges: the children of each node in the order they were added *)
Fixpoint dfs_visit (g : igraph) (fuel : nat) (vis : list path) (s : path) : list (path * path) * list path :=
  match fuel with
  | 0 => ([], vis)
  | S f => fold_left (fun (acc : list (path * path) * list path) t =>
                        if in_dec path_dec t (snd acc) then acc
                        else let '(es, vis') := dfs_visit g f (t :: snd acc) t in (fst acc ++ (s, t) :: es, vis')) (children g s) ([], vis)
  end.
Definition dfs_edges (g : igraph) (s : path) : list (path * path) := fst (dfs_visit g (S (length (snd g))) [s] s).

Section Connections.
  Variable dfs : igraph -> path -> list (path * path).
  Variable order : list path -> list path.   (** the iteration order of a set *)

  (** np.array(sidxs)[tidxs] *)
  Fixpoint take (l : list nat) (is : list nat) : res (list nat) :=
    match is with
    | [] => Ok []
    | i :: r => match nth_error l i with Some x => let! xs := take l r in Ok (x :: xs) | None => Err IndexError end
    end.
  (** lines 234-240 *)
  Definition compose (sidxs tidxs : idxs) : res idxs :=
    match tidxs with
    | None => Ok sidxs
    | Some t => match sidxs with None => Ok (Some t) | Some s => let! r := take s t in Ok (Some r) end
    end.
  Definition edge_idxs (g : igraph) (s t : path) : idxs := match dget eeqb (snd g) (s, t) with Some i => i | None => None end.
  Definition sidx (d : list (path * idxs)) (s : path) : idxs := match pget d s with Some i => i | None => None end.

  (** the inner loop of lines 233-247; in newconns an empty list stands for None *)
  Fixpoint walk (g : igraph) (src : path) (es : list (path * path)) (src_idxs : list (path * idxs)) (newconns : conns_dict) : res conns_dict :=
    match es with
    | [] => Ok newconns
    | (s, t) :: r => let! i := compose (sidx src_idxs s) (edge_idxs g s t) in walk g src r (pset src_idxs t i) (append newconns t (src, i))
    end.
  Fixpoint from_unknowns (g : igraph) (srcs : list path) (newconns : conns_dict) : res conns_dict :=
    match srcs with
    | [] => Ok newconns
    | s :: r => let! nc := walk g s (dfs g s) [(s, None)] (pset newconns s []) in from_unknowns g r nc
    end.

  (** lines 251-274 *)
  Record state := mkSt { newc : conns_dict; dangling : list (path * list path); input_inputs : list (path * list path) }.
  Fixpoint scan (es : list (path * path)) (nosrc : list path) (nc : conns_dict) : res (option path * list path) :=
    match es with
    | [] => Ok (None, nosrc)
    | (s, t) :: r => match pget nc t with
                     | Some ((src, _) :: _) => Ok (Some src, nosrc)
                     | Some [] => Err TypeError
                     | None => scan r (nosrc ++ [t]) nc
                     end
    end.
  Definition has_pred (g : igraph) (n : path) : bool := existsb (fun e : (path * path) * idxs => peqb (snd (fst e)) n) (snd g).
  Definition upstream_step (d : data) (g : igraph) (st : state) (n : path) : res state :=
    match pget (newc st) n with
    | Some _ => Ok st
    | None =>
        if has_pred g n then Ok st
        else let! r := scan (dfs g n) [n] (newc st) in
             Ok (match r with
                 | (Some src, nosrc) => mkSt (fold_left (fun nc m => pset nc m [(src, None)]) nosrc (newc st)) (dangling st) (input_inputs st)
                 | (None, nosrc) => mkSt (newc st) (fold_left (fun dg m => pset dg (to_prom_name d m) nosrc) nosrc (dangling st)) (fold_left (fun dg m => pset dg m nosrc) nosrc (input_inputs st))
                 end)
    end.
  Fixpoint upstream (d : data) (g : igraph) (ns : list path) (st : state) : res state :=
    match ns with
    | [] => Ok st
    | n :: r => let! st' := upstream_step d g st n in upstream d g r st'
    end.

  (** the connections, the targets with several sources, the dangling inputs *)
  Record result := mkRes { connections : list (path * (path * idxs)); multiple : list path; dangling_of : list (path * list path); inputs_of : list (path * list path) }.
  Definition finish (st : state) : result :=
    mkRes (flat_map (fun e : path * list (path * idxs) => match snd e with x :: _ => [(fst e, x)] | [] => [] end) (newc st))
          (flat_map (fun e : path * list (path * idxs) => match snd e with _ :: _ :: _ => [fst e] | _ => [] end) (newc st))
          (dangling st) (input_inputs st).
  (** the part of _setup_connections after the connections have been collected *)
  Definition resolve (d : data) (cs : conns_dict) : res result :=
    let g := input_graph d cs in
    let! nc := from_unknowns g (order (usrcs d cs)) [] in
    let! st := upstream d g (fst g) (mkSt nc [] []) in
    Ok (finish st).
  (** _setup_connections *)
  Definition setup_connections (s : sys) : res result :=
    let! d := setup_variables [] s in
    let! cs := explicit [] s in
    resolve d (implicit d cs).
End Connections.

(** Model of the data of the N2 diagram: openmdao/devtools/partition_tree_n2.py
    _system_tree_dict (lines 25-85) and get_model_viewer_data (88-155), on the trees of
    TrvModel.v, in one process.  The nodes for the variables of a component are of any type and
    given by its system.  The graph of the components is a list of edges; its strongly connected
    components with more than one node come from networkx and are an argument. *)
From Verif Require Import Base ExprModel PathModel LcnModel TrvModel.
Local Open Scope list_scope.
Local Open Scope nat_scope.

Inductive node (V : Type) := TSub (n : string) (typ : string) (group : bool) (children : list (node V)) | TVar (v : V).
Arguments TSub {V}. Arguments TVar {V}.
Section Tree.
  Context {V : Type} (vars : sys -> list V).
  (** _tree_dict: the dictionary, the execution orders and the next index *)
  Fixpoint walk (path : string) (x : sys) (orders : list (string * nat)) (idx : nat) : node V * list (string * nat) * nat :=
    match x with
    | Sys n k l =>
        let st := if is_group x then (orders, idx) else (orders ++ [(path, idx)], S idx) in
        let r := (fix children l (st : list (string * nat) * nat) :=
            match l with
            | [] => ([], st)
            | y :: l =>
                let '(t, o, i) := walk (pathname path (name y)) y (fst st) (snd st) in
                let '(ts, st) := children l (o, i) in (t :: ts, st)
            end) l st in
        (TSub n "subsystem" (is_group x) (fst r ++ (if is_group x then [] else map TVar (vars x))), fst (snd r), snd (snd r))
    end.
  (** _system_tree_dict of the root *)
  Definition system_tree (x : sys) : node V * list (string * nat) :=
    let '(t, o, _) := walk "" x [] 0 in
    (match t with TSub n typ g c => if String.eqb n "" then TSub "root" "root" g c else t | _ => t end, o).
End Tree.

(** s.rsplit('.', 1)[0] *)
Fixpoint before_last (s : string) : option string :=
  match s with
  | EmptyString => None
  | String c r => match before_last r with Some h => Some (String c h) | None => if Ascii.eqb c "."%char then Some EmptyString else None end
  end.
Definition rsplit_head (s : string) : string := match before_last s with Some h => h | None => s end.
Section Arrows.
  Variable G : list (string * string).
  Variable orders : list (string * nat).
  Definition order_of (c : string) : res nat :=
    match find (fun e => String.eqb (fst e) c) orders with Some e => Ok (snd e) | None => Err KeyError end.
  Definition smem (c : string) (l : list string) : bool := existsb (String.eqb c) l.
  (** the nodes of the subgraph that stay *)
  Fixpoint kept (lo hi : nat) (l : list string) : res (list string) :=
    match l with
    | [] => Ok []
    | n :: l => let! o := order_of n in let! r := kept lo hi l in Ok (if (o <? lo) || (hi <? o) then r else n :: r)
    end.
  Definition edge_str (e : string * string) : txt := t_ (fst e) ++ t_ " " ++ t_ (snd e).
  (** the loop over scc_list *)
  Fixpoint cycle (src tgt : string) (sccs : list (list string)) (count : nat) : res (list txt) :=
    match sccs with
    | [] => Ok []
    | li :: sccs =>
        if smem src li && smem tgt li then
          if 1 <? S count then Err ValueError else
          let! et := order_of tgt in
          let! es := order_of src in
          let! ns := kept (Nat.min et es) (Nat.max et es) li in
          let l := filter (fun s => negb (teqb s (edge_str (src, tgt)))) (map edge_str (filter (fun e => smem (fst e) ns && smem (snd e) ns) G)) in
          let! r := cycle src tgt sccs (S count) in Ok (l ++ r)
        else cycle src tgt sccs count
    end.
  (** an entry of connections_list: no cycle_arrows if there are none *)
  Definition arrows (sccs : list (list string)) (src tgt : string) : res (list txt) :=
    let! l := cycle (rsplit_head src) (rsplit_head tgt) sccs 0 in Ok (sorted_by (fun x => x) l).
End Arrows.

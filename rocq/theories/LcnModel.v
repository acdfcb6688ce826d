(** Model of System.list_connections, openmdao/core/system.py lines 1249-1401.  Texts are
    lists of characters; str.startswith, str.join of three, '{0:<{swid}}' and sorted are
    modelled on them.  Dictionaries are lists in the order of iteration.  The metadata of
    variables (units, promoted name) are functions of the absolute name, as are
    _probdata.params_dict/unknowns_dict and to_prom_name.  The text written is a list of
    lines, each cut at " -> "; what was written before an error is not kept. *)
From Verif Require Import Base ExprModel.
Local Open Scope list_scope.

Definition txt := list ascii.
Definition space : ascii := " "%char.
Fixpoint startswith (s p : txt) : bool :=
  match p, s with [], _ => true | c :: p, d :: s => Ascii.eqb c d && startswith s p | _ :: _, [] => false end.
(** ' '.join((a, b, c)) *)
Definition join3 (a b c : txt) : txt := a ++ space :: b ++ space :: c.
Definition parens (s : txt) : txt := t_ "(" ++ s ++ t_ ")".
(** s <= t for str, by code points *)
Fixpoint leb_text (s t : txt) : bool :=
  match s, t with
  | [], _ => true
  | _ :: _, [] => false
  | c :: s, d :: t => if Ascii.eqb c d then leb_text s t else Nat.ltb (nat_of_ascii c) (nat_of_ascii d)
  end.
Section Sort.
  Context {A : Type}.
  Variable key : A -> txt.
  Fixpoint insert (a : A) (l : list A) : list A := match l with [] => [a] | b :: r => if leb_text (key a) (key b) then a :: l else b :: insert a r end.
  Fixpoint sorted_by (l : list A) : list A := match l with [] => [] | a :: r => insert a (sorted_by r) end.
End Sort.
Definition pad (w : nat) (s : txt) : txt := s ++ repeat space (w - length s).

(** meta.get('units', ''): no such key, None, or a text *)
Inductive unit_ := NoUnit | UnitNone | Unit_ (u : txt).
(** [u] if it is not empty; None cannot be joined (lines 1295-1297, 1312) *)
Definition unit_text (u : unit_) : res txt :=
  match u with
  | NoUnit => Ok []
  | UnitNone => Err TypeError
  | Unit_ [] => Ok []
  | Unit_ t => Ok (t_ "[" ++ t ++ t_ "]")
  end.
Definition dict := list (txt * list txt).
(** by_src.setdefault(src, []).append(s) *)
Fixpoint append_to (d : dict) (src s : txt) : dict :=
  match d with
  | [] => [(src, [s])]
  | (k, l) :: r => if teqb k src then (k, l ++ [s]) :: r else (k, l) :: append_to r src s
  end.
(** d[k] = v *)
Fixpoint put (d : dict) (k : txt) (v : list txt) : dict :=
  match d with
  | [] => [(k, v)]
  | (k', v') :: r => if teqb k' k then (k', v) :: r else (k', v') :: put r k v
  end.
Definition haskey {A} (d : list (txt * A)) (k : txt) : bool := existsb (fun e => teqb (fst e) k) d.
Definition unconnected_ : txt := t_ "{unconnected}".
Inductive item := Head (path : txt) | Line (src tgt : txt).

Section Report.
  Variables punits uunits : txt -> unit_.
  Variable prom : txt -> txt.
  (** lines 1293-1312 *)
  Definition param_str (tgt : txt) (src : option txt) (relname : txt) : res txt :=
    let! units := unit_text (punits tgt) in
    let prom_tgt := if teqb (prom tgt) tgt then []
                    else if match src with None => true | Some s => negb (teqb (prom tgt) (prom s)) end then parens (prom tgt) else t_ "(*)" in
    if negb (teqb relname []) && startswith tgt (relname ++ t_ ".")
    then Ok (join3 (skipn (length relname) tgt) (if startswith prom_tgt (relname ++ t_ ".") then skipn (length relname) prom_tgt else prom_tgt) units)
    else Ok (join3 tgt prom_tgt units).
  (** the key of by_src2, lines 1317-1328 *)
  Definition src_key (relname src : txt) : res txt :=
    match src with
    | [] => Err IndexError
    | c :: _ =>
        if Ascii.eqb c "{"%char then Ok (join3 src [] [])
        else
          let! units := unit_text (uunits src) in
          let prom_src := if teqb (prom src) src then [] else parens (prom src) in
          Ok (join3 (if negb (teqb relname []) && startswith src (relname ++ t_ ".") then skipn (length relname) src else src) prom_src units)
    end.
  Fixpoint by_src2 (relname : txt) (by_src acc : dict) : res dict :=
    match by_src with
    | [] => Ok acc
    | (src, tgts) :: r => let! k := src_key relname src in by_src2 relname r (put acc k tgts)
    end.
  (** lines 1333-1336 *)
  Definition block (w : nat) (src : txt) (tgts : list txt) : list item :=
    match sorted_by (fun x => x) tgts with
    | [] => []
    | t :: r => Line (pad w src) t :: map (Line (pad w [])) r
    end.
  Definition write (by_src : dict) (relname : txt) : res (list item) :=
    let! d := by_src2 relname by_src [] in
    let w := fold_right Nat.max 0%nat (map (fun e => length (fst e)) d) in
    Ok (flat_map (fun e => block w (fst e) (snd e)) (sorted_by fst d)).

  (** the connections: target and source *)
  Variable conns : list (txt * txt).
  (** lines 1371-1377 *)
  Fixpoint conn_loop (keep : txt -> txt -> nat) (relname : txt) (cs : list (txt * txt)) (d : dict) : res dict :=
    match cs with
    | [] => Ok d
    | (tgt, src) :: r =>
        if Nat.eqb (keep tgt src) 0 then conn_loop keep relname r d
        else let! s := param_str tgt (Some src) relname in
             conn_loop keep relname r (Nat.iter (keep tgt src) (fun d => append_to d src s) d)
    end.
  (** lines 1379-1386 *)
  Fixpoint param_loop (relname : txt) (ps : list txt) (d : dict) : res dict :=
    match ps with
    | [] => Ok d
    | p :: r =>
        if haskey conns p then param_loop relname r d
        else let! s := param_str p None relname in param_loop relname r (append_to d unconnected_ s)
    end.
  (** lines 1387-1389 *)
  Fixpoint unknown_loop (us : list txt) (d : dict) : dict :=
    match us with
    | [] => d
    | u :: r => unknown_loop r (if haskey d u then d else put d u [unconnected_])
    end.
  (** a system: pathname, names in _params_dict and in _unknowns_dict *)
  Record sys := mkSys { s_path : txt; s_params : list txt; s_unknowns : list txt }.
  Definition scope_of (path : txt) : txt := match path with [] => [] | _ => path ++ t_ "." end.
  (** _list_conns, lines 1364-1391 *)
  Definition list_conns (unconnected : bool) (s : sys) (relname : txt) : res (list item) :=
    let scope := scope_of (s_path s) in
    let! d := conn_loop (fun tgt src => if startswith src scope || startswith tgt scope then 1%nat else 0%nat) relname conns [] in
    let! d := (if unconnected then let! d := param_loop relname (s_params s) d in Ok (unknown_loop (s_unknowns s) d) else Ok d) in
    write d relname.
  (** _list_var_connections, lines 1338-1362.  [all_names] are the keys of udict and pdict,
      [seen] the names and absolute names in the vectors of the systems from here down;
      the set is a list without repetitions *)
  Definition absnames (fnm : txt -> txt -> bool) (all_names : list txt) (seen : list (txt * txt)) (name : txt) : list txt :=
    if existsb (teqb name) all_names then [name]
    else nodup text_dec (map snd (filter (fun e => fnm (fst e) name) seen)).
  Definition list_var (fnm : txt -> txt -> bool) (all_names : list txt) (seen : list (txt * txt)) (name : txt) : res (list item) :=
    let a := absnames fnm all_names seen name in
    match a with
    | [] => Err KeyError
    | _ => let! d := conn_loop (fun tgt src => length (filter (fun n => teqb tgt n || teqb src n) a)) [] conns [] in write d []
    end.
  (** lines 1393-1401: grouped by component or not *)
  Fixpoint by_comp (unconnected : bool) (comps : list sys) : res (list item) :=
    match comps with
    | [] => Ok []
    | c :: r => let! a := list_conns unconnected c (s_path c) in let! b := by_comp unconnected r in Ok (Head (s_path c) :: a ++ b)
    end.
  Definition list_connections (fnm : txt -> txt -> bool) (all_names : list txt) (seen : list (txt * txt)) (self : sys) (comps : list sys)
      (group_by_comp unconnected : bool) (var : txt) : res (list item) :=
    match var with
    | _ :: _ => list_var fnm all_names seen var
    | [] => if group_by_comp then by_comp unconnected comps else list_conns unconnected self []
    end.
End Report.

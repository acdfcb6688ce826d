(** Model of view_connections, openmdao/util/viewconns.py lines 22-147: the data given to the
    page (lines 54-120).  Texts are lists of characters.  Dictionaries are lists of items in the
    order of iteration.  The values of variables are of any type, with the selection of entries
    and the arithmetic of units as arguments; their formatting, the template, json and the
    browser are not modelled.  [sorted(..., reverse=True)] is applied to distinct names, so
    that it is the reverse of [sorted]; sets are only sorted. *)
From Verif Require Import Base ExprModel LcnModel LpmModel ChsModel.
Local Open Scope list_scope.

Section View.
  Context {V I C : Type}.
  Variable pick : V -> I -> V.        (** val[idxs] *)
  Variables vadd vmul : V -> C -> V.
  (** of a param: its own value, and unit_conv *)
  Record pmeta := mkPM { m_val : V; m_conv : option (C * C) }.
  (** a system: _params_dict, the names of _unknowns_dict, to_prom_name, the vector unknowns by
      promoted name; and the connections of the whole problem *)
  Record sys := mkSys { s_params : list (txt * pmeta); s_unks : list txt; s_prom : list (txt * txt); s_vec : list (txt * V); s_conns : list (txt * (txt * option I)) }.

  Fixpoint dget {A} (d : list (txt * A)) (k : txt) : option A :=
    match d with [] => None | (k', v) :: r => if teqb k' k then Some v else dget r k end.
  (** system.unknowns[to_prom[s]] *)
  Definition source_val (y : sys) (s : txt) : res V :=
    match dget (s_prom y) s with None => Err KeyError | Some p => match dget (s_vec y) p with None => Err KeyError | Some v => Ok v end end.
  (** lines 61-88: the value shown for a param, and its source *)
  Definition param_val (y : sys) (t : txt) (m : pmeta) : res (V * option txt) :=
    match dget (s_conns y) t with
    | Some (s, idxs) =>
        let! v := source_val y s in
        let v := match idxs with Some i => pick v i | None => v end in
        let v := match m_conv m with Some (scale, offset) => vmul (vadd v offset) scale | None => v end in
        Ok (v, Some s)
    | None => Ok (m_val m, None)
    end.
  Fixpoint loop (y : sys) (l : list (txt * pmeta)) (src2tgts : dict) (vals : list (txt * V)) : res (dict * list (txt * V)) :=
    match l with
    | [] => Ok (src2tgts, vals)
    | (t, m) :: r =>
        let! e := param_val y t m in
        loop y r (match snd e with Some s => append_to src2tgts s t | None => src2tgts end) (vals ++ [(t, fst e)])
    end.
  Definition rsorted (l : list txt) : list txt := rev (sorted_by (fun x => x) l).
  (** lines 90-93 *)
  Fixpoint src_vals (y : sys) (l : list txt) : res (list (txt * V)) :=
    match l with [] => Ok [] | s :: r => let! v := source_val y s in let! r := src_vals y r in Ok ((s, v) :: r) end.
  (** '.'.join(parts[:i]) for all i: what is before a dot, and nothing *)
  Fixpoint heads (s : txt) : list txt :=
    match s with [] => [] | c :: r => (if Ascii.eqb c "."%char then [[]] else []) ++ map (cons c) (heads r) end.
  Definition scopes (s : txt) : list txt := [] :: heads s.
  Definition noconn : txt := t_ "NO CONNECTION".
  Definition insert1 (x : txt) (l : list txt) : list txt := match l with [] => [x] | a :: r => a :: x :: r end.
  (** lines 97-115 *)
  Definition systems (names : list txt) : list txt := insert1 noconn (sorted_by (fun x => x) (nodup text_dec (flat_map scopes names))).

  Record page := mkPage { g_rows : dict; g_vals : list (txt * V); g_src : list txt; g_tgt : list txt; g_noconn : list txt }.
  Definition view (y : sys) : res page :=
    let! e := loop y (s_params y) [] [] in
    let noconn_srcs := rsorted (filter (fun n => negb (haskey (fst e) n)) (s_unks y)) in
    let! sv := src_vals y noconn_srcs in
    let free := rsorted (filter (fun t => negb (tmem t (s_unks y)) && negb (haskey (s_conns y) t)) (map fst (s_prom y))) in
    Ok (mkPage (rev (sorted_by fst (put (fst e) noconn free))) (snd e ++ sv) (systems (map fst (fst e))) (systems (map fst (s_conns y))) noconn_srcs).
End View.
Arguments pmeta : clear implicits. Arguments sys : clear implicits. Arguments page : clear implicits.

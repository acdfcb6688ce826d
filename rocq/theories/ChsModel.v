(** Model of checks of Problem.check_setup, openmdao/core/problem.py: _check_dangling_params
    (lines 797-813), _check_no_connect_comps (854-868), _check_unmarked_pbos (977-991),
    _check_relevant_pbos (993-1046) and _check_driver_issues (1048-1066).  Texts are lists of
    characters; dictionaries are lists in the order of iteration; a set is the list of its
    elements and [enum] the order in which Python iterates it.  Comparison with `is not 'user'`
    is comparison of the texts.  The names of the types of values are left out of the lines. *)
From Verif Require Import Base ExprModel LcnModel.
Local Open Scope list_scope.

Definition tmem (x : txt) (l : list txt) : bool := existsb (teqb x) l.
Section Checks.
  Variable enum : list txt -> list txt.
  (** set(l) *)
  Definition tset (l : list txt) : list txt := enum (nodup text_dec l).
  (** lines 801-813 *)
  Definition dangling_params (prom : txt -> txt) (pdict : list txt) (conns : list (txt * txt)) : list txt :=
    sorted_by (fun x => x) (tset (map prom (filter (fun p => negb (haskey conns p)) pdict))).

  (** t.rsplit('.', 1)[0] *)
  Fixpoint upto_dot (s : txt) : option txt :=
    match s with
    | [] => None
    | c :: r => match upto_dot r with Some h => Some (c :: h) | None => if Ascii.eqb c "."%char then Some [] else None end
    end.
  Definition rsplit_head (s : txt) : txt := match upto_dot s with Some h => h | None => s end.
  (** lines 856-868; [comps]: pathnames of the components *)
  Definition no_connect_comps (comps : list txt) (conns : list (txt * txt)) : list txt :=
    let conn_comps := tset (map (fun c => rsplit_head (fst c)) conns ++ map (fun c => rsplit_head (snd c)) conns) in
    sorted_by (fun x => x) (filter (fun c => negb (tmem c conn_comps)) comps).

  (** lines 978-991: what is returned, and the lines after the heading; [comps]: pathname and
      _pbo_warns *)
  Definition unmarked_pbos (comps : list (txt * list txt)) : list (txt * list txt) * list txt :=
    let pbos := filter (fun c => match snd c with [] => false | _ => true end) comps in
    (pbos, flat_map (fun c => map (fun v => fst c ++ t_ "." ++ v) (snd c)) (sorted_by fst pbos)).

  (** where something is printed *)
  Inductive printed := OutConn (src tgt : txt) | OutAdvice | StdoutVars (vs : list txt).
  (** lines 993-1046; [plain]: the class of the driver is Driver; [vec]: names in the vector of
      unknowns (promoted) and pass_by_obj; [reldict]: the relevant variables of each variable of
      interest; the connections are absolute names *)
  Definition relevant_pbos (plain gradients : bool) (dtype : txt) (vec : list (txt * bool)) (reldict : list (option txt * list txt)) (conns : list (txt * txt)) : list txt * list printed :=
    if plain || negb gradients || negb (teqb dtype (t_ "user")) then ([], [])
    else
      let pbos := map fst (filter snd vec) in
      let rels := flat_map (fun e => match fst e with None => if Nat.ltb 1 (length reldict) then [] else snd e | Some _ => snd e end) reldict in
      let rel_pbos := tset (filter (fun v => tmem v pbos) rels) in
      match rel_pbos with
      | [] => ([], [])
      | _ =>
          let rel_conns := flat_map (fun src => map (fun c => (src, fst c)) (filter (fun c => teqb (snd c) src && tmem (fst c) rels) conns)) rel_pbos in
          (rel_pbos, match rel_conns with [] => [StdoutVars (sorted_by (fun x => x) rel_pbos)] | _ => map (fun e => OutConn (fst e) (snd e)) rel_conns end ++ [OutAdvice])
      end.

  (** lines 1051-1066: the constraints with an active_tol *)
  Definition driver_issues (active_set : bool) (cons : list (txt * bool)) : option (list txt) :=
    if negb active_set then match map fst (filter snd cons) with [] => None | a => Some a end else None.
End Checks.

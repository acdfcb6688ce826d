(** Model of the check of total derivatives: openmdao/core/problem.py
    check_total_derivatives 2122-2238 (with calc_gradient 1294-1310 and
    _assemble_deriv_data, the model of C85), openmdao/core/group.py _get_fd_params
    593-623 and _get_fd_unknowns 625-645 of the root, openmdao/util/dict_util.py.

    Numbers are the elements of a field; one process.  The text is not modelled.  The
    names in _desvars, _objs and _cons are plain strings.  The linear solver is that of
    C74 (it is given, with the linearization), the differences are those of C89; the
    state which differences leave behind is not followed: they restore the unknowns
    (C26).  A block that was never assigned (None, for a variable without entries) is
    left out of the flat dictionary. *)
From Verif Require Import Base GradModel CheckModel TotModel.
From Verif Require FdModel ReqModel.
Local Open Scope string_scope.
Local Open Scope nat_scope.
Local Open Scope list_scope.

(** ch_ran: driver.iter_count >= 1; ch_out: out_stream is not None; ch_desvars, ch_objs,
    ch_cons: the keys of the driver's dictionaries; ch_upbo: the pass_by_obj flag of an
    unknown by its promoted name; ch_ppbo: that of a target; ch_indep: the source (absolute
    name) belongs to an IndepVarComp; ch_unknowns: root.unknowns, promoted names with
    their pathnames; ch_user: root.deriv_options['type'] is 'user'; ch_option: the mode of
    root.ln_solver (None: auto); ch_sizes: the promoted names and sizes _mode goes through *)
Record check : Type := mkCheck {
  ch_ran : bool;
  ch_out : bool;
  ch_desvars : list string;
  ch_objs : list string;
  ch_cons : list string;
  ch_upbo : string -> option bool;
  ch_ppbo : string -> bool;
  ch_indep : string -> bool;
  ch_unknowns : list (string * string);
  ch_user : bool;
  ch_option : option ReqModel.dmode;
  ch_sizes : list (string * nat) }.

Section Ctot.
  Context {F : Type} (F0 F1 : F) (fadd fmul fsub : F -> F -> F) (fopp finv : F -> F) (flt : F -> F -> bool).
  Notation prob := (prob (F:=F)).
  Notation arr := (arr (F:=F)).
  Notation root := (root (F:=F)).
  Notation st := (FdModel.st (F:=F)).

  (** [x for x in l if not pass_by_obj(x)] *)
  Fixpoint not_objects (c : check) (l : list string) : res (list string) :=
    match l with
    | [] => Ok []
    | n :: l => match ch_upbo c n with
                | None => Err KeyError
                | Some b => let! r := not_objects c l in Ok (if b then r else n :: r)
                end
    end.
  (** lines 2163-2183; _get_fd_params of the root: the targets whose source is in an
      IndepVarComp *)
  Definition indep_list (c : check) (r : root) : res (list string) :=
    match ch_desvars c with
    | _ :: _ => not_objects c (ch_desvars c)
    | [] => mapr (fun ts : string * string => get (r_prom r) (snd ts))
              (filter (fun ts => negb (ch_ppbo c (fst ts))) (filter (fun ts => ch_indep c (snd ts)) (r_conns r)))
    end.
  (** lines 2185-2197 *)
  Definition unknown_list (c : check) : res (list string) :=
    match ch_objs c ++ ch_cons c with
    | _ :: _ => not_objects c (ch_objs c ++ ch_cons c)
    | [] => not_objects c (map fst (filter (fun n => negb (ch_indep c (snd n))) (ch_unknowns c)))
    end.

  (** _jac_to_flat_dict *)
  Definition flat (J : GradModel.jdict (F:=F)) : CheckModel.jdict (M:=arr) :=
    flat_map (fun row => flat_map (fun cell => match snd cell with Some K => [(fst row, fst cell, K)] | None => [] end) (snd row)) J.

  (** calc_gradient with mode 'fwd' or 'rev', return_format='dict' *)
  Definition analytic (c : check) (r : root) (p : prob) (run : st -> st) (s : st) (indep unknown : list string) (fwd : bool) : res (GradModel.jdict (F:=F)) :=
    if ch_user c then gradient_dict F0 F1 fmul fopp p fwd indep unknown (fun _ => None) (fun _ => None) None
    else fd_dict F0 F1 fadd fmul fsub fopp finv flt r p run indep unknown s (fun _ => None) (fun _ => None) None.

  (** rc is the root with the check_ settings in deriv_options (use_check, system.py
      565-569).  Without a run before, the model is run once; out_stream.write fails
      if it is None *)
  Definition check_total (norm : arr -> Q) (minus : arr -> arr -> arr) (c : check) (r rc : root) (p : prob) (run : st -> st) (s0 : st)
    : res (list (string * string * ldata)) :=
    let! s := if ch_ran c then Ok s0 else if ch_out c then Ok (run s0) else Err AttributeError in
    let! indep := indep_list c r in
    let! unknown := unknown_list c in
    let! modes := if p_reduce p then
                    let! m := ReqModel.mode None (ch_option c) (ch_sizes c) (map ReqModel.One indep) (map ReqModel.One unknown) in
                    Ok (match m with ReqModel.Fwd => (true, false) | ReqModel.Rev => (false, true) end)
                  else Ok (true, true) in
    let! jf := if fst modes : bool then let! J := analytic c r p run s indep unknown true in Ok (flat J) else Ok [] in
    let! jr := if snd modes : bool then let! J := analytic c r p run s indep unknown false in Ok (flat J) else Ok [] in
    let! J := fd_dict F0 F1 fadd fmul fsub fopp finv flt rc p run indep unknown s (fun _ => None) (fun _ => None) None in
    assemble norm minus indep unknown jf jr (flat J) [].
End Ctot.

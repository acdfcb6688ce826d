(** Model of total derivatives by finite differences:
    openmdao/core/problem.py _calc_gradient_fd 1312-1480, and the handling of names
    and settings in openmdao/core/system.py fd_jacobian 546-678 (the differences
    themselves are the model of C26, FdModel.v).

    Numbers are the elements of a field.  One process; the type is 'fd' (not complex
    step); every settings value is present after the defaults of lines 551-560 and the
    override of a parameter; scalers are numbers; indices are not negative; a variable
    with no entries (the p_size == 0 branch) is not modelled. *)
From Verif Require Import Base GradModel.
From Verif Require FdModel.
Local Open Scope string_scope.
Local Open Scope nat_scope.
Local Open Scope list_scope.

Section Tot.
  Context {F : Type} (F0 F1 : F) (fadd fmul fsub : F -> F -> F) (fopp finv : F -> F) (flt : F -> F -> bool).
  Notation prob := (prob (F:=F)).
  Notation arr := (arr (F:=F)).
  Notation block := (list (list F)).

  (** step_size, step_calc is 'relative', form *)
  Record settings : Type := mkSet { t_step : F; t_relative : bool; t_form : FdModel.form }.
  (** the settings in the metadata of a parameter *)
  Record own : Type := mkOwn { w_step : option F; w_relative : option bool; w_form : option FdModel.form }.

  (** r_abs_u, r_prom, r_abs_p: to_abs_uname, to_prom_name, to_abs_pnames of the root;
      r_conns: root.connections, target to source, absolute names, in their order;
      r_params: root.params, key to pathname, first position and size; r_own: the
      settings in root._params_dict; r_default: those of deriv_options *)
  Record root : Type := mkRoot {
    r_abs_u : list (string * string);
    r_prom : list (string * string);
    r_abs_p : list (string * list string);
    r_conns : list (string * string);
    r_params : list (string * (string * nat * nat));
    r_own : string -> own;
    r_default : settings }.

  Definition get {A} (d : list (string * A)) (k : string) : res A :=
    match sget d k with Some a => Ok a | None => Err KeyError end.
  Definition is_unknown (p : prob) (n : string) : bool := match p_var p n with Some _ => true | None => false end.

  (** the first target of a source, or the name itself, problem.py 1374-1377 *)
  Definition first_target (r : root) (name : string) : string :=
    match find (fun c => String.eqb name (snd c)) (r_conns r) with Some (tgt, _) => tgt | None => name end.
  (** problem.py 1369-1379 *)
  Definition abs_param (r : root) (p : prob) (name : string) : res string :=
    let! n := if is_unknown p name then get (r_abs_u r) name else Ok name in
    Ok (first_target r n).

  Definition pick {A} (o : option A) (d : A) : A := match o with Some a => a | None => d end.
  (** system.py 648-664 *)
  Definition used_settings (r : root) (p_name : string) : res settings :=
    let d := r_default r in
    match sget (r_abs_p r) p_name with
    | None => Ok d
    | Some [] => Err IndexError
    | Some (a :: _) => let o := r_own r a in Ok (mkSet (pick (w_step o) (t_step d)) (pick (w_relative o) (t_relative d)) (pick (w_form o) (t_form d)))
    end.
  (** system.py 621-646, 666-672: what is stepped for the name p_name *)
  Definition stepped (r : root) (p : prob) (p_name : string) : res (FdModel.fparam (F:=F)) :=
    match sget (r_conns r) p_name with
    | Some src =>
        let! s := if is_unknown p src then Ok src else get (r_prom r) src in
        match p_var p s with
        | None => Err KeyError
        | Some (start, size) =>
            let! o := used_settings r p_name in
            let idxs := match sget (p_poi p) s with Some l => map Z.to_nat l | None => seq 0 size end in
            Ok (FdModel.mkFP p_name (Some s) FdModel.InU start idxs (t_step o) (t_relative o) (t_form o))
        end
    | None =>
        let! q := get (r_params r) p_name in
        let! o := used_settings r p_name in
        Ok (FdModel.mkFP p_name None FdModel.InP (snd (fst q)) (seq 0 (snd q)) (t_step o) (t_relative o) (t_form o))
    end.

  (** an output, system.py 674-680, 754-759 *)
  Definition output (p : prob) (u : string) : res FdModel.fout :=
    match p_var p u with
    | None => Err KeyError
    | Some (start, size) => Ok (FdModel.mkFO u start (match sget (p_qoi p) u with Some l => map Z.to_nat l | None => seq 0 size end))
    end.
  Definition passed (p : prob) (u : string) : res FdModel.fpass :=
    match p_var p u with
    | None => Err KeyError
    | Some (_, size) => Ok (FdModel.mkPass u size (option_map (map Z.to_nat) (sget (p_qoi p) u)))
    end.

  (** problem.py 1365-1386: abs_params and Jfd.  Without parameters fd_jacobian does
      not look at the unknowns. *)
  Definition fd_blocks (r : root) (p : prob) (run : FdModel.st (F:=F) -> FdModel.st (F:=F)) (indep unknown : list string) (s0 : FdModel.st (F:=F))
    : res (list string * FdModel.jac (F:=F)) :=
    let! ps := mapr (abs_param r p) indep in
    let! fps := mapr (stepped r p) ps in
    match fps with
    | [] => Ok ([], [])
    | _ =>
        let! outs := mapr (output p) (filter (fun u => negb (mem indep u)) unknown) in
        let! passes := mapr (passed p) (filter (mem indep) unknown) in
        Ok (ps, fst (FdModel.fd_serial F0 F1 fadd fmul fsub fopp finv flt true run outs passes fps s0))
    end.

  (** get_fd_ikey, problem.py 1388-1414 *)
  Definition in_params (r : root) (k : string) : bool := match sget (r_params r) k with Some _ => true | None => false end.
  Definition fd_ikey (r : root) (k : string) : string :=
    if in_params r k then k
    else
      let k := first_target r k in
      if in_params r k then k
      else match find (fun q => match sget (r_prom r) (fst q) with Some n => String.eqb n k | None => false end) (r_params r) with
           | Some (_, q) => fst (fst q)
           | None => k
           end.
  (** problem.py 1427-1434, 1460-1467: the key of a block *)
  Definition block_key (r : root) (J : FdModel.jac (F:=F)) (u k : string) : res (string * string) :=
    let k := fd_ikey r k in
    match dget FdModel.key2_eqb J (u, k) with
    | Some _ => Ok (u, k)
    | None => let! l := get (r_abs_p r) k in match l with [] => Err IndexError | a :: _ => Ok (u, a) end
    end.

  Definition scale_block (s : option F) (m : block) : block := match s with Some a => map (map (fun x => fmul x a)) m | None => m end.
  Definition rows_of (m : block) : nat := length (hd [] m).
  Definition to_arr (m : block) : arr := mkArr (rows_of m) (length m) (fun i j => nth i (nth j m []) F0).

  (** ** the dictionary, problem.py 1416-1442.  An entry of J is the array of Jfd
      itself, scaled in place: it is kept as the key of that array *)
  Definition refs : Type := list (string * list (string * (string * string))).
  Definition dict_cell (r : root) (dv cn : string -> option F) (sparsity : option (list (string * list string)))
             (okey : string) (st : FdModel.jac (F:=F) * list (string * (string * string))) (ik : string * string)
    : res (FdModel.jac (F:=F) * list (string * (string * string))) :=
    let '(J, row) := st in
    let '(ikey, k) := ik in
    let! skip := match sparsity with None => Ok false | Some d => let! l := get d okey in Ok (negb (mem l ikey)) end in
    if skip : bool then Ok (J, row)
    else
      let! key := block_key r J okey k in
      match dget FdModel.key2_eqb J key with
      | None => Err KeyError
      | Some m => Ok (dset FdModel.key2_eqb J key (scale_block (cn okey) (scale_block (dv ikey) m)), sset row ikey key)
      end.
  Definition dict_row (r : root) (dv cn : string -> option F) (sparsity : option (list (string * list string)))
             (iks : list (string * string)) (st : FdModel.jac (F:=F) * refs) (okey : string) : res (FdModel.jac (F:=F) * refs) :=
    let '(J, R) := st in
    let! (J', row) := foldr (dict_cell r dv cn sparsity okey) iks (J, []) in
    Ok (J', sset R okey row).
  Definition deref (J : FdModel.jac (F:=F)) (key : string * string) : option arr := option_map to_arr (dget FdModel.key2_eqb J key).
  Definition fd_dict (r : root) (p : prob) (run : FdModel.st (F:=F) -> FdModel.st (F:=F)) (indep unknown : list string) (s0 : FdModel.st (F:=F))
             (dv cn : string -> option F) (sparsity : option (list (string * list string))) : res (jdict (F:=F)) :=
    let! (ps, Jfd) := fd_blocks r p run indep unknown s0 in
    let! (J, R) := foldr (dict_row r dv cn sparsity (combine indep ps)) unknown (Jfd, []) in
    Ok (map (fun row => (fst row, map (fun c => (fst c, deref J (snd c))) (snd row))) R).

  (** ** the array, problem.py 1444-1479 *)
  Definition clip (n a len : nat) : nat := Nat.min (a + len) n - a.
  Definition fits (have room : nat) : bool := (have =? room) || (have =? 1).
  Definition within (a len i : nat) : bool := (a <=? i) && (i <? a + len).
  (** J[ui:ui+rows, pi:pi+cols] = pd: the slice is cut at the ends of the array; a
      dimension of length one is repeated *)
  Definition put_block (J : arr) (ui pi : nat) (m : block) : res arr :=
    let rows := rows_of m in
    let cols := length m in
    if fits rows (clip (a_rows J) ui rows) && fits cols (clip (a_cols J) pi cols) then
      Ok (mkArr (a_rows J) (a_cols J) (fun i j =>
            if within ui (clip (a_rows J) ui rows) i && within pi (clip (a_cols J) pi cols) j
            then nth (if rows =? 1 then 0 else i - ui) (nth (if cols =? 1 then 0 else j - pi) m []) F0
            else a_at J i j))
    else Err ValueError.
  (** J[ui:ui+rows, pi:pi+cols] *= s *)
  Definition scale_slice (J : arr) (ui rows pi cols : nat) (s : option F) : arr :=
    match s with
    | None => J
    | Some s => mkArr (a_rows J) (a_cols J) (fun i j =>
                  if within ui (clip (a_rows J) ui rows) i && within pi (clip (a_cols J) pi cols) j then fmul (a_at J i j) s else a_at J i j)
    end.
  (** the state: J, pi, rows *)
  Definition array_cell (r : root) (Jfd : FdModel.jac (F:=F)) (dv cn : string -> option F) (u : string) (ui : nat)
             (st : arr * nat * option nat) (ik : string * string) : res (arr * nat * option nat) :=
    let '(J, pi, _) := st in
    let '(p, k) := ik in
    let! key := block_key r Jfd u k in
    match dget FdModel.key2_eqb Jfd key with
    | None => Err KeyError
    | Some m =>
        let! J := put_block J ui pi m in
        let J := scale_slice J ui (rows_of m) pi (length m) (dv p) in
        let J := scale_slice J ui (rows_of m) pi (length m) (cn u) in
        Ok (J, pi + length m, Some (rows_of m))
    end.
  (** the state: J, ui, rows; rows is unbound before the first block *)
  Definition array_row (r : root) (Jfd : FdModel.jac (F:=F)) (dv cn : string -> option F) (iks : list (string * string))
             (st : arr * nat * option nat) (u : string) : res (arr * nat * option nat) :=
    let '(J, ui, rows) := st in
    let! (J, _, rows) := foldr (array_cell r Jfd dv cn u ui) iks (J, 0, rows) in
    match rows with None => Err NameError | Some n => Ok (J, ui + n, Some n) end.
  Definition sum_sizes (p : prob) (idx : list (string * list Z)) (names : list string) : res nat :=
    foldr (fun n name => let! k := entries p idx name in Ok (n + k)) names 0.
  Definition fd_array (r : root) (p : prob) (run : FdModel.st (F:=F) -> FdModel.st (F:=F)) (indep unknown : list string) (s0 : FdModel.st (F:=F))
             (dv cn : string -> option F) : res arr :=
    let! (ps, Jfd) := fd_blocks r p run indep unknown s0 in
    let! usize := sum_sizes p (p_qoi p) unknown in
    let! psize := sum_sizes p (p_poi p) indep in
    let! (J, _, _) := foldr (array_row r Jfd dv cn (combine indep ps)) unknown (zeros F0 usize psize, 0, None) in
    Ok J.
End Tot.

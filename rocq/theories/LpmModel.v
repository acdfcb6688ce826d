(** Model of System.list_params (openmdao/core/system.py lines 1502-1565) and
    System.list_unit_conv (1438-1500).  Texts are lists of characters as in LcnModel.v;
    dictionaries are lists in the order of iteration; what is printed is a list of lines. *)
From Verif Require Import Base ExprModel LcnModel.
Local Open Scope list_scope.

(** str.lstrip(chars) *)
Fixpoint lstrip (s chars : txt) : txt := match s with c :: r => if existsb (Ascii.eqb c) chars then lstrip r chars else s | [] => [] end.
Fixpoint tget {A} (d : list (txt * A)) (k : txt) : option A := match d with [] => None | (k', v) :: r => if teqb k' k then Some v else tget r k end.

(** ** list_params *)
Section Params.
  (** to_prom_name of the system *)
  Variable prom : txt -> txt.
  (** lines 1543-1551 *)
  Definition unconn_line (name param : txt) : txt :=
    let prom_param := prom param in
    let param := if startswith param name then skipn (length name) param else param in
    if negb (teqb prom_param param) then param ++ t_ " (" ++ prom_param ++ t_ "))" else param.
  (** lines 1517-1565: the two lists and the lines *)
  Definition list_params (path : txt) (pdict : list txt) (conns : list (txt * txt)) : list txt * list txt * list txt :=
    let p_conn := filter (haskey conns) pdict in
    let p_unconn := filter (fun p => negb (haskey conns p)) pdict in
    let name := scope_of path in
    let source := fun p => match tget conns p with Some s => s | None => [] end in
    let p_outscope := filter (fun p => negb (startswith (source p) name)) p_conn in
    (p_unconn, p_outscope,
     [[]] ++ match p_unconn with
             | [] => [t_ "No unconnected parameters found."; t_ "---------------------------------"]
             | _ => [t_ "Unconnected parameters:"; t_ "-------------------------"]
             end ++ map (unconn_line name) p_unconn ++
     [[]] ++ match p_outscope with
             | [] => [t_ "No parameters connected to sources in higher groups."; t_ "-----------------------------------------------------"]
             | _ => [t_ "Parameters connected to sources in higher groups:"; t_ "--------------------------------------------------"]
             end ++ map (fun p => lstrip p name ++ t_ ": connected to '" ++ source p ++ t_ "'") p_outscope ++ [[]]).
End Params.

(** ** list_unit_conv *)
(** the metadata used: units (None or a text), whether there is a conversion factor, and
    pass_by_obj *)
Record umeta := mkU { u_units : option txt; u_conv : bool; u_pbo : bool }.
Definition truthy (u : option txt) : bool := match u with Some (_ :: _) => true | _ => false end.
Definition str_unit (u : option txt) : txt := match u with Some t => t | None => t_ "None" end.
(** name_relative_to, openmdao/util/string_util.py lines 56-74 *)
Definition relative_to (path n : txt) : txt := skipn (match path with [] => 0 | _ => length path + 1 end)%nat n.
Definition key := (txt * txt)%type.
Definition udiffs := list (key * (option txt * option txt)).
(** unit_diffs[(source, target)] = ... *)
Fixpoint kput (d : udiffs) (k : key) (v : option txt * option txt) : udiffs :=
  match d with
  | [] => [(k, v)]
  | (k', v') :: r => if teqb (fst k') (fst k) && teqb (snd k') (snd k) then (k', v) :: r else (k', v') :: kput r k v
  end.
(** lines 1460-1486 *)
Fixpoint diff_loop (path : txt) (pdict udict : list (txt * umeta)) (conns : list (txt * txt)) (d : udiffs) (pbos : list txt) : udiffs * list txt :=
  match conns with
  | [] => (d, pbos)
  | (target, source) :: r =>
      match tget pdict target, tget udict source with
      | Some tmeta, Some smeta =>
          let source := relative_to path source in
          let target := relative_to path target in
          let pbos := if u_pbo smeta then pbos ++ [source] else pbos in
          diff_loop path pdict udict r
            (if u_conv tmeta || negb (Bool.eqb (truthy (u_units tmeta)) (truthy (u_units smeta))) then kput d (source, target) (u_units smeta, u_units tmeta) else d) pbos
      | _, _ => diff_loop path pdict udict r d pbos
      end
  end.
(** sorted(iteritems(unit_diffs)): the keys are different pairs, so the units are never
    compared *)
Definition key_leb (a b : key) : bool := if teqb (fst a) (fst b) then leb_text (snd a) (snd b) else leb_text (fst a) (fst b).
Fixpoint kinsert (a : key * (option txt * option txt)) (l : udiffs) : udiffs := match l with [] => [a] | b :: r => if key_leb (fst a) (fst b) then a :: l else b :: kinsert a r end.
Fixpoint ksort (l : udiffs) : udiffs := match l with [] => [] | a :: r => kinsert a (ksort r) end.
(** lines 1492-1497 *)
Definition diff_line (pbos : list txt) (e : key * (option txt * option txt)) : txt :=
  let '((src, tgt), (sunit, tunit)) := e in
  src ++ t_ " -> " ++ tgt ++ t_ " : " ++ str_unit sunit ++ t_ " -> " ++ str_unit tunit ++ (if existsb (teqb src) pbos then t_ " (pass_by_obj)" else []).
(** what is returned, and the lines *)
Definition list_unit_conv (path : txt) (pdict udict : list (txt * umeta)) (conns : list (txt * txt)) : udiffs * list txt :=
  let (unit_diffs, pbos) := diff_loop path pdict udict conns [] [] in
  match unit_diffs with
  | [] => ([], [])
  | _ => let tuples := ksort unit_diffs in (tuples, [[]; t_ "Unit Conversions"] ++ map (diff_line pbos) tuples)
  end.

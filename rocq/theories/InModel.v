(** Model of the comparison of inputs without a source: openmdao/core/problem.py
    _check_input_diffs 290-398, for the dictionary _input_inputs of _setup_connections
    (C37).  A value is an array with a shape, or an object of a type; == on entries and
    objects is an argument (for floats it is not reflexive).  What is reported are the
    target and the names which differ; the texts are not modelled, nor the order in which
    a dictionary's keys are visited beyond that of the model. *)
From Verif Require Import Base OrderModel PathModel NameModel ConnModel.
Local Open Scope nat_scope.
Local Open Scope list_scope.

Section In.
  Context {V T St : Type} (veq : V -> V -> bool) (teqb : T -> T -> bool) (seqb : St -> St -> bool).
  Inductive value := Array (sh : list nat) (es : list V) | Object (t : T) (v : V).
  Record meta := mkMeta { i_units : option string; i_val : value; i_size : option St; i_calc : option St; i_form : option St }.
  Variable pd : path -> meta.                  (** params_dict *)

  Inductive report := Units (tgt : path) (others : list path) | Values (tgt : path) (others : list path) | Steps (name : path).

  Definition ueqb (a b : option string) : bool :=
    match a, b with Some x, Some y => String.eqb x y | None, None => true | _, _ => false end.
  (** 302-313: the inputs with other units than the target's *)
  Definition diff_units (tgt : path) (ins : list path) : list path :=
    filter (fun n => negb (ueqb (i_units (pd n)) (i_units (pd tgt)))) ins.
  (** 337-341: the report is dropped if None is the only other unit *)
  Definition units_report (tgt : path) (ins : list path) : list report :=
    let du := diff_units tgt ins in
    if existsb (fun n => match i_units (pd n) with Some _ => true | None => false end) du then [Units tgt du] else [].
  Fixpoint shape_eqb (a b : list nat) : bool :=
    match a, b with [], [] => true | x :: a', y :: b' => (x =? y) && shape_eqb a' b' | _, _ => false end.
  (** 315-326, where the lists of one shape have one length *)
  Definition same_value (tgt v : value) : bool :=
    match tgt with
    | Array sh es => match v with
                     | Array sh' es' => shape_eqb sh' sh && forallb (fun ab => veq (fst ab) (snd ab)) (combine es' es)
                     | Object _ _ => false
                     end
    | Object t a => match v with Array _ _ => false | Object t' b => teqb t t' && veq b a end
    end.
  Definition values_report (tgt : path) (ins : list path) : list report :=
    match filter (fun n => negb (same_value (i_val (pd tgt)) (i_val (pd n)))) ins with
    | [] => []
    | dv => [Values tgt dv]
    end.
  (** 368-398: a dictionary with a key for each value that is not None *)
  Definition settings (f : meta -> option St) (names : list path) : list (St * path) :=
    fold_left (fun dct n => match f (pd n) with Some v => dset seqb dct v n | None => dct end) names [].
  Definition steps_report (e : path * list path) : list report :=
    match snd e with
    | [] | [_] => []
    | names => flat_map (fun f => match settings f names with _ :: _ :: _ => [Steps (fst e)] | _ => [] end) [i_size; i_calc; i_form]
    end.
  Definition check_input_diffs (r : result) (d : data) : list report :=
    flat_map (fun e => units_report (fst e) (snd e) ++ values_report (fst e) (snd e)) (inputs_of r) ++ flat_map steps_report (abs_p d).
End In.

(** Model of the declaration of variables in a component: openmdao/core/component.py
    namecheck_rgx (line 29), _get_initial_val (90-97), _check_val (99-106), _add_variable
    (108-174), add_param (176-193), add_output (195-215), add_state (217-242),
    set_var_indices (244-295), _check_varname (297-310).  A value is an array of some shape or
    anything else, differentiable or not (is_differentiable, openmdao/util/type_util.py 27-45);
    its numbers are left out.  A call returns the new state and the exception, if any.
    Simplified: the copy of the keyword arguments has the entries named below; FileRef._set_meta
    (C109) is left out; an integer shape is not negative; the value of resid_scaler is a number. *)
From Verif Require Import Base OrderModel ExprModel LcnModel.
Local Open Scope list_scope.

(** ** Names *)
(** ([_a-zA-Z][_a-zA-Z0-9]* )+ : the longest match, or none *)
Definition ident_match (s : txt) : option (txt * txt) :=
  match s with
  | c :: r => if letter c then let (w, rest) := span wordc r in Some (c :: w, rest) else None
  | [] => None
  end.
(** (\:[_a-zA-Z][_a-zA-Z0-9]* )* ; the number of steps is at most the length *)
Fixpoint colon_match (fuel : nat) (s : txt) : txt :=
  match fuel with
  | O => []
  | S fuel =>
      match s with
      | c :: r => if Ascii.eqb c ":"%char then match ident_match r with Some (w, rest) => c :: w ++ colon_match fuel rest | None => [] end else []
      | [] => []
      end
  end.
(** match.group(), or None *)
Definition rgx_match (s : txt) : option txt :=
  match ident_match s with Some (w, rest) => Some (w ++ colon_match (length rest) rest) | None => None end.
Definition name_valid (s : txt) : bool := match rgx_match s with Some g => teqb g s | None => false end.

(** ** Values and metadata *)
Record value := mkV { v_arr : option (list nat); v_diff : bool }.
Inductive shp := SInt (n : nat) | STup (l : list nat).
Definition psize (l : list nat) : nat := fold_right Nat.mul 1%nat l.
(** val.size *)
Definition vsize (v : value) : nat := match v_arr v with Some l => psize l | None => 1%nat end.
Record kwargs := mkK { k_shape : option shp; k_pbo : bool; k_unit : option txt; k_units : option txt; k_low : bool; k_high : bool; k_scaler : option Q; k_idx : option (list Z) }.
Record meta := mkM { m_val : value; m_size : nat; m_shape : option shp; m_pbo : bool; m_state : bool; m_units : option txt; m_idx : option (list Z) }.
Record comp := mkC { c_post : bool; c_params : list (txt * meta); c_unknowns : list (txt * meta); c_warns : list (txt * value) }.

Section Declare.
  (** PhysicalQuantity(1.0, unit) succeeds *)
  Variable unit_ok : txt -> bool.
  (** np.zeros(None) *)
  Variable zeros_none : value.
  (** np.zeros(shape) *)
  Definition zeros (s : shp) : value := match s with SInt n => mkV (Some [n]) true | STup l => mkV (Some l) true end.
  Definition initial_val (val : option value) (shape : option shp) : value :=
    match val with
    | Some v => v
    | None => match shape with Some (SInt 1) => mkV None true | Some s => zeros s | None => zeros_none end
    end.
  Definition check_varname (c : comp) (name : txt) : option pyerr :=
    if c_post c then Some RuntimeError
    else if haskey (c_params c) name || haskey (c_unknowns c) name then Some RuntimeError
    else if negb (name_valid name) then Some NameError
    else None.
  Definition warn (c : comp) (name : txt) (v : value) : comp := mkC (c_post c) (c_params c) (c_unknowns c) (c_warns c ++ [(name, v)]).
  Definition add_variable (c : comp) (name : txt) (val : option value) (k : kwargs) : comp * (meta + pyerr) :=
    match check_varname c name with
    | Some e => (c, inr e)
    | None =>
        if match k_unit k with Some (_ :: _ as u) => negb (unit_ok u) | _ => false end then (c, inr RuntimeError)
        else
          let v := initial_val val (k_shape k) in
          let '(c, size, shape, pbo) :=
            if v_diff v && negb (k_pbo k)
            then match v_arr v with Some l => (c, psize l, Some (STup l), k_pbo k) | None => (c, 1%nat, Some (SInt 1), k_pbo k) end
            else (if k_pbo k then c else warn c name v, 0%nat, k_shape k, true) in
          let shape := match k_shape k with Some (SInt n) => if Nat.ltb 1 n then Some (STup [n]) else shape | _ => shape end in
          if k_low k then (c, inr TypeError)
          else if k_high k then (c, inr TypeError)
          else (c, inl (mkM v size shape pbo false (k_units k) (k_idx k)))
    end.
  Definition add_param (c : comp) (name : txt) (val : option value) (k : kwargs) : comp * option pyerr :=
    match k_scaler k with
    | Some _ => (c, Some ValueError)
    | None => match add_variable c name val k with
              | (c, inl m) => (mkC (c_post c) (c_params c ++ [(name, m)]) (c_unknowns c) (c_warns c), None)
              | (c, inr e) => (c, Some e)
              end
    end.
  Definition unset (val : option value) (k : kwargs) : bool := match val, k_shape k with None, None => true | _, _ => false end.
  Definition add_output (c : comp) (name : txt) (val : option value) (k : kwargs) : comp * option pyerr :=
    match k_scaler k with
    | Some _ => (c, Some ValueError)
    | None => if unset val k then (c, Some ValueError)
              else match add_variable c name val k with
                   | (c, inl m) => (mkC (c_post c) (c_params c) (c_unknowns c ++ [(name, m)]) (c_warns c), None)
                   | (c, inr e) => (c, Some e)
                   end
    end.
  Definition add_state (c : comp) (name : txt) (val : option value) (k : kwargs) : comp * option pyerr :=
    if match k_scaler k with Some q => Qeq_bool q 0 | None => false end then (c, Some ValueError)
    else if unset val k then (c, Some ValueError)
    else match add_variable c name val k with
         | (c, inl m) => (mkC (c_post c) (c_params c) (c_unknowns c ++ [(name, mkM (m_val m) (m_size m) (m_shape m) (m_pbo m) true (m_units m) (m_idx m))]) (c_warns c), None)
         | (c, inr e) => (c, Some e)
         end.
  (** d[name] *)
  Fixpoint mget (d : list (txt * meta)) (n : txt) : option meta := match d with [] => None | (k, m) :: r => if teqb k n then Some m else mget r n end.
  (** the metadata changed in place *)
  Definition mupd (d : list (txt * meta)) (n : txt) (m : meta) : list (txt * meta) := map (fun e => if teqb (fst e) n then (fst e, m) else e) d.
  (** bool(shape) *)
  Definition shp_true (s : option shp) : option shp := match s with Some (SInt 0) => None | Some (STup []) => None | _ => s end.
  Definition set_var_indices (c : comp) (name : txt) (val : option value) (shape : option shp) (src_indices : option (list Z)) : comp * option pyerr :=
    let go (m : meta) (put : meta -> comp) : comp * option pyerr :=
      match src_indices with
      | None => (c, Some ValueError)
      | Some idx =>
          match v_arr (m_val m) with
          | None => (c, Some ValueError)
          | Some _ =>
              (* the zeros have the type of the old value *)
              let v := match val with
                       | Some v => v
                       | None => mkV (v_arr (match shp_true shape with Some s => zeros s | None => zeros (STup [length idx]) end)) (v_diff (m_val m))
                       end in
              match v_arr v with
              | None => (c, Some AttributeError)
              | Some l => if negb (Nat.eqb (psize l) (length idx)) then (c, Some ValueError)
                          else (put (mkM v (psize l) (Some (STup l)) (m_pbo m) (m_state m) (m_units m) (Some idx)), None)
              end
          end
      end in
    match mget (c_params c) name with
    | Some m => go m (fun m' => mkC (c_post c) (mupd (c_params c) name m') (c_unknowns c) (c_warns c))
    | None => match mget (c_unknowns c) name with
              | Some m => go m (fun m' => mkC (c_post c) (c_params c) (mupd (c_unknowns c) name m') (c_warns c))
              | None => (c, Some KeyError)
              end
    end.
  Inductive call :=
  | AddParam (n : txt) (v : option value) (k : kwargs)
  | AddOutput (n : txt) (v : option value) (k : kwargs)
  | AddState (n : txt) (v : option value) (k : kwargs)
  | SetIdx (n : txt) (v : option value) (s : option shp) (i : option (list Z)).
  Definition step (c : comp) (a : call) : comp * option pyerr :=
    match a with
    | AddParam n v k => add_param c n v k
    | AddOutput n v k => add_output c n v k
    | AddState n v k => add_state c n v k
    | SetIdx n v s i => set_var_indices c n v s i
    end.
  (** exceptions are caught by the caller *)
  Definition run (l : list call) : comp := fold_left (fun c a => fst (step c a)) l (mkC false [] [] []).
End Declare.

(** Model of the design variable, constraint and scaling bookkeeping of
    openmdao/core/driver.py (and the scaling statements of
    openmdao/core/problem.py).

    Simplifications: single process (the [nproc > 1] branches that broadcast
    values are not modelled); floats are exact rationals; [warnings] calls are
    dropped. *)
From Verif Require Import Base.
Open Scope Q_scope.

(** A scaler, adder or bound: Python float, or numpy array (already
    flattened, lines 323-331 and 656-671). *)
Inductive num : Type := Num (x : Q) | Arr (a : list Q).

(** A value passed by a caller: Python float, numpy scalar or numpy array *)
Inductive pyval : Type := PyFloat (x : Q) | NpFloat (x : Q) | NpArr (a : list Q).

(** numpy broadcasting of a binary operation on 1-D arrays *)
Definition bc (op : Q -> Q -> Q) (a b : list Q) : res (list Q) :=
  match a, b with
  | _, [y] => Ok (map (fun x => op x y) a)
  | [x], _ => Ok (map (fun y => op x y) b)
  | _, _ => if Nat.eqb (length a) (length b)
            then Ok (map (fun p => op (fst p) (snd p)) (combine a b))
            else Err ValueError
  end.

(** array (op) scaler *)
Definition arr_op (op : Q -> Q -> Q) (a : list Q) (s : num) : res (list Q) :=
  match s with
  | Num y => Ok (map (fun x => op x y) a)
  | Arr b => bc op a b
  end.

(** value (op) scaler *)
Definition val_op (op : Q -> Q -> Q) (v : pyval) (s : num) : res pyval :=
  match v, s with
  | PyFloat x, Num y => Ok (PyFloat (op x y))
  | NpFloat x, Num y => Ok (NpFloat (op x y))
  | PyFloat x, Arr b => Ok (NpArr (map (op x) b))
  | NpFloat x, Arr b => Ok (NpArr (map (op x) b))
  | NpArr a, _ => let! r := arr_op op a s in Ok (NpArr r)
  end.

(** Python index [i] of a sequence of length [n]; negative indices count from
    the end *)
Definition norm_index (n : nat) (i : Z) : option nat :=
  if Z.leb 0 i && Z.ltb i (Z.of_nat n) then Some (Z.to_nat i)
  else if Z.leb (- Z.of_nat n) i && Z.ltb i 0 then Some (Z.to_nat (Z.of_nat n + i))
  else None.

Fixpoint norm_indices (n : nat) (is : list Z) : res (list nat) :=
  match is with
  | [] => Ok []
  | i :: r => match norm_index n i with
              | None => Err IndexError
              | Some k => let! ks := norm_indices n r in Ok (k :: ks)
              end
  end.

Fixpoint setnth {A} (l : list A) (k : nat) (x : A) : list A :=
  match l, k with
  | [], _ => []
  | _ :: l', O => x :: l'
  | y :: l', S k' => y :: setnth l' k' x
  end.

(** l[ks] *)
Fixpoint take_idx {A} (l : list A) (ks : list nat) : res (list A) :=
  match ks with
  | [] => Ok []
  | k :: r => match nth_error l k with
              | None => Err IndexError
              | Some x => let! xs := take_idx l r in Ok (x :: xs)
              end
  end.

(** l[ks] = xs, assigned in order *)
Fixpoint put_idx {A} (l : list A) (ks : list nat) (xs : list A) : list A :=
  match ks, xs with
  | k :: kr, x :: xr => put_idx (setnth l k x) kr xr
  | _, _ => l
  end.

(** How [unknowns[name]] presents a variable (Accessor._setup_get_funct,
    vec_wrapper.py 110-176): a scalar, a flat array or an array of a
    two-dimensional shape (rows, columns).  Higher dimensions are omitted. *)
Inductive vkind : Type := KScalar | KFlat | KShape (rows cols : nat).

Record var : Type := mkVar { vkind_of : vkind; flat : list Q }.

(** Metadata of a design variable, objective or constraint *)
Record meta : Type := mkMeta {
  m_scaler : num;
  m_adder : num;
  m_indices : option (list Z)
}.

Definition is_arr (n : num) : bool := match n with Arr _ => true | Num _ => false end.
Definition num_neqb (n : num) (q : Q) : bool :=
  match n with Num x => negb (Qeq_bool x q) | Arr _ => true end.

(** Driver._get_distrib_var (399-441) *)
Definition get_distrib_var (v : var) (m : meta) : res (list Q) :=
  let! fv := match m_indices m with
             | Some is => let! ks := norm_indices (length (flat v)) is in take_idx (flat v) ks
             | None => Ok (flat v)
             end in
  if is_arr (m_scaler m) || is_arr (m_adder m) || num_neqb (m_scaler m) 1 || num_neqb (m_adder m) 0
  then let! a := arr_op Qplus fv (m_adder m) in arr_op Qmult a (m_scaler m)
  else Ok fv.

(** scaler[index] of an array scaler/adder (495, 508) *)
Definition pick (n : num) (i : Z) : res num :=
  match n with
  | Num x => Ok (Num x)
  | Arr a => match norm_index (length a) i with
             | None => Err IndexError
             | Some k => match nth_error a k with Some x => Ok (Num x) | None => Err IndexError end
             end
  end.

(** the entries of a value that is assigned to [n] places: value.flat or
    numpy broadcasting in an item assignment *)
Definition spread (n : nat) (a : list Q) : res (list Q) :=
  match a with
  | [x] => Ok (repeat x n)
  | _ => if Nat.eqb (length a) n then Ok a else Err ValueError
  end.

Definition entries (v : pyval) : list Q :=
  match v with PyFloat x => [x] | NpFloat x => [x] | NpArr a => a end.

(** self.root.unknowns[name] = value (VecWrapper.__setitem__ with
    _set_scalar / _set_arr, vec_wrapper.py 291-312) *)
Definition assign_whole (v : var) (x : pyval) : res var :=
  match vkind_of v with
  | KScalar =>
      match entries x with
      | [q] => Ok (mkVar KScalar (setnth (flat v) 0 q))
      | _ => Err ValueError
      end
  | k =>
      match x with
      | PyFloat _ => Err AttributeError          (* a float has no .flat *)
      | _ => let! xs := spread (length (flat v)) (entries x) in Ok (mkVar k xs)
      end
  end.

(** rows of a two-dimensional array *)
Definition put_row (cols : nat) (l : list Q) (k : nat) (xs : list Q) : list Q :=
  put_idx l (map (fun j => (k * cols + j)%nat) (seq 0 cols)) xs.

(** self.root.unknowns[name][idx] = value for an index array (519-520) *)
Definition assign_indices (v : var) (is : list Z) (x : pyval) : res var :=
  match vkind_of v with
  | KScalar => Err TypeError                     (* numpy scalar: no item assignment *)
  | KFlat =>
      let! ks := norm_indices (length (flat v)) is in
      let! xs := spread (length ks) (entries x) in
      Ok (mkVar KFlat (put_idx (flat v) ks xs))
  | KShape rows cols =>
      let! ks := norm_indices rows is in
      let! xs := spread cols (entries x) in
      Ok (mkVar (KShape rows cols) (fold_left (fun l k => put_row cols l k xs) ks (flat v)))
  end.

(** self.root.unknowns[name][idx] = value for a single integer index *)
Definition assign_index (v : var) (i : Z) (x : pyval) : res var :=
  match vkind_of v with
  | KScalar => Err TypeError
  | KFlat =>
      match norm_index (length (flat v)) i with
      | None => Err IndexError
      | Some k => match entries x with
                  | [q] => Ok (mkVar KFlat (setnth (flat v) k q))
                  | _ => Err ValueError
                  end
      end
  | KShape rows cols =>
      match norm_index rows i with
      | None => Err IndexError
      | Some k => let! xs := spread cols (entries x) in
                  Ok (mkVar (KShape rows cols) (put_row cols (flat v) k xs))
      end
  end.

(** Python truth value of the [index] argument: None and 0 are false *)
Definition truthy (index : option Z) : option Z :=
  match index with Some i => if Z.eqb i 0 then None else Some i | None => None end.

(** Driver.set_desvar (466-523).  The read [val[index]] on line 481 raises
    IndexError for an index out of range. *)
Definition set_desvar (v : var) (m : meta) (value : pyval) (index : option Z) : res var :=
  let! _ := match truthy index with
            | Some i => match norm_index (length (flat v)) i with
                        | Some _ => Ok tt | None => Err IndexError end
            | None => Ok tt
            end in
  if Nat.eqb (length (flat v)) 0 then Ok v                           (* 485-487 *)
  else
    let! x1 := match m_scaler m with
               | Arr a => let! s := match truthy index with
                                    | Some i => pick (Arr a) i | None => Ok (Arr a) end in
                          val_op Qdiv value s
               | Num y => if Qeq_bool y 1 then Ok value else val_op Qdiv value (Num y)
               end in
    let! x2 := match m_adder m with
               | Arr a => let! s := match truthy index with
                                    | Some i => pick (Arr a) i | None => Ok (Arr a) end in
                          val_op Qminus x1 s
               | Num y => if Qeq_bool y 0 then Ok x1 else val_op Qminus x1 (Num y)
               end in
    match truthy index with
    | Some i => assign_index v i x2
    | None => match m_indices m with
              | Some is => assign_indices v is x2
              | None => assign_whole v x2
              end
    end.

(** Driver.add_desvar (291-368): scaled bounds of one entry.  [fmax] is
    sys.float_info.max; None stands for no bound (or an infinite one). *)
Definition scaled_lower (fmax : Q) (lower : option Q) (adder scaler : Q) : Q :=
  (match lower with None => - fmax | Some l => l end + adder) * scaler.
Definition scaled_upper (fmax : Q) (upper : option Q) (adder scaler : Q) : Q :=
  (match upper with None => fmax | Some u => u end + adder) * scaler.

(** the scaled value of one entry handed to the optimizer (434-441) *)
Definition scaled_value (x adder scaler : Q) : Q :=
  if negb (Qeq_bool scaler 1) || negb (Qeq_bool adder 0) then (x + adder) * scaler else x.

(** ** Constraints *)
Record con_args : Type := mkConArgs {
  c_name : string;
  c_lower : option num;
  c_upper : option num;
  c_equals : option num;
  c_linear : bool;
  c_indices : option (list Z);
  c_adder : num;
  c_scaler : num
}.

Record supports : Type := mkSupports {
  s_eq : bool; s_ineq : bool; s_two : bool
}.

(** stored metadata (684-694) *)
Record con : Type := mkCon {
  k_lower : option num; k_upper : option num; k_equals : option num;
  k_linear : bool; k_meta : meta
}.

Definition is_some {A} (o : option A) : bool := match o with Some _ => true | None => false end.

(** (bound + adder)*scaler for floats and arrays (674-679) *)
Definition scale_num (b adder scaler : num) : res num :=
  let add x y := match x, y with
                 | Num p, Num q => Ok (Num (p + q))
                 | Num p, Arr q => Ok (Arr (map (fun z => p + z) q))
                 | Arr p, _ => let! r := arr_op Qplus p y in Ok (Arr r)
                 end in
  let mul x y := match x, y with
                 | Num p, Num q => Ok (Num (p * q))
                 | Num p, Arr q => Ok (Arr (map (fun z => p * z) q))
                 | Arr p, _ => let! r := arr_op Qmult p y in Ok (Arr r)
                 end in
  let! s := add b adder in mul s scaler.

Definition scale_opt (b : option num) (adder scaler : num) : res (option num) :=
  match b with
  | None => Ok None
  | Some x => let! y := scale_num x adder scaler in Ok (Some y)
  end.

(** [if indices:] — an empty list is false (696) *)
Definition truthy_list (l : option (list Z)) : option (list Z) :=
  match l with Some [] => None | _ => l end.

(** Driver.add_constraint (600-698) on the dictionary of constraints *)
Definition add_constraint (s : supports) (cons : list (string * con)) (a : con_args)
  : res (list (string * con)) :=
  if smem cons (c_name a) then Err RuntimeError
  else if is_some (c_equals a) && (is_some (c_lower a) || is_some (c_upper a)) then Err RuntimeError
  else if is_some (c_equals a) && negb (s_eq s) then Err RuntimeError
  else if negb (is_some (c_equals a)) && negb (s_ineq s) then Err RuntimeError
  else if is_some (c_lower a) && is_some (c_upper a) && negb (s_two s) then Err RuntimeError
  else if negb (is_some (c_lower a)) && negb (is_some (c_upper a)) && negb (is_some (c_equals a))
       then Err RuntimeError
  else
    let! lo := scale_opt (c_lower a) (c_adder a) (c_scaler a) in
    let! up := scale_opt (c_upper a) (c_adder a) (c_scaler a) in
    let! eq := scale_opt (c_equals a) (c_adder a) (c_scaler a) in
    Ok (sset cons (c_name a)
          (mkCon lo up eq (c_linear a) (mkMeta (c_scaler a) (c_adder a) (truthy_list (c_indices a))))).

(** a sequence of calls; a raised exception leaves the dictionary unchanged *)
Fixpoint add_constraints (s : supports) (cons : list (string * con)) (l : list con_args) :=
  match l with
  | [] => cons
  | a :: r => add_constraints s (match add_constraint s cons a with Ok c => c | Err _ => cons end) r
  end.

Inductive ctype : Type := CAll | CEq | CIneq.
Inductive lintype : Type := LAll | LLinear | LNonlinear.

(** filter of Driver.get_constraints (729-743) *)
Definition con_selected (ct : ctype) (lt : lintype) (k : con) : bool :=
  match lt with LLinear => k_linear k | LNonlinear => negb (k_linear k) | LAll => true end &&
  match ct with CEq => is_some (k_equals k) | CIneq => negb (is_some (k_equals k)) | CAll => true end.

(** Driver.get_constraints (709-745); [vars] are the unknowns *)
Fixpoint get_constraints (vars : string -> option var) (ct : ctype) (lt : lintype)
         (cons : list (string * con)) : res (list (string * list Q)) :=
  match cons with
  | [] => Ok []
  | (n, k) :: r =>
      if con_selected ct lt k then
        match vars n with
        | None => Err KeyError
        | Some v =>
            let! x := get_distrib_var v (k_meta k) in
            let! xs := get_constraints vars ct lt r in
            Ok ((n, x) :: xs)
        end
      else get_constraints vars ct lt r
  end.

(** ** Gradient scaling *)

(** [all(scaler == 1.0)] or [scaler == 1.0] (139-143, 150-154) *)
Definition is_unit_scaler (s : num) : bool :=
  match s with
  | Num x => Qeq_bool x 1
  | Arr a => forallb (fun x => Qeq_bool x 1) a
  end.

Definition reciprocal (s : num) : num :=
  match s with Num x => Num (/ x) | Arr a => Arr (map Qinv a) end.

(** Driver._setup (136-156): dv_conversions and fn_conversions *)
Definition dv_conversions (desvars : list (string * num)) : list (string * num) :=
  fold_left (fun d nm => if is_unit_scaler (snd nm) then d else sset d (fst nm) (reciprocal (snd nm)))
            desvars [].
Definition fn_conversions (objs cons : list (string * num)) : list (string * num) :=
  fold_left (fun d nm => if is_unit_scaler (snd nm) then d else sset d (fst nm) (snd nm))
            (objs ++ cons) [].

(** [row *= scale] on a 1-D slice of length [n]: the factor of entry [k], or
    a broadcasting error *)
Definition slice_factor (scale : option num) (n k : nat) : res Q :=
  match scale with
  | None => Ok 1
  | Some (Num s) => Ok s
  | Some (Arr [s]) => Ok s
  | Some (Arr a) => if Nat.eqb (length a) n
                    then match nth_error a k with Some s => Ok s | None => Err IndexError end
                    else Err ValueError
  end.

(** Problem._calc_gradient_ln_solver, forward (1759-1767, 1780-1787): column
    [i] of the block of response [f] (nf entries) and design variable [x] (nx
    entries), entry [j]; both scale factors are applied to the whole column *)
Definition grad_fwd (dv cn : option num) (nf nx : nat) (J : nat -> nat -> Q) (j i : nat) : res Q :=
  let! a := slice_factor dv nf j in
  let! b := slice_factor cn nf j in
  Ok (J j i * a * b).

(** reverse (1768-1776, 1789-1796): row [j], entry [i] *)
Definition grad_rev (dv cn : option num) (nf nx : nat) (J : nat -> nat -> Q) (j i : nat) : res Q :=
  let! a := slice_factor cn nx i in
  let! b := slice_factor dv nx i in
  Ok (J j i * a * b).

(** Problem._calc_gradient_fd (1431-1435, 1469-1473): the factors multiply a
    matrix and broadcast along its last axis *)
Definition grad_fd (dv cn : option num) (nf nx : nat) (J : nat -> nat -> Q) (j i : nat) : res Q :=
  let! a := slice_factor dv nx i in
  let! b := slice_factor cn nx i in
  Ok (J j i * a * b).

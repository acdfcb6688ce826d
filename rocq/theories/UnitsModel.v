(** Model of openmdao/units/units.py.

    Simplifications (whole file):
    - floats are exact rationals [Q];
    - the [names] field of a unit (lines 409-414, used only for printing) is
      dropped, so [set_name] (590-593) is the identity;
    - [eval] of a unit string is evaluation of the corresponding syntax tree
      ([uexpr]); parsing of the string by Python is not modelled. *)
From Verif Require Import Base.
Open Scope Q_scope.

(** PhysicalUnit (units.py 380-418): scaling factor, exponents of the base
    units, additive offset. *)
Record punit : Type := mkUnit {
  factor : Q;
  powers : list Z;
  offset : Q
}.

(** list equality [self.powers != other.powers] *)
Fixpoint zlist_eqb (a b : list Z) : bool :=
  match a, b with
  | [], [] => true
  | x :: a', y :: b' => Z.eqb x y && zlist_eqb a' b'
  | _, _ => false
  end.

(** [f(a,b) for (a, b) in zip(xs, ys)] (lines 444, 460) *)
Fixpoint zipwith (f : Z -> Z -> Z) (a b : list Z) : list Z :=
  match a, b with
  | x :: a', y :: b' => f x y :: zipwith f a' b'
  | _, _ => []
  end.

(** PhysicalUnit.__mul__ with a unit argument (437-444) *)
Definition unit_mul (u v : punit) : res punit :=
  if negb (Qeq_bool (offset u) 0) || negb (Qeq_bool (offset v) 0) then Err TypeError
  else Ok (mkUnit (factor u * factor v) (zipwith Z.add (powers u) (powers v)) 0).

(** PhysicalUnit.__mul__ / __rmul__ with a number (437-451) *)
Definition unit_mul_num (u : punit) (n : Q) : res punit :=
  if negb (Qeq_bool (offset u) 0) then Err TypeError
  else Ok (mkUnit (factor u * n) (powers u) (offset u * n)).

(** PhysicalUnit.__div__ with a unit argument (453-460).  A zero factor
    raises ZeroDivisionError in Python. *)
Definition unit_div (u v : punit) : res punit :=
  if negb (Qeq_bool (offset u) 0) || negb (Qeq_bool (offset v) 0) then Err TypeError
  else if Qeq_bool (factor v) 0 then Err ZeroDivisionError
  else Ok (mkUnit (factor u / factor v) (zipwith Z.sub (powers u) (powers v)) 0).

(** PhysicalUnit.__div__ with a number (453-463) *)
Definition unit_div_num (u : punit) (n : Q) : res punit :=
  if negb (Qeq_bool (offset u) 0) then Err TypeError
  else if Qeq_bool n 0 then Err ZeroDivisionError
  else Ok (mkUnit (factor u / n) (powers u) 0).

(** PhysicalUnit.__rdiv__ (467-472): no check of the offset *)
Definition unit_rdiv_num (n : Q) (u : punit) : res punit :=
  if Qeq_bool (factor u) 0 then Err ZeroDivisionError
  else Ok (mkUnit (n / factor u) (map Z.opp (powers u)) 0).

(** PhysicalUnit.__pow__ with an int exponent (474-479).  The inverse-integer
    float exponents (480-499) are not modelled. *)
Definition unit_pow (u : punit) (n : Z) : res punit :=
  if negb (Qeq_bool (offset u) 0) then Err TypeError
  else if Qeq_bool (factor u) 0 && Z.ltb n 0 then Err ZeroDivisionError
  else Ok (mkUnit (Qpower (factor u) n) (map (fun x => (x * n)%Z) (powers u)) 0).

(** PhysicalUnit.conversion_factor_to (501-527) *)
Definition conversion_factor_to (u v : punit) : res Q :=
  if negb (zlist_eqb (powers u) (powers v)) then Err TypeError
  else if negb (Qeq_bool (offset u) (offset v)) && negb (Qeq_bool (factor u) (factor v))
       then Err TypeError
  else if Qeq_bool (factor v) 0 then Err ZeroDivisionError
  else Ok (factor u / factor v).

(** PhysicalUnit.conversion_tuple_to (530-569) *)
Definition conversion_tuple_to (u v : punit) : res (Q * Q) :=
  if negb (zlist_eqb (powers u) (powers v)) then Err TypeError
  else if Qeq_bool (factor v) 0 then Err ZeroDivisionError
  else if Qeq_bool (factor u) 0 then Err ZeroDivisionError
  else Ok (factor u / factor v, offset u - (offset v * factor v / factor u)).

(** PhysicalUnit.is_compatible (572-579) *)
Definition is_compatible (u v : punit) : bool := zlist_eqb (powers u) (powers v).

(** PhysicalUnit.is_dimensionless (581-583) *)
Definition is_dimensionless (u : punit) : bool := negb (existsb (fun x => negb (Z.eqb x 0)) (powers u)).

(** ** PhysicalQuantity (101-377) *)
Record quantity : Type := mkQty { value : Q; qunit : punit }.

(** PhysicalQuantity.convert_value (234-237) *)
Definition convert_value (q : quantity) (target : punit) : res Q :=
  let! (f, o) := conversion_tuple_to (qunit q) target in
  Ok ((value q + o) * f).

(** PhysicalQuantity.convert_to_unit / in_units_of (239-292) *)
Definition in_units_of (q : quantity) (u : punit) : res quantity :=
  let! v := convert_value q u in Ok (mkQty v u).

(** convert_units (836-857), after both unit strings are looked up *)
Definition convert_units (v : Q) (u w : punit) : res Q :=
  let! q := in_units_of (mkQty v u) w in Ok (value q).

(** Accessor._get_scalar_units, _get_arr_units (vec_wrapper.py 243-289): how a
    connected parameter applies its (scale, offset) pair *)
Definition get_param_units (conv : Q * Q) (v : Q) : Q := fst conv * (v + snd conv).

(** PhysicalQuantity.__eq__ (149-153): incompatible units compare unequal *)
Definition qty_eq (a b : quantity) : bool :=
  match conversion_factor_to (qunit b) (qunit a) with
  | Ok f => Qeq_bool (value a) (value b * f)
  | Err _ => false
  end.

(** PhysicalQuantity._sum (155-161) *)
Definition qty_sum (a b : quantity) (s1 s2 : Q) : res quantity :=
  let! f := conversion_factor_to (qunit b) (qunit a) in
  Ok (mkQty (s1 * value a + s2 * value b * f) (qunit a)).

(** __add__, __sub__ (163-172) *)
Definition qty_add (a b : quantity) : res quantity := qty_sum a b 1 1.
Definition qty_sub (a b : quantity) : res quantity := qty_sum a b 1 (-1).

(** __lt__ (174-176) *)
Definition qty_lt (a b : quantity) : res bool :=
  let! d := qty_sum a b 1 (-1) in Ok (negb (Qle_bool 0 (value d))).

(** Result of a product or quotient: a number when dimensionless *)
Inductive qnum : Type := QNum (x : Q) | QQty (q : quantity).

(** __mul__ of two quantities (178-186) *)
Definition qty_mul (a b : quantity) : res qnum :=
  let! u := unit_mul (qunit a) (qunit b) in
  if is_dimensionless u then Ok (QNum (value a * value b * factor u))
  else Ok (QQty (mkQty (value a * value b) u)).

(** __div__ of two quantities (190-198) *)
Definition qty_div (a b : quantity) : res qnum :=
  if Qeq_bool (value b) 0 then Err ZeroDivisionError
  else
  let! u := unit_div (qunit a) (qunit b) in
  if is_dimensionless u then Ok (QNum (value a / value b * factor u))
  else Ok (QQty (mkQty (value a / value b) u)).

(** __pow__ with an int exponent (214-217) *)
Definition qty_pow (a : quantity) (n : Z) : res quantity :=
  if Qeq_bool (value a) 0 && Z.ltb n 0 then Err ZeroDivisionError
  else let! u := unit_pow (qunit a) n in Ok (mkQty (Qpower (value a) n) u).

(** ** Unit expressions and the unit table *)

(** Syntax trees of unit strings such as "kg*m/s**2" or "60*s". *)
Inductive uexpr : Type :=
| UName (n : string)
| UNum (x : Q)
| UMul (a b : uexpr)
| UDiv (a b : uexpr)
| UPow (a : uexpr) (n : Z).

(** Values of unit expressions *)
Inductive uval : Type := VNum (x : Q) | VUnit (u : punit).

Definition table := list (string * punit).

(** [eval(name, {...}, unit_table)] (627, 661, 700): operands are evaluated
    left to right, an unknown name raises NameError, operators dispatch to the
    PhysicalUnit methods above. *)
Fixpoint ueval (t : table) (e : uexpr) : res uval :=
  match e with
  | UName n => match sget t n with Some u => Ok (VUnit u) | None => Err NameError end
  | UNum x => Ok (VNum x)
  | UMul a b =>
      let! va := ueval t a in
      let! vb := ueval t b in
      match va, vb with
      | VNum x, VNum y => Ok (VNum (x * y))
      | VNum x, VUnit u => let! w := unit_mul_num u x in Ok (VUnit w)
      | VUnit u, VNum y => let! w := unit_mul_num u y in Ok (VUnit w)
      | VUnit u, VUnit v => let! w := unit_mul u v in Ok (VUnit w)
      end
  | UDiv a b =>
      let! va := ueval t a in
      let! vb := ueval t b in
      match va, vb with
      | VNum x, VNum y => if Qeq_bool y 0 then Err ZeroDivisionError else Ok (VNum (x / y))
      | VNum x, VUnit u => let! w := unit_rdiv_num x u in Ok (VUnit w)
      | VUnit u, VNum y => let! w := unit_div_num u y in Ok (VUnit w)
      | VUnit u, VUnit v => let! w := unit_div u v in Ok (VUnit w)
      end
  | UPow a n =>
      let! va := ueval t a in
      match va with
      | VNum x => if Qeq_bool x 0 && Z.ltb n 0 then Err ZeroDivisionError
                  else Ok (VNum (Qpower x n))
      | VUnit u => let! w := unit_pow u n in Ok (VUnit w)
      end
  end.

(** identifiers of an expression in textual order: [regex.findall(name)]
    (636-638).  Simplification: the regular expression also picks up the
    exponent letter of literals such as 1e4; literals here have none. *)
Fixpoint unames (e : uexpr) : list string :=
  match e with
  | UName n => [n]
  | UNum _ => []
  | UMul a b | UDiv a b => unames a ++ unames b
  | UPow a _ => unames a
  end.

(** add_unit (695-710) for an already evaluated unit *)
Definition add_unit (t : table) (name : string) (u : punit) : res table :=
  match sget t name with
  | Some old =>
      if negb (Qeq_bool (factor old) (factor u)) || negb (zlist_eqb (powers old) (powers u))
      then Err KeyError
      else Ok (sset t name u)
  | None => Ok (sset t name u)
  end.

(** add_unit (695-710) for a unit expression: a plain number has no
    [set_name], hence AttributeError (line 702) *)
Definition add_unit_expr (t : table) (name : string) (e : uexpr) : res table :=
  let! v := ueval t e in
  match v with
  | VUnit u => add_unit t name u
  | VNum _ => Err AttributeError
  end.

(** ** _find_unit (619-667) *)

Definition prefixes := list (string * Q).

(** Python slices item[0:k] and item[k:] *)
Fixpoint stake (k : nat) (s : string) : string :=
  match k, s with
  | S k', String c s' => String c (stake k' s')
  | _, _ => EmptyString
  end.
Fixpoint sdrop (k : nat) (s : string) : string :=
  match k, s with
  | 0%nat, _ => s
  | S k', String _ s' => sdrop k' s'
  | _, EmptyString => EmptyString
  end.

(** body of the [for item in regex.findall(name)] loop (638-659) *)
Definition expand_item (px : prefixes) (t : table) (item : string) : res table :=
  match sget t item with
  | Some _ => Ok t                               (* eval(item) succeeds *)
  | None =>
      match sget px (stake 1 item), sget t (sdrop 1 item) with
      | Some f, Some u => let! w := unit_mul_num u f in add_unit t item w
      | _, _ =>
          match sget px (stake 2 item), sget t (sdrop 2 item) with
          | Some f, Some u => let! w := unit_mul_num u f in add_unit t item w
          | _, _ => Err ValueError
          end
      end
  end.

(** The loop over all items (638-659).  Entries added before an error stay in
    the (global) table, so the table is returned in every case. *)
Fixpoint expand_items (px : prefixes) (t : table) (items : list string) : table * res unit :=
  match items with
  | [] => (t, Ok tt)
  | i :: r =>
      match expand_item px t i with
      | Ok t' => expand_items px t' r
      | Err e => (t, Err e)
      end
  end.

(** Global state: the unit table and the cache *)
Record ustate : Type := mkUState { utable : table; ucache : list (uexpr * uval) }.

(** structural equality of names (dictionary keys of _UNIT_CACHE) *)
Fixpoint uexpr_eqb (a b : uexpr) : bool :=
  match a, b with
  | UName m, UName n => String.eqb m n
  | UNum x, UNum y => Z.eqb (Qnum x) (Qnum y) && Pos.eqb (Qden x) (Qden y)
  | UMul a1 a2, UMul b1 b2 => uexpr_eqb a1 b1 && uexpr_eqb a2 b2
  | UDiv a1 a2, UDiv b1 b2 => uexpr_eqb a1 b1 && uexpr_eqb a2 b2
  | UPow a1 m, UPow b1 n => uexpr_eqb a1 b1 && Z.eqb m n
  | _, _ => false
  end.

(** lines 665-667: the looked-up value must be a unit *)
Definition as_unit (v : uval) : res punit :=
  match v with VUnit u => Ok u | VNum _ => Err TypeError end.

(** _find_unit (619-667) on a string *)
Definition find_unit (px : prefixes) (s : ustate) (e : uexpr) : ustate * res punit :=
  match dget uexpr_eqb (ucache s) e with
  | Some v => (s, as_unit v)                                       (* 624 *)
  | None =>
      match ueval (utable s) e with                                (* 627 *)
      | Ok v => (mkUState (utable s) (dset uexpr_eqb (ucache s) e v), as_unit v)
      | Err _ =>
          let '(t', r) := expand_items px (utable s) (unames e) in (* 638-659 *)
          match r with
          | Err er => (mkUState t' (ucache s), Err er)
          | Ok _ =>
              match ueval t' e with                                (* 661 *)
              | Ok v => (mkUState t' (dset uexpr_eqb (ucache s) e v), as_unit v)
              | Err er => (mkUState t' (ucache s), Err er)
              end
          end
      end
  end.

(** A history of lookups *)
Fixpoint find_units (px : prefixes) (s : ustate) (es : list uexpr) : ustate :=
  match es with
  | [] => s
  | e :: r => find_units px (fst (find_unit px s e)) r
  end.

(** PhysicalQuantity.in_base_units (296-322): the unit string built from the
    powers, as a syntax tree: numerator names joined by '*', denominators
    appended with '/', "1" when there is no numerator *)
Definition base_atom (n : string) (p : Z) : uexpr :=
  if Z.ltb 1 p then UPow (UName n) p else UName n.

Fixpoint base_num (acc : option uexpr) (l : list (string * Z)) : option uexpr :=
  match l with
  | [] => acc
  | (n, p) :: r =>
      if Z.ltb 0 p then
        base_num (Some (match acc with
                        | None => base_atom n p
                        | Some e => UMul e (base_atom n p)
                        end)) r
      else base_num acc r
  end.

Fixpoint base_den (acc : uexpr) (l : list (string * Z)) : uexpr :=
  match l with
  | [] => acc
  | (n, p) :: r =>
      if Z.ltb p 0 then base_den (UDiv acc (base_atom n (- p))) r
      else base_den acc r
  end.

Definition base_unit_expr (base_names : list string) (ps : list Z) : uexpr :=
  let l := combine base_names ps in
  base_den (match base_num None l with None => UNum 1 | Some e => e end) l.

(** in_base_units: the new value and the looked-up unit *)
Definition in_base_units (px : prefixes) (base_names : list string) (s : ustate)
           (q : quantity) : res quantity :=
  let! u := snd (find_unit px s (base_unit_expr base_names (powers (qunit q)))) in
  Ok (mkQty (value q * factor (qunit q)) u).

(** ** _update_library (787-833) *)

(** A definition in the [units] section: an expression (two comma separated
    items), or factor, base unit and offset (four items) *)
Inductive udef : Type :=
| DExpr (name : string) (e : uexpr)
| DOffset (name : string) (base : uexpr) (f o : Q).

Definition def_name (d : udef) : string :=
  match d with DExpr n _ => n | DOffset n _ _ _ => n end.

(** add_offset_unit (675-692).  The base unit is looked up by [_find_unit]. *)
Definition add_offset_unit (px : prefixes) (s : ustate) (name : string) (base : uexpr)
           (f o : Q) : ustate * res unit :=
  let '(s', r) := find_unit px s base in
  match r with
  | Err e => (s', Err e)
  | Ok b =>
      match add_unit (utable s') name (mkUnit (factor b * f) (powers b) o) with
      | Ok t' => (mkUState t' (ucache s'), Ok tt)
      | Err e => (s', Err e)
      end
  end.

Definition add_def (px : prefixes) (s : ustate) (d : udef) : ustate * res unit :=
  match d with
  | DExpr n e =>
      match add_unit_expr (utable s) n e with
      | Ok t' => (mkUState t' (ucache s), Ok tt)
      | Err er => (s, Err er)
      end
  | DOffset n b f o => add_offset_unit px s n b f o
  end.

(** One pass over a list of definitions: NameError puts the definition on the
    retry list, any other exception aborts (790-808, and 815-829) *)
Fixpoint lib_pass (px : prefixes) (s : ustate) (ds : list udef)
  : res (ustate * list udef) :=
  match ds with
  | [] => Ok (s, [])
  | d :: r =>
      match add_def px s d with
      | (s', Ok _) => lib_pass px s' r
      | (s', Err NameError) =>
          let! (s'', retry) := lib_pass px s' r in Ok (s'', d :: retry)
      | (_, Err e) => Err e
      end
  end.

(** The retry loop (809-833).  [order k] is the iteration order of the Python
    set [retry2] in round [k] (any permutation).  [last] and [count] are
    last_retry_count and retry_count; [fuel] bounds the number of rounds. *)
Fixpoint lib_retry (px : prefixes) (order : nat -> list udef -> list udef) (fuel : nat)
         (last count : Z) (s : ustate) (retry : list udef) : res ustate :=
  if negb (Z.eqb last count) && negb (Nat.eqb (length retry) 0) then
    match fuel with
    | O => Err RuntimeError          (* out of fuel: shown unreachable *)
    | S fuel' =>
        let! (s', retry') := lib_pass px s (order fuel' retry) in
        lib_retry px order fuel' count (Z.of_nat (length retry')) s' retry'
    end
  else
    match retry with
    | [] => Ok s
    | _ => Err ValueError            (* 830-833 *)
    end.

(** _update_library (787-833).  [cfg.items('units')] has distinct names. *)
Definition update_library (px : prefixes) (order : nat -> list udef -> list udef)
           (s : ustate) (ds : list udef) : res ustate :=
  let! (s', retry) := lib_pass px s ds in
  lib_retry px order (S (S (length ds))) (-1) 0 s' retry.

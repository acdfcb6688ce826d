(** Model of openmdao/util/options.py (OptionsDictionary,
    DeprecatedOptionsDictionary) and of DerivOptionsDict
    (openmdao/core/system.py 33-60).

    Simplifications: Python values are limited to the types below (no
    infinities, lists or user objects); warnings and print calls are dropped;
    descriptions are dropped. *)
From Verif Require Import Base.
Local Open Scope Z_scope.

Inductive value : Type :=
| VNone
| VBool (b : bool)
| VInt (z : Z)
| VFloat (q : Q)
| VNan
| VStr (s : string).

(** type(value) *)
Inductive vtype : Type := TNone | TBool | TInt | TFloat | TStr.
Definition type_of (v : value) : vtype :=
  match v with
  | VNone => TNone | VBool _ => TBool | VInt _ => TInt
  | VFloat _ => TFloat | VNan => TFloat | VStr _ => TStr
  end.
Definition vtype_eqb (a b : vtype) : bool :=
  match a, b with
  | TNone, TNone | TBool, TBool | TInt, TInt | TFloat, TFloat | TStr, TStr => true
  | _, _ => false
  end.

(** numeric value of bool, int and float objects *)
Definition numeric (v : value) : option Q :=
  match v with
  | VBool b => Some (if b then 1%Q else 0%Q)
  | VInt z => Some (inject_Z z)
  | VFloat q => Some q
  | _ => None
  end.

Definition is_nan (v : value) : bool := match v with VNan => true | _ => false end.
Definition is_number (v : value) : bool :=
  match v with VBool _ | VInt _ | VFloat _ | VNan => true | _ => false end.

(** Python [a == b] *)
Definition pyeq (a b : value) : bool :=
  match numeric a, numeric b with
  | Some x, Some y => Qeq_bool x y
  | _, _ => match a, b with
            | VNone, VNone => true
            | VStr s, VStr t => String.eqb s t
            | _, _ => false
            end
  end.

(** Python [a < b]; a comparison of unordered types raises TypeError (Python 3) *)
Definition pylt (a b : value) : res bool :=
  match a, b with
  | VStr s, VStr t => Ok (match String.compare s t with Lt => true | _ => false end)
  | _, _ =>
      if is_number a && is_number b
      then match numeric a, numeric b with
           | Some x, Some y => Ok (negb (Qle_bool y x))
           | _, _ => Ok false                       (* a NaN is involved *)
           end
      else Err TypeError
  end.

(** one entry of self._options (65-73) *)
Record opt : Type := mkOpt {
  o_val : value;
  o_lower : option value;
  o_upper : option value;
  o_values : option (list value);
  o_lock : bool;
  o_changed : bool
}.

Inductive kind : Type := Plain | Deriv.

(** an OptionsDictionary; [d_locked] is the instance attribute [locked] that
    newton.py 177 and 252 create, which hides the class attribute *)
Record dict : Type := mkDict {
  d_kind : kind;
  d_options : list (string * opt);
  d_deprecations : list (string * string);
  d_locked : option bool
}.

(** all dictionaries of the process and the class attribute
    OptionsDictionary.locked (22) *)
Record world : Type := mkWorld {
  w_dicts : list dict;
  w_locked : bool
}.

(** self.locked *)
Definition locked (w : world) (d : dict) : bool :=
  match d_locked d with Some b => b | None => w_locked w end.

(** _check (175-201) with _check_values, _check_type, _check_low, _check_high
    (203-225) *)
Definition check (lk : bool) (v : value) (o : opt) : res unit :=
  if lk && o_lock o then Err RuntimeError
  else
    match o_values o with
    | Some vs => if existsb (pyeq v) vs then Ok tt else Err ValueError
    | None =>
        if negb (vtype_eqb (type_of v) (type_of (o_val o))) then Err ValueError
        else
          let! _ := match o_lower o with
                    | None => Ok tt
                    | Some l => let! b := pylt v l in if b then Err ValueError else Ok tt
                    end in
          match o_upper o with
          | None => Ok tt
          | Some u => let! b := pylt u v in if b then Err ValueError else Ok tt
          end
    end.

(** add_option (37-77) *)
Definition add_option (lk : bool) (d : dict) (name : string) (v : value)
           (lower upper : option value) (values : option (list value)) (lock : bool)
  : dict * res unit :=
  if smem (d_options d) name then (d, Err ValueError)
  else
    let o := mkOpt v lower upper values lock false in
    match check lk v o with
    | Err e => (d, Err e)
    | Ok _ => (mkDict (d_kind d) (sset (d_options d) name o) (d_deprecations d) (d_locked d), Ok tt)
    end.

(** remove_option (79-91) *)
Definition remove_option (d : dict) (name : string) : dict :=
  mkDict (d_kind d) (sdel (d_options d) name) (d_deprecations d) (d_locked d).

(** _add_deprecation (93-107) *)
Definition add_deprecation (d : dict) (oldname newname : string) : dict * res unit :=
  if smem (d_options d) newname
  then (mkDict (d_kind d) (d_options d) (sset (d_deprecations d) oldname newname) (d_locked d), Ok tt)
  else (d, Err NameError).

(** __getitem__ (109-118) *)
Definition getitem (d : dict) (name : string) : res value :=
  match sget (d_options d) name with
  | Some o => Ok (o_val o)
  | None =>
      match sget (d_deprecations d) name with
      | Some n => match sget (d_options d) n with
                  | Some o => Ok (o_val o)
                  | None => Err KeyError
                  end
      | None => Err KeyError
      end
  end.

(** __contains__ (120-121) *)
Definition contains (d : dict) (name : string) : bool :=
  smem (d_options d) name || smem (d_deprecations d) name.

(** get (146-161); line 160 uses the old name *)
Definition get (d : dict) (name : string) (default : value) : res value :=
  match sget (d_options d) name with
  | Some o => Ok (o_val o)
  | None =>
      match sget (d_deprecations d) name with
      | Some n => match sget (d_options d) name with
                  | Some o => Ok (o_val o)
                  | None => Err KeyError
                  end
      | None => Ok default
      end
  end.

(** OptionsDictionary.__setitem__ (123-137) *)
Definition base_setitem (lk : bool) (d : dict) (name : string) (v : value) : dict * res unit :=
  let name' := if smem (d_options d) name then Some name else sget (d_deprecations d) name in
  match name' with
  | None => (d, Err KeyError)
  | Some n =>
      match sget (d_options d) n with
      | None => (d, Err KeyError)
      | Some o =>
          match check lk v o with
          | Err e => (d, Err e)
          | Ok _ => (mkDict (d_kind d)
                       (sset (d_options d) n (mkOpt v (o_lower o) (o_upper o) (o_values o) (o_lock o) true))
                       (d_deprecations d) (d_locked d), Ok tt)
          end
      end
  end.

(** self._options[n]['val'] = v *)
Definition poke (d : dict) (n : string) (v : value) : dict :=
  match sget (d_options d) n with
  | None => d
  | Some o => mkDict (d_kind d)
                (sset (d_options d) n (mkOpt v (o_lower o) (o_upper o) (o_values o) (o_lock o) (o_changed o)))
                (d_deprecations d) (d_locked d)
  end.

(** system.py 29-30: DEFAULT_STEP_SIZE_FD and DEFAULT_STEP_SIZE_CS *)
Definition step_fd : value := VFloat (1 # 1000000).
Definition step_cs : value := VFloat (1 # 1000000000000000000000000000000).

(** the default step size that follows a type (43-50 and 52-59) *)
Definition follow (d : dict) (target : string) (v : value) : dict * res unit :=
  match sget (d_options d) target with
  | None => (d, Err KeyError)
  | Some o =>
      if o_changed o then (d, Ok tt)
      else
        let d1 := if pyeq v (VStr "fd") then poke d target step_fd else d in
        let d2 := if pyeq v (VStr "cs") then poke d1 target step_cs else d1 in
        (d2, Ok tt)
  end.

(** __setitem__, including DerivOptionsDict.__setitem__ (system.py 37-59) *)
Definition setitem (lk : bool) (d : dict) (name : string) (v : value) : dict * res unit :=
  match base_setitem lk d name v with
  | (d1, Err e) => (d1, Err e)
  | (d1, Ok _) =>
      match d_kind d1 with
      | Plain => (d1, Ok tt)
      | Deriv =>
          if String.eqb name "type" then follow d1 "step_size" v
          else if String.eqb name "check_type" then follow d1 "check_step_size" v
          else (d1, Ok tt)
      end
  end.

(** DeprecatedOptionsDictionary (260-323), a view on a DerivOptionsDict *)
Definition fd_getitem (d : dict) (name : string) : res value :=
  if String.eqb name "force_fd"
  then let! t := getitem d "type" in
       Ok (VBool (existsb (pyeq t) [VStr "fd"; VStr "cs"]))
  else getitem d name.

Definition fd_setitem (lk : bool) (d : dict) (name : string) (v : value) : dict * res unit :=
  if String.eqb name "force_fd"
  then setitem lk d "type" (if pyeq v (VBool true) then VStr "fd" else VStr "user")
  else if String.eqb name "step_type" then setitem lk d "step_calc" v
  else if String.eqb name "form" && pyeq v (VStr "complex_step") then setitem lk d "type" (VStr "cs")
  else if String.eqb name "extra_check_partials_form" then setitem lk d "check_form" v
  else setitem lk d name v.

(** ** histories *)
Inductive op : Type :=
| ONew (k : kind)                     (* OptionsDictionary() *)
| OAdd (i : nat) (name : string) (v : value) (lower upper : option value)
       (values : option (list value)) (lock : bool)
| OSet (i : nat) (name : string) (v : value)
| ORemove (i : nat) (name : string)
| ODeprecate (i : nat) (oldname newname : string)
| OLock                               (* problem.py 670: OptionsDictionary.locked = True *)
| OInstance (i : nat) (b : bool).     (* newton.py 177, 252: d.locked = b *)

Fixpoint replace_nth {A} (l : list A) (i : nat) (x : A) : list A :=
  match l, i with
  | [], _ => []
  | _ :: r, O => x :: r
  | y :: r, S j => y :: replace_nth r j x
  end.

Definition on (w : world) (i : nat) (f : dict -> dict * res unit) : world * res unit :=
  match nth_error (w_dicts w) i with
  | None => (w, Err NameError)
  | Some d => let '(d', r) := f d in (mkWorld (replace_nth (w_dicts w) i d') (w_locked w), r)
  end.

Definition step (w : world) (o : op) : world * res unit :=
  match o with
  | ONew k => (mkWorld (w_dicts w ++ [mkDict k [] [] None]) false, Ok tt)
  | OAdd i name v lower upper values lock =>
      on w i (fun d => add_option (locked w d) d name v lower upper values lock)
  | OSet i name v => on w i (fun d => setitem (locked w d) d name v)
  | ORemove i name => on w i (fun d => (remove_option d name, Ok tt))
  | ODeprecate i oldname newname => on w i (fun d => add_deprecation d oldname newname)
  | OLock => (mkWorld (w_dicts w) true, Ok tt)
  | OInstance i b =>
      on w i (fun d => (mkDict (d_kind d) (d_options d) (d_deprecations d) (Some b), Ok tt))
  end.

Definition run (w : world) (ops : list op) : world := fold_left (fun w o => fst (step w o)) ops w.
Definition start : world := mkWorld [] false.

(** the options of a freshly constructed System (system.py 140-179) *)
Local Open Scope string_scope.
Definition enum (l : list string) : option (list value) := Some (map VStr l).
Definition system_options : list op :=
  [ ONew Deriv;
    OAdd 0 "type" (VStr "user") None None (enum ["user"; "fd"; "cs"]) true;
    OAdd 0 "form" (VStr "forward") None None (enum ["forward"; "backward"; "central"]) false;
    OAdd 0 "step_size" step_fd (Some (VFloat 0)) None None false;
    OAdd 0 "step_calc" (VStr "absolute") None None (enum ["absolute"; "relative"]) false;
    OAdd 0 "check_type" (VStr "fd") None None (enum ["fd"; "cs"]) true;
    OAdd 0 "check_form" (VStr "forward") None None (enum ["forward"; "backward"; "central"]) false;
    OAdd 0 "check_step_size" step_fd (Some (VFloat 0)) None None false;
    OAdd 0 "check_step_calc" (VStr "absolute") None None (enum ["absolute"; "relative"]) false;
    OAdd 0 "linearize" (VBool false) None None None false;
    ODeprecate 0 "force_fd" "type";      (* set directly before the options, 141-142 *)
    ODeprecate 0 "step_type" "step_calc" ].

(** What it means for an option value to satisfy its declaration. *)
From Verif Require Import Base OptionsModel.

(** [x] is at least [l]: numbers by value, strings in dictionary order *)
Definition at_least (l x : value) : Prop :=
  (exists p q, numeric l = Some p /\ numeric x = Some q /\ (p <= q)%Q) \/
  (exists s t, l = VStr s /\ x = VStr t /\ String.compare t s <> Lt).

(** the declaration of an option: default, bounds and enumeration *)
Record decl : Type := mkDecl {
  de_default : value; de_lower : option value; de_upper : option value; de_values : option (list value)
}.

(** an enumerated option equals one of the listed values; any other option has
    the type of the default and lies within the bounds *)
Definition satisfies (d : decl) (x : value) : Prop :=
  match de_values d with
  | Some vs => exists y, In y vs /\ pyeq x y = true
  | None =>
      type_of x = type_of (de_default d) /\
      (forall l, de_lower d = Some l -> at_least l x) /\
      (forall u, de_upper d = Some u -> at_least x u)
  end.

(** the same, except that a NaN escapes the bounds *)
Definition satisfies_or_nan (d : decl) (x : value) : Prop :=
  match de_values d with
  | Some vs => exists y, In y vs /\ pyeq x y = true
  | None =>
      type_of x = type_of (de_default d) /\
      (forall l, de_lower d = Some l -> at_least l x \/ x = VNan \/ l = VNan) /\
      (forall u, de_upper d = Some u -> at_least x u \/ x = VNan \/ u = VNan)
  end.

(** in derivative option dictionaries the two step size options are declared
    as System.__init__ declares them *)
Definition standard (ops : list op) : Prop :=
  forall pre post i n v lo up vs lk d,
    ops = pre ++ OAdd i n v lo up vs lk :: post ->
    nth_error (w_dicts (run start pre)) i = Some d -> d_kind d = Deriv ->
    n = "step_size"%string \/ n = "check_step_size"%string ->
    v = step_fd /\ lo = Some (VFloat 0) /\ up = None /\ vs = None.

(** an operation that cannot make option [name] of dictionary [i] changeable:
    no new dictionary, no unlocking of dictionary [i], no removal *)
Definition keeps_lock (i : nat) (name : string) (o : op) : Prop :=
  match o with
  | ONew _ => False
  | OInstance j b => j = i -> b = true
  | ORemove j n => ~ (j = i /\ n = name)
  | _ => True
  end.

(** the step size that a user of [deriv_options] should see: the last one
    assigned, or else the default of the last derivative type assigned *)
Definition valid_step (v : value) : bool :=
  match v with VFloat q => Qle_bool 0 q | VNan => true | _ => false end.
Definition expect_step (size_name type_name : string) (st : bool * value) (nv : string * value) : bool * value :=
  let '(user_set, cur) := st in
  let '(n, v) := nv in
  if String.eqb n size_name then (if valid_step v then (true, v) else st)
  else if String.eqb n type_name && negb user_set then
    match v with
    | VStr t => if String.eqb t "fd" then (false, step_fd)
                else if String.eqb t "cs" then (false, step_cs) else st
    | _ => st
    end
  else st.

(** Specification vocabulary for units, independent of the conversion code.

    A unit denotes an affine map from numbers in that unit to numbers in base
    units: the comment in units.py 548-551 states the convention
    "(x+d1)*s1 converts a value x from 'self' to base units". *)
From Verif Require Import Base UnitsModel.
From Coq Require Permutation.
Open Scope Q_scope.

(** the physical quantity denoted by [x] in unit [u], in base units *)
Definition to_base (u : punit) (x : Q) : Q := (x + offset u) * factor u.

(** same physical dimension *)
Definition same_dim (u v : punit) : Prop := powers u = powers v.

(** exponent of base unit number [i]; [None] if there is no such base unit *)
Definition dim (u : punit) (i : nat) : option Z := nth_error (powers u) i.

(** units produced by the library have a scale and no zero scale *)
Definition scaled (u : punit) : Prop := ~ factor u == 0.

(** units that are equal up to the representation of rational numbers *)
Definition unit_equiv (u v : punit) : Prop :=
  factor u == factor v /\ offset u == offset v /\ powers u = powers v.

(** ** Libraries of definitions *)

(** the unit a definition denotes when names mean what [t] says *)
Definition def_value (t : table) (d : udef) : res punit :=
  match d with
  | DExpr _ e =>
      match ueval t e with
      | Ok (VUnit u) => Ok u
      | Ok (VNum _) => Err AttributeError
      | Err er => Err er
      end
  | DOffset _ b f o =>
      match ueval t b with
      | Ok (VUnit u) => Ok (mkUnit (factor u * f) (powers u) o)
      | Ok (VNum _) => Err TypeError
      | Err er => Err er
      end
  end.

(** two tables with the same content *)
Definition same_table (t t' : table) : Prop := forall n, sget t n = sget t' n.

(** [definable t ds t']: the definitions [ds], taken in this order, can be
    evaluated one after the other, each in terms of the units known so far;
    [t'] is the resulting table *)
Inductive definable : table -> list udef -> table -> Prop :=
| definable_nil : forall t t', same_table t t' -> definable t [] t'
| definable_cons : forall t d ds t' u,
    def_value t d = Ok u ->
    definable (sset t (def_name d) u) ds t' ->
    definable t (d :: ds) t'.

(** definitions covered by the order-independence theorem: new names; an
    offset unit is based on a unit that is known before loading starts *)
Definition loadable (t0 : table) (d : udef) : Prop :=
  sget t0 (def_name d) = None /\
  match d with
  | DExpr _ _ => True
  | DOffset _ b _ _ => exists n u, b = UName n /\ sget t0 n = Some u
  end.

(** an iteration order of Python sets *)
Definition set_order (o : nat -> list udef -> list udef) : Prop :=
  forall k l, Permutation.Permutation l (o k l).

(** [t] knows the base units: unit number [i] has scale 1, no offset and
    exponent 1 in place [i] only *)
Definition knows_base_units (t : table) (base_names : list string) : Prop :=
  forall i n, nth_error base_names i = Some n ->
    exists u, sget t n = Some u /\ factor u == 1 /\ offset u == 0 /\
      length (powers u) = length base_names /\
      forall j, (j < length base_names)%nat ->
        dim u j = Some (if Nat.eqb i j then 1 else 0)%Z.

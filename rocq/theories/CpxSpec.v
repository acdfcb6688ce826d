(** What the accessors with complex support should do. *)
From Verif Require Import Base CpxModel.
Local Open Scope list_scope.
Local Open Scope nat_scope.

(** the dimensions of a variable *)
Definition shape_dims (s : shape) : list nat := match s with Int n => [n] | Dims d => d end.
(** a value of the shape of the variable *)
Definition of_shape {A} (s : shape) (v : value A) : Prop :=
  match v with
  | Scal _ => s = Int 1
  | Arr d l => s <> Int 1 /\ d = shape_dims s /\ length l = fold_right Nat.mul 1 d
  end.
Definition entries {A} (v : value A) : list A := match v with Scal x => [x] | Arr _ l => l end.
Section Spec.
  Context {R : Type}.
  (** the variable lies in both vectors and has the size of its shape *)
  Definition within (a : @acc R) (s : @state R) : Prop :=
    length (s_vec s) = length (s_imag s) /\ a_lo a + a_size a <= length (s_vec s)
    /\ a_size a = fold_right Nat.mul 1 (shape_dims (a_shape a)).
  Definition disjoint (a b : @acc R) : Prop := a_lo a + a_size a <= a_lo b \/ a_lo b + a_size b <= a_lo a.
  (** no unit conversion takes place *)
  Definition plain (a : @acc R) : Prop := a_conv a = None \/ a_deriv a = true.
End Spec.

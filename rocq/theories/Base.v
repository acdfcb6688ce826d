(** Common vocabulary of the model: Python exceptions as values, Python
    dictionaries as association lists in iteration order. *)
From Coq Require Export String Ascii Arith ZArith QArith Bool Lia List.
Export ListNotations.

(** The exception classes that the modelled functions can raise. *)
Inductive pyerr : Type :=
| TypeError | ValueError | KeyError | NameError | RuntimeError | IndexError
| AttributeError | NotImplementedError | AnalysisError | ZeroDivisionError
| AssertionError | OSError.

Definition pyerr_eqb (a b : pyerr) : bool :=
  match a, b with
  | TypeError, TypeError | ValueError, ValueError | KeyError, KeyError
  | NameError, NameError | RuntimeError, RuntimeError | IndexError, IndexError
  | AttributeError, AttributeError | NotImplementedError, NotImplementedError
  | AnalysisError, AnalysisError | ZeroDivisionError, ZeroDivisionError
  | AssertionError, AssertionError | OSError, OSError => true
  | _, _ => false
  end.

(** A Python computation either returns a value or raises. *)
Inductive res (A : Type) : Type :=
| Ok (a : A)
| Err (e : pyerr).
Arguments Ok {A} a.
Arguments Err {A} e.

Definition bind {A B} (m : res A) (f : A -> res B) : res B :=
  match m with Ok a => f a | Err e => Err e end.

Declare Scope res_scope.
Delimit Scope res_scope with res.
Notation "'let!' x ':=' m 'in' k" := (bind m (fun x => k))
  (at level 200, x pattern, m at level 100, k at level 200, right associativity).

Definition is_ok {A} (r : res A) : bool :=
  match r with Ok _ => true | Err _ => false end.

(** Python dictionaries (insertion ordered). *)
Section Dict.
  Context {K V : Type} (eqb : K -> K -> bool).

  Fixpoint dget (d : list (K * V)) (k : K) : option V :=
    match d with
    | [] => None
    | (k', v) :: d' => if eqb k k' then Some v else dget d' k
    end.

  (** d[k] = v: an existing key keeps its position, a new key goes last *)
  Fixpoint dset (d : list (K * V)) (k : K) (v : V) : list (K * V) :=
    match d with
    | [] => [(k, v)]
    | (k', v') :: d' => if eqb k k' then (k', v) :: d' else (k', v') :: dset d' k v
    end.

  (** del d[k] *)
  Fixpoint ddel (d : list (K * V)) (k : K) : list (K * V) :=
    match d with
    | [] => []
    | (k', v') :: d' => if eqb k k' then d' else (k', v') :: ddel d' k
    end.

  Definition dmem (d : list (K * V)) (k : K) : bool :=
    match dget d k with Some _ => true | None => false end.

  Definition dkeys (d : list (K * V)) : list K := map fst d.
End Dict.

Definition sget {V} := @dget string V String.eqb.
Definition sset {V} := @dset string V String.eqb.
Definition sdel {V} := @ddel string V String.eqb.
Definition smem {V} := @dmem string V String.eqb.

(** Model of the active-set screening of openmdao/drivers/pyoptsparse_driver.py
    (pyOptSparseDriver.run lines 226-282, _gradfunc lines 519-596) and of the loop of
    Problem._calc_gradient_ln_solver that obeys it (openmdao/core/problem.py, lines
    1646-1731).
    Simplified: floats are exact rationals; the bounds and values pyOptSparse stores for a
    constraint are lists, with None for an absent bound; the solution of the linear
    system for a right-hand side of the variable of interest [v] is [sol v i]; the
    sensitivities are kept as rows, before they are cut into columns for each design
    variable and scaled. *)
From Verif Require Import Base.
Local Open Scope string_scope.
Local Open Scope Q_scope.
Local Open Scope list_scope.

(** what the user gives as active_tol: a float, an int, or an array *)
Inductive tolerance : Type := TFloat (q : Q) | TInt (z : Z) | TArr (l : list Q).
(** run, lines 247-249 (equality constraints): [if active_tol:] - the truth value of an
    array of more than one entry is a ValueError, an empty one is false *)
Definition truthy (t : tolerance) : res bool :=
  match t with
  | TFloat q => Ok (negb (Qeq_bool q 0))
  | TInt z => Ok (negb (Z.eqb z 0))
  | TArr [] => Ok false
  | TArr [q] => Ok (negb (Qeq_bool q 0))
  | TArr _ => Err ValueError
  end.
(** run, lines 226-282: active_tols from the metadata of the equality and of the
    inequality constraints (name and active_tol, None if not given) *)
Fixpoint eq_tols (cons : list (string * option tolerance)) : res (list (string * tolerance)) :=
  match cons with
  | [] => Ok []
  | (_, None) :: r => eq_tols r
  | (n, Some t) :: r => let! b := truthy t in let! d := eq_tols r in Ok (if b then (n, t) :: d else d)
  end.
Definition ineq_tols (cons : list (string * option tolerance)) : list (string * tolerance) :=
  flat_map (fun c => match snd c with Some t => [(fst c, t)] | None => [] end) cons.

(** a constraint of pyOptSparse: lower, upper and value, entry by entry *)
Record pycon : Type := mkPy { p_lower : list (option Q); p_upper : list (option Q); p_value : list Q }.

(** lines 531-534 *)
Definition tol_at (t : tolerance) (j : nat) : res Q :=
  match t with
  | TFloat q => Ok q
  | TInt _ => Err TypeError
  | TArr l => match nth_error l j with Some q => Ok q | None => Err IndexError end
  end.
Definition item_at {A} (l : list A) (j : nat) : res A := match nth_error l j with Some x => Ok x | None => Err IndexError end.
Definition qlt (a b : Q) : bool := negb (Qle_bool b a).
(** lines 530-539: the entries appended to inactive_idx *)
Fixpoint inactive_idx (t : tolerance) (c : pycon) (j : nat) (val : list Q) : res (list nat) :=
  match val with
  | [] => Ok []
  | v :: r =>
      let! tol := tol_at t j in
      let! lower := item_at (p_lower c) j in
      let! upper := item_at (p_upper c) j in
      let! rest := inactive_idx t c (S j) r in
      Ok ((match lower with Some l => if qlt (l + tol) v then [j] else [] | None => [] end) ++
          (match upper with Some u => if qlt v (u - tol) then [j] else [] | None => [] end) ++ rest)
  end.
(** lines 523-542 *)
Fixpoint inactives_of (tols : list (string * tolerance)) (cons : list (string * pycon)) : res (list (string * list nat)) :=
  match tols with
  | [] => Ok []
  | (n, t) :: r =>
      match dget String.eqb cons n with
      | None => Err KeyError
      | Some c =>
          let! idx := inactive_idx t c 0 (p_value c) in
          let! rest := inactives_of r cons in
          Ok (match idx with [] => rest | _ => (n, idx) :: rest end)
      end
  end.

(** problem.py, lines 1679-1709, for one set of variables of interest with [n] entries
    each: [voi] at line 1687 is the variable of an earlier for loop, so it is the last
    of the set.  [len v] is the length of the vector dumat of [v]. *)
Definition skipped (fwd : bool) (inactives : list (string * list nat)) (voi : string) (i : nat) : bool :=
  negb fwd && match dget String.eqb inactives voi with Some idx => existsb (Nat.eqb i) idx | None => false end.
Definition group_rows (fwd : bool) (inactives : list (string * list nat)) (len : string -> nat) (sol : string -> nat -> list Q) (params : list string) (n : nat) : list ((string * nat) * list Q) :=
  let voi := last params "" in
  flat_map (fun i => map (fun v => ((v, i), if skipped fwd inactives voi i then repeat 0 (len voi) else sol v i)) params) (seq 0 n).
Definition all_rows (fwd : bool) (inactives : list (string * list nat)) (len : string -> nat) (sol : string -> nat -> list Q) (sets : list (list string * nat)) : list ((string * nat) * list Q) :=
  flat_map (fun g => group_rows fwd inactives len sol (fst g) (snd g)) sets.
(** _gradfunc, lines 519-596: an exception leaves an empty dictionary *)
Definition gradfunc (fwd : bool) (tols : list (string * tolerance)) (cons : list (string * pycon)) (len : string -> nat) (sol : string -> nat -> list Q) (sets : list (list string * nat)) : list ((string * nat) * list Q) :=
  match inactives_of tols cons with
  | Ok inactives => all_rows fwd inactives len sol sets
  | Err _ => []
  end.

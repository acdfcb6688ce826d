(** Model of openmdao/components/linear_system.py (LinearSystem).
    Numbers are the elements of a commutative ring.  A vector is a list, an array of two
    dimensions the list of its rows.  scipy's lu_factor keeps the matrix (the argument of
    lu_factor), and lu_solve is the argument [lu_solve]: matrix, right-hand side, trans.
    A vector wrapper has an entry only for relevant variables: an option. *)
From Verif Require Import Base RsmModel.
Local Open Scope nat_scope.
Local Open Scope list_scope.

Section Lsys.
  Context {F : Type} (F0 : F) (fadd fmul fsub : F -> F -> F).
  Notation vec := (list F).
  Notation mat := (list (list F)).
  Notation addv := (@addv F fadd).
  Definition subv (a b : vec) : vec := map (fun p => fsub (fst p) (snd p)) (combine a b).
  Definition addm (a b : mat) : mat := map (fun p => addv (fst p) (snd p)) (combine a b).
  Fixpoint dotp (a b : vec) : F :=
    match a, b with x :: a', y :: b' => fadd (fmul x y) (dotp a' b') | _, _ => F0 end.
  (** A.dot(x) *)
  Definition mdot (A : mat) (x : vec) : vec := map (fun row => dotp row x) A.
  (** np.outer(a, b) *)
  Definition outer (a b : vec) : mat := map (fun x => map (fmul x) b) a.

  (** what the component keeps: lines 59-61 *)
  Record comp : Type := mkComp { c_size : nat; c_lup : option mat }.
  (** apply_nonlinear, lines 73-76 *)
  Definition apply_nonlinear (A : mat) (b x : vec) : vec := subv (mdot A x) b.
  (** solve_nonlinear, lines 63-71: the new component, x and the residual *)
  Definition solve_nonlinear (lu_solve : mat -> vec -> bool -> vec) (c : comp) (A : mat) (b : vec) : comp * vec * vec :=
    let x := lu_solve A b false in
    (mkComp (c_size c) (Some A), x, subv (mdot A x) b).

  (** the derivative vectors of the component *)
  Record dvecs : Type := mkDv { d_x : option vec; d_A : option mat; d_b : option vec; d_r : vec }.
  Definition when {A} (o : option A) (r : vec) (f : A -> vec) : vec := match o with Some a => f a | None => r end.
  (** apply_linear, lines 78-100; any other mode does nothing *)
  Definition apply_linear (n : nat) (mode : string) (A : mat) (x : vec) (d : dvecs) : dvecs :=
    if String.eqb mode "fwd" then
      let r := when (d_x d) (d_r d) (fun dx => addv (d_r d) (mdot A dx)) in
      let r := when (d_A d) r (fun dA => addv r (mdot dA x)) in
      let r := when (d_b d) r (fun db => subv r db) in
      mkDv (d_x d) (d_A d) (d_b d) r
    else if String.eqb mode "rev" then
      mkDv (option_map (fun dx => addv dx (mdot (transpose n A) (d_r d))) (d_x d))
           (option_map (fun dA => addm dA (transpose n (outer x (d_r d)))) (d_A d))
           (option_map (fun db => subv db (d_r d)) (d_b d))
           (d_r d)
    else d.

  (** solve_linear, lines 102-121, for one quantity of interest: the new 'x' of the
      solution vector from the 'x' of the right-hand side; lu_solve(None) fails *)
  Definition solve_linear (lu_solve : mat -> vec -> bool -> vec) (c : comp) (mode : string) (rhs : vec) : res vec :=
    let t := negb (String.eqb mode "fwd") in
    match c_lup c with
    | Some A => Ok (lu_solve A rhs t)
    | None => Err TypeError
    end.
End Lsys.

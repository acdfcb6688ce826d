(** Model of the checks of co-kriging's arguments:
    openmdao/surrogate_models/multifi_cokriging.py MultiFiCoKriging._check_list_structure
    (lines 704-758), _check_params (761-817) and what _max_rlf reads of the bounds (561-576).
    Numbers are exact rationals.  A value of theta, theta0, thetaL or thetaU is a number or a
    flat array, here the row that array2d makes of it; arrays with several rows are left out.
    Of X and y only the shapes matter.  A list passed by the user is changed in place in the
    code; here the new lists are returned. *)
From Verif Require Import Base.
Local Open Scope list_scope.
Local Open Scope nat_scope.

Definition row := list Q.
(** an attribute: one value for all levels, or a list; None: not given *)
Inductive setting := One (v : option row) | Many (l : list (option row)).

(** the loop over the levels (721-730): shapes of X, sizes of y *)
Fixpoint data_loop (i prev : nat) (X : list (nat * nat)) (y : list nat) : res unit :=
  match X, y with
  | (rows, cols) :: X, ny :: y =>
      if (1 <? i) && negb (cols =? prev) then Err ValueError
      else if negb (rows =? ny) then Err ValueError
      else data_loop (S i) cols X y
  | _, _ => Ok tt
  end.
Definition check_data (X : list (nat * nat)) (y : list nat) : res nat :=
  if negb (length X =? length y) then Err ValueError
  else let! _ := data_loop 0 0 X y in
  match X with (_, cols) :: _ => Ok cols | [] => Err IndexError end.
(** 734-751 *)
Definition per_level (s : setting) (n : nat) : res (list (option row)) :=
  match s with
  | One v => Ok (repeat v n)
  | Many l => if length l =? n then Ok l else Err ValueError
  end.

(** np.any(a <= 0) *)
Definition any_nonpos (a : row) : bool := existsb (fun x => Qle_bool x 0) a.
(** a < b with broadcasting *)
Definition lts (a b : row) : res (list bool) :=
  match a, b with
  | [x], _ => Ok (map (fun y => negb (Qle_bool y x)) b)
  | _, [y] => Ok (map (fun x => negb (Qle_bool y x)) a)
  | _, _ => if length a =? length b then Ok (map (fun e => negb (Qle_bool (snd e) (fst e))) (combine a b)) else Err ValueError
  end.
(** one turn of the loop of _check_params *)
Record level := mkLevel { l_theta : option row; l_theta0 : option row; l_L : option row; l_U : option row }.
Definition fill (nf : nat) (dflt : Q) (lth : nat) (v : option row) : res row :=
  match v with
  | Some a => if negb (length a =? lth) then Err ValueError else Ok a
  | None => Ok (repeat dflt nf)
  end.
Definition check_level (nf : nat) (l : level) : res level :=
  let! _ := match l_theta l with Some a => if any_nonpos a then Err ValueError else Ok tt | None => Ok tt end in
  let! t0 := match l_theta0 l with
             | Some a => if any_nonpos a then Err ValueError else Ok a
             | None => Ok (repeat (1 # 2)%Q nf) end in
  let! lo := fill nf (1 # 100000)%Q (length t0) (l_L l) in
  let! up := fill nf (50 # 1)%Q (length t0) (l_U l) in
  if any_nonpos lo then Err ValueError
  else let! b := lts up lo in
  if existsb (fun x => x) b then Err ValueError
  else Ok (mkLevel (l_theta l) (Some t0) (Some lo) (Some up)).
Fixpoint check_levels (nf : nat) (ls : list level) : res (list level) :=
  match ls with
  | [] => Ok []
  | l :: ls => let! r := check_level nf l in let! rs := check_levels nf ls in Ok (r :: rs)
  end.
Fixpoint zip_levels (a b c d : list (option row)) : list level :=
  match a, b, c, d with
  | x :: a, y :: b, z :: c, w :: d => mkLevel x y z w :: zip_levels a b c d
  | _, _, _, _ => []
  end.
(** both checks, as fit calls them *)
Definition check (X : list (nat * nat)) (y : list nat) (th t0 lo up : setting) : res (list level) :=
  let! nf := check_data X y in
  let n := length X in
  let! a := per_level th n in let! b := per_level t0 n in
  let! c := per_level lo n in let! d := per_level up n in
  check_levels nf (zip_levels a b c d).

(** the bounds that _max_rlf reads: thetaL[0][i] and thetaU[0][i] for i below theta0.size *)
Definition bounds (l : level) : option (list (Q * Q)) :=
  match l_theta0 l, l_L l, l_U l with
  | Some t0, Some lo, Some up =>
      if (length lo <? length t0) || (length up <? length t0) then None
      else Some (firstn (length t0) (combine lo up))
  | _, _, _ => None
  end.

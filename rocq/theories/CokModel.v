(** Model of multi-fidelity co-kriging: openmdao/surrogate_models/multifi_cokriging.py
    constant_regression 47-55, linear_regression 57-65, squared_exponential_correlation
    67-109, l1_cross_distances 112-163, MultiFiCoKriging._build_R 306-319, fit 322-436,
    rlf 440-526, predict 597-701, _check_list_structure 733-736 and the two surrogates 820-868.

    Numbers are the elements of a field, with given functions for abs, exp and equality
    to zero.  scipy's cholesky, solve_triangular, qr and inv are arguments; so are the
    values of theta that the optimizer tries and returns in _max_rlf (579-594).  A point
    is a list of numbers; matrices are functions of their indices.  All levels have the
    same number of features (lines 724-725 compare them from the third level on), X and y of a level the same number of rows, and the values
    of theta are positive (the checks 704-817); the plain Exceptions of fit are
    RuntimeErrors here.  A callable regression works row by row. *)
From Verif Require Import Base.
Local Open Scope nat_scope.
Local Open Scope list_scope.

Record numbers : Type := mkNum {
  car :> Type; n0 : car; n1 : car;
  nadd : car -> car -> car; nmul : car -> car -> car; nsub : car -> car -> car;
  nopp : car -> car; ndiv : car -> car -> car; ninv : car -> car;
  nabs : car -> car; nexp : car -> car; nzero : car -> bool }.   (* nzero x: x == 0 *)

Section Cok.
  Context (K : numbers).
  Notation "0" := (n0 K). Notation "1" := (n1 K).
  Infix "+" := (nadd K). Infix "*" := (nmul K). Infix "-" := (nsub K). Infix "/" := (ndiv K).
  Notation "- x" := (nopp K x).
  Notation vec := (nat -> K). Notation mat := (nat -> nat -> K). Notation point := (list K).

  (** solL: a lower triangular system of n equations, solU: an upper one *)
  Record lin : Type := mkLin {
    chol : nat -> mat -> option mat;              (* None: LinAlgError *)
    solL : nat -> mat -> vec -> vec;
    solU : nat -> mat -> vec -> vec;
    qr : nat -> nat -> mat -> mat * mat;          (* rows, columns *)
    minv : nat -> mat -> mat }.
  Context (L : lin) (nugget : K).

  Fixpoint sum (n : nat) (f : vec) : K := match n with O => 0 | S m => sum m f + f m end.
  Definition of_nat (n : nat) : K := sum n (fun _ => 1).

  (** np.abs(a - b), one entry per feature *)
  Definition dist (a b : point) : vec := fun k => nabs K (nth k a 0 - nth k b 0).
  (** l1_cross_distances(X): the pairs k < l, in rows *)
  Definition self_dists (n : nat) (X : nat -> point) : list vec :=
    flat_map (fun k => map (fun l => dist (X k) (X l)) (seq (S k) (n - k - 1))) (seq O (n - 1)).
  (** l1_cross_distances(X, Y) *)
  Definition cross_dists (nX : nat) (X : nat -> point) (nY : nat) (Y : nat -> point) : list vec :=
    flat_map (fun k => map (fun l => dist (X k) (Y l)) (seq O nY)) (seq O nX).

  (** squared_exponential_correlation; theta has one entry or one per feature *)
  Definition theta_ok (th : list K) (d : nat) : bool := (length th =? 1) || (length th =? d).
  Definition corr (th : list K) (d : nat) (D : vec) : K :=
    if length th =? 1 then nexp K (- (nth O th 0 * sum d (fun k => D k * D k)))
    else nexp K (- sum d (fun k => nth k th 0 * (D k * D k))).
  (** scipy's squareform: entry (a, b), a < b, of the symmetric matrix is number
      a(2n-a-1)/2 + b-a-1 of the vector; the diagonal is zero *)
  Definition squareform (n : nat) (v : list K) (i j : nat) : K :=
    let a := Nat.min i j in let b := Nat.max i j in
    if (i =? j)%nat then 0 else nth (Nat.div2 (Nat.mul a (Nat.sub (Nat.sub (Nat.mul 2 n) a) (S O))) + (Nat.sub (Nat.sub b a) (S O)))%nat v 0.
  (** _build_R *)
  Definition build_R (n d : nat) (th : list K) (X : nat -> point) : mat :=
    fun i j => (if (i =? j)%nat then 1 + nugget else 0) + squareform n (map (corr th d) (self_dists n X)) i j.

  Inductive regression : Type := Constant | Linear | Custom (p : nat) (f : point -> vec).
  Definition cols (d : nat) (r : regression) : nat := match r with Constant => S O | Linear => S d | Custom p _ => p end.
  Definition regr_at (r : regression) (x : point) : vec :=
    match r with
    | Constant => fun _ => 1
    | Linear => fun c => match c with O => 1 | S k => nth k x 0 end
    | Custom _ f => f x
    end.

  (** the training data of a level *)
  Record data : Type := mkData { s_n : nat; s_X : nat -> point; s_y : vec }.

  (** what rlf stores *)
  Record fitted : Type := mkFit { f_C : mat; f_beta : vec; f_G : mat; f_s2 : K }.
  Record level : Type := mkLevel {
    l_data : data; l_p : nat; l_q : nat; l_F : mat; l_theta : list K;
    l_fit : option fitted }.                        (* None: C is still 0 *)

  Section Fit.
    Context (d : nat) (regr rho : regression).

    (** the matrix F (389-399): prev is the level below *)
    Definition F_of (prev : option data) (s : data) : mat :=
      match prev with
      | None => fun i c => regr_at regr (s_X s i) c
      | Some t => fun i c =>
          if (c <? cols d rho)%nat then regr_at rho (s_X s i) c * s_y t (Nat.add (Nat.sub (s_n t) (s_n s)) i)
          else regr_at regr (s_X s i) (Nat.sub c (cols d rho))
      end.

    (** the first loop (380-412), for one level.  np.min of an empty array, and arrays
        that cannot be multiplied, are ValueErrors; the message of the last exception
        uses a variable that has no value if there is only one level *)
    Definition prepare (single : bool) (prev : option data) (s : data) : res level :=
      let p := cols d regr in
      let q := match prev with None => O | Some _ => cols d rho end in
      if (s_n s <=? 1)%nat then Err ValueError
      else if existsb (fun D => nzero K (sum d D)) (self_dists (s_n s) (s_X s)) then Err RuntimeError
      else if match prev with Some t => (s_n t <? s_n s)%nat | None => false end then Err ValueError
      else if (s_n s <=? p + q)%nat then Err (if single then NameError else RuntimeError)
      else Ok (mkLevel s p q (F_of prev s) [] None).
    Fixpoint prepare_all (single : bool) (prev : option data) (ss : list data) : res (list level) :=
      match ss with
      | [] => Ok []
      | s :: r => let! l := prepare single prev s in let! ls := prepare_all single (Some s) r in Ok (l :: ls)
      end.

    (** rlf: what it stores, and whether its value is infinite: log10(0) is, the 1e20 of a
        failed decomposition is not *)
    Definition rlf (l : level) (th : list K) (old : option fitted) : option fitted * bool :=
      let n := s_n (l_data l) in
      let c := (l_p l + l_q l)%nat in
      match chol L n (build_R n d th (s_X (l_data l))) with
      | None => (old, false)
      | Some C =>
          let Ft : mat := fun i j => solL L n C (fun k => l_F l k j) i in
          let Yt := solL L n C (s_y (l_data l)) in
          let (Q, G) := qr L n c Ft in
          let beta := solU L c G (fun e => sum n (fun i => Q i e * Yt i)) in
          let err i := Yt i - sum c (fun j => Ft i j * beta j) in
          let s2 := sum n (fun i => err i * err i) / of_nat (Nat.sub (Nat.sub n (l_p l)) (l_q l)) in
          (Some (mkFit C beta G s2), nzero K s2)
      end.

    (** theta given by the user, or found by minimize: the values tried, the value
        returned and whether the likelihood there is infinite *)
    Inductive choice : Type := Given (th : list K) | Optimized (tried : list (list K)) (th : list K) (inf : bool).

    (** the second loop (420-434) *)
    Definition fit_level (l : level) (ch : choice) : res level :=
      match ch with
      | Given th =>
          if theta_ok th d then
            let (f, inf) := rlf l th None in
            if inf then Err RuntimeError else Ok (mkLevel (l_data l) (l_p l) (l_q l) (l_F l) th f)
          else Err ValueError
      | Optimized tried th inf =>
          if forallb (fun t => theta_ok t d) (th :: tried) then
            let f := fold_left (fun o t => fst (rlf l t o)) tried None in
            if inf then Err RuntimeError else Ok (mkLevel (l_data l) (l_p l) (l_q l) (l_F l) th f)
          else Err ValueError
      end.
    Fixpoint fit_all (ls : list level) (chs : list choice) : res (list level) :=
      match ls, chs with
      | [], _ => Ok []
      | _ :: _, [] => Err IndexError
      | l :: ls', ch :: chs' => let! l' := fit_level l ch in let! r := fit_all ls' chs' in Ok (l' :: r)
      end.

    (** self.theta: one value for all levels, or a list; None is to be optimized.
        _check_list_structure makes a list of it (733-736) *)
    Inductive attr : Type := One (o : option (list K)) | Many (os : list (option (list K))).
    Definition per_level (a : attr) (nl : nat) : res (list (option (list K))) :=
      match a with
      | One o => Ok (repeat o nl)
      | Many os => if (length os =? nl)%nat then Ok os else Err ValueError
      end.
    (** a run of the optimizer *)
    Record run : Type := mkRun { o_tried : list (list K); o_theta : list K; o_inf : bool }.
    Definition choices (os : list (option (list K))) (rs : nat -> run) : list choice :=
      map (fun io => match snd io with
                     | Some th => Given th
                     | None => Optimized (o_tried (rs (fst io))) (o_theta (rs (fst io))) (o_inf (rs (fst io)))
                     end) (combine (seq O (length os)) os).
    (** fit: the levels, lowest fidelity first, and self.theta afterwards (what is left in
        self.theta by a fit that raises is not modelled) *)
    Definition fit (a : attr) (ss : list data) (rs : nat -> run) : res (list level * attr) :=
      let! os := per_level a (length ss) in
      let! ls := prepare_all (length ss =? 1)%nat None ss in
      let! ls' := fit_all ls (choices os rs) in
      Ok (ls', Many (map (fun l => Some (l_theta l)) ls')).
    (** MultiFiCoKrigingSurrogate.train_multifi 843-859: highest fidelity first *)
    Definition train (a : attr) (ss : list data) (rs : nat -> run) : res (list level * attr) := fit a (rev ss) rs.

    (** predict at ne points: mu and MSE of one level, given those of the level below *)
    Section Predict.
      Context (ne : nat) (xs : nat -> point).
      (** corr(theta, dx).reshape(n_eval, n_samples) *)
      Definition r_of (l : level) : mat := fun a j =>
        nth (Nat.add (Nat.mul a (s_n (l_data l))) j) (map (corr (l_theta l) d) (cross_dists ne xs (s_n (l_data l)) (s_X (l_data l)))) 0.
      Definition predict_level (below : option (vec * vec)) (l : level) : res (vec * vec) :=
        match l_fit l with
        | None => Err ValueError                   (* solve_triangular(0, F) *)
        | Some ft =>
            let n := s_n (l_data l) in
            let C := f_C ft in let G := f_G ft in let beta := f_beta ft in
            let Ft : mat := fun i j => solL L n C (fun k => l_F l k j) i in
            let yt := solL L n C (s_y (l_data l)) in
            let r := r_of l in
            let rt a := solL L n C (r a) in
            match below with
            | None =>
                let c := l_p l in
                let w i := yt i - sum c (fun j => Ft i j * beta j) in
                let gamma := solU L n (fun i j => C j i) w in
                let f a := regr_at regr (xs a) in
                let u a := solL L c (fun i j => G j i) (fun j => f a j - sum n (fun i => Ft i j * rt a i)) in
                Ok (fun a => sum c (fun j => f a j * beta j) + sum n (fun i => r a i * gamma i),
                    fun a => f_s2 ft * (1 - sum n (fun i => rt a i * rt a i) + sum c (fun j => u a j * u a j)))
            | Some (mu, mse) =>
                let q := l_q l in let c := (l_p l + l_q l)%nat in
                let g a := regr_at rho (xs a) in
                let f a j := if (j <? q)%nat then g a j * mu a else regr_at regr (xs a) (Nat.sub j q) in
                let w i := yt i - sum c (fun j => Ft i j * beta j) in
                let Q_ := sum n (fun i => w i * w i) in
                let u a := solL L c (fun i j => G j i) (fun j => f a j - sum n (fun i => Ft i j * rt a i)) in
                let inv := minv L c (fun i j => sum c (fun k => G k i * G k j)) in
                let s2rho a := sum q (fun j => sum q (fun i => g a i * (f_s2 ft * inv i j + beta i * beta j)) * g a j) in
                Ok (fun a => sum c (fun j => f a j * beta j) + sum n (fun i => rt a i * w i),
                    fun a => s2rho a * mse a
                             + Q_ / ((1 + 1) * of_nat (Nat.sub (Nat.sub n (l_p l)) q)) * (1 - sum n (fun i => rt a i * rt a i))
                             + f_s2 ft * sum c (fun j => u a j * u a j))
            end
        end.
      Fixpoint predict_levels (below : option (vec * vec)) (ls : list level) : res (vec * vec) :=
        match ls with
        | [] => match below with Some m => Ok m | None => Err IndexError end
        | l :: r => let! m := predict_level below l in predict_levels (Some m) r
        end.
      (** y_mean is 0, y_std is 1 (375-376, 693-701) *)
      Definition predict (ls : list level) : res (vec * vec) :=
        let! (mu, mse) := predict_levels None ls in
        Ok (fun a => 0 + 1 * mu a, fun a => 1 * 1 * mse a).
    End Predict.
    (** MultiFiCoKrigingSurrogate.predict 836-841 (the root of the MSE is not taken) *)
    Definition surrogate_predict (ls : list level) (x : point) : res (K * K) :=
      let! (mu, mse) := predict 1 (fun _ => x) ls in Ok (mu O, mse O).
    (** FloatMultiFiCoKrigingSurrogate.predict: the attribute mu of a tuple *)
    Definition float_predict (ls : list level) (x : point) : res K :=
      let! _ := surrogate_predict ls x in Err AttributeError.
  End Fit.
End Cok.

(** Model of the Kriging surrogate: openmdao/surrogate_models/kriging.py
    KrigingSurrogate.train 53-112, _calculate_reduced_likelihood_params 114-163, predict
    165-204, linearize 206-227, FloatKrigingSurrogate.predict 234-236, and
    surrogate_model.py SurrogateModel.train/predict 13-21.

    Floats are the real numbers of the standard library, with its exp and sqrt; arrays are
    functions of their indices, with the sizes in the state.  scipy's svd and minimize are
    arguments; what minimize asks its callback does not change the state, so only its
    answer counts, and the likelihood is not modelled.  y has one row per sample.  The
    nugget is one number per sample (a scalar nugget is the same for all). *)
From Coq Require Import Reals.
From Verif Require Import Base.
Local Open Scope R_scope.

(** np.sum over the first n indices *)
Fixpoint rsum (n : nat) (f : nat -> R) : R :=
  match n with O => 0 | S n => rsum n f + f n end.

Record krig := mkKrig {
  k_trained : bool;
  k_n : nat;                     (* n_samples *)
  k_d : nat;                     (* n_dims *)
  k_m : nat;                     (* columns of Y *)
  k_X : nat -> nat -> R;         (* X: sample, dimension *)
  k_Y : nat -> nat -> R;         (* Y: sample, output *)
  k_Xm : nat -> R; k_Xs : nat -> R; k_Ym : nat -> R; k_Ys : nat -> R;
  k_th : nat -> R;               (* thetas *)
  k_al : nat -> nat -> R;        (* alpha: sample, output *)
  k_U : nat -> nat -> R; k_Si : nat -> R; k_Vh : nat -> nat -> R;
  k_s2 : nat -> R                (* sigma2 *)
}.

(** np.mean(a, axis=0), np.std(a, axis=0) with zeros replaced by one (73-79) *)
Definition mean (n : nat) (f : nat -> R) : R := rsum n f / INR n.
Definition std (n : nat) (f : nat -> R) : R := sqrt (rsum n (fun i => (f i - mean n f) * (f i - mean n f)) / INR n).
Definition std1 (n : nat) (f : nat -> R) : R := if Req_EM_T (std n f) 0 then 1 else std n f.

(** R (133-140): the distances above the diagonal are copied below it, the diagonal is
    overwritten *)
Definition corr (n d : nat) (th : nat -> R) (nugget : nat -> R) (X : nat -> nat -> R) (i j : nat) : R :=
  let dist i j k := if (i <? j)%nat then Rabs (X i k - X j k) else if (j <? i)%nat then Rabs (X j k - X i k) else 0 in
  if (i =? j)%nat then 1 + nugget i else exp (- rsum d (fun k => th k * (dist i j k * dist i j k))).

(** h = 1e-8 * S[0]; inv_factors = S / (S ** 2. + h ** 2.) (148-149) *)
Definition tik : R := / 100000000.
Definition inv_factors (Sg : nat -> R) (j : nat) : R :=
  let h := tik * Sg O in Sg j / (Sg j * Sg j + h * h).
(** Vh.T.dot(einsum('j,kj,kl->jl', inv_factors, U, Y)) (151) *)
Definition weights (n : nat) (U : nat -> nat -> R) (f : nat -> R) (Vh : nat -> nat -> R) (Y : nat -> nat -> R) (i l : nat) : R :=
  rsum n (fun j => Vh j i * rsum n (fun k => f j * U k j * Y k l)).

Section Train.
  Variable svd : nat -> (nat -> nat -> R) -> (nat -> nat -> R) * (nat -> R) * (nat -> nat -> R).
  Variable minimize : nat -> bool * (nat -> R).  (* optResult.success and x, for n_dims *)
  Variable nugget : nat -> R.

  (** train: the state afterwards, and the exception if there is one *)
  Definition train (st : krig) (n d m : nat) (x y : nat -> nat -> R) : krig * res unit :=
    if (n <=? 1)%nat then
      (mkKrig true n d (k_m st) (k_X st) (k_Y st) (k_Xm st) (k_Xs st) (k_Ym st) (k_Ys st) (k_th st) (k_al st) (k_U st) (k_Si st) (k_Vh st) (k_s2 st),
       Err ValueError)
    else
      let Xm k := mean n (fun i => x i k) in
      let Xs k := std1 n (fun i => x i k) in
      let Ym l := mean n (fun i => y i l) in
      let Ys l := std1 n (fun i => y i l) in
      let X i k := (x i k - Xm k) / Xs k in
      let Y i l := (y i l - Ym l) / Ys l in
      let opt := minimize d in
      if fst opt then
        let th k := exp (snd opt k) in
        let '(U, Sg, Vh) := svd n (corr n d th nugget X) in
        let al := weights n U (inv_factors Sg) Vh Y in
        let s2 l := rsum m (fun l' => rsum n (fun i => Y i l' * al i l)) / INR n * (Ys l * Ys l) in
        (mkKrig true n d m X Y Xm Xs Ym Ys th al U (inv_factors Sg) Vh s2, Ok tt)
      else
        (mkKrig true n d m X Y Xm Xs Ym Ys (k_th st) (k_al st) (k_U st) (k_Si st) (k_Vh st) (k_s2 st), Err ValueError).
End Train.

(** r for one point (186-188); the array has the dtype of x, so integer points truncate
    (the values are positive) *)
Definition corr_row (st : krig) (ints : bool) (x : nat -> R) (i : nat) : R :=
  let v := exp (- rsum (k_d st) (fun k => k_th st k * (((x k - k_Xm st k) / k_Xs st k - k_X st i k) * ((x k - k_Xm st k) / k_Xs st k - k_X st i k)))) in
  if ints then IZR (Int_part v) else v.
(** y (191-194) *)
Definition predict_at (st : krig) (ints : bool) (x : nat -> R) (l : nat) : R :=
  k_Ym st l + k_Ys st l * rsum (k_n st) (fun i => corr_row st ints x i * k_al st i l).
(** mse (197-200), entry (a, b) of the matrix for the points, before and after clamping *)
Definition mse (st : krig) (ints : bool) (xs : nat -> nat -> R) (a b : nat) (l : nat) : R :=
  (1 - rsum (k_n st) (fun j => rsum (k_n st) (fun i => corr_row st ints (xs a) i * k_Vh st j i) *
                               rsum (k_n st) (fun k => k_Si st j * k_U st k j * corr_row st ints (xs b) k))) * k_s2 st l.
Definition rmse (st : krig) (ints : bool) (xs : nat -> nat -> R) (a b : nat) (l : nat) : R :=
  let v := mse st ints xs a b l in if Rlt_dec v 0 then sqrt 0 else sqrt v.

(** predict: rows of predictions, one per point; with eval_rmse also the root of the
    matrix of errors.  The matrix is points by points and is multiplied by sigma2, one
    number per output, along its columns: for one output all columns get the same number,
    for one point the row has one entry per output, and else the sizes have to agree *)
Definition rows_of (ne m : nat) (f : nat -> nat -> R) : list (list R) := map (fun a => map (f a) (seq 0 m)) (seq 0 ne).
Definition predict (st : krig) (ints : bool) (ne : nat) (xs : nat -> nat -> R) : res (list (list R)) :=
  if k_trained st then Ok (rows_of ne (k_m st) (fun a => predict_at st ints (xs a))) else Err RuntimeError.
Definition predict_rmse (st : krig) (ints : bool) (ne : nat) (xs : nat -> nat -> R) : res (list (list R) * list (list R)) :=
  let! y := predict st ints ne xs in
  if (k_m st =? 1)%nat then Ok (y, rows_of ne ne (fun a b => rmse st ints xs a b O))
  else if (ne =? 1)%nat then Ok (y, rows_of 1 (k_m st) (fun _ l => rmse st ints xs O O l))
  else if (ne =? k_m st)%nat then Ok (y, rows_of ne ne (fun a b => rmse st ints xs a b b))
  else Err ValueError.

(** FloatKrigingSurrogate.predict: dist[0], the first row of the predictions or, with
    eval_rmse, the predictions *)
Definition float_predict (st : krig) (ints : bool) (ne : nat) (xs : nat -> nat -> R) : res (list R) :=
  let! y := predict st ints ne xs in match y with r :: _ => Ok r | [] => Err IndexError end.

(** linearize (213-227) at one point: entry (output, input); its r is not stored in an
    array of x's type *)
Definition linearize (st : krig) (x : nat -> R) (l j : nat) : R :=
  let xn k := (x k - k_Xm st k) / k_Xs st k in
  let gradr j i := corr_row st false x i * -2 * (k_th st j * (xn j - k_X st i j)) in
  k_Ys st l * (1 / k_Xs st j) * rsum (k_n st) (fun i => gradr j i * k_al st i l).

(** Specification for multi-fidelity co-kriging (C108): the covariance of the training
    points, the trend, exact factors and solutions, nested designs. *)
From Verif Require Import Base CokModel.
From Coq Require Import Field.
Local Open Scope list_scope.

Section CokSpec.
  Context (K : numbers).
  Notation "0" := (n0 K). Notation "1" := (n1 K).
  Infix "+" := (nadd K). Infix "*" := (nmul K). Infix "-" := (nsub K).
  Notation "- x" := (nopp K x).
  Notation vec := (nat -> K). Notation mat := (nat -> nat -> K). Notation point := (list K).

  (** the numbers: a field, with the facts of abs, exp and the test that are used *)
  Record good_num : Prop := mkGoodNum {
    gn_field : field_theory (n0 K) (n1 K) (nadd K) (nmul K) (nsub K) (nopp K) (ndiv K) (ninv K) eq;
    gn_exp : nexp K 0 = 1;
    gn_abs : forall x, nabs K x = x \/ nabs K x = - x;
    gn_zero : forall x, nzero K x = true <-> x = 0 }.

  (** a sum of n terms *)
  Fixpoint total (n : nat) (f : vec) : K := match n with O => 0 | S m => total m f + f m end.

  (** the covariance of two points: exp(- sum of theta_k (a_k - b_k)^2), one theta for all
      features or one each *)
  Definition weight (th : list K) (k : nat) : K := match th with [t] => t | _ => nth k th 0 end.
  Definition gap (a b : point) (k : nat) : K := nth k a 0 - nth k b 0.
  Definition kernel (th : list K) (d : nat) (a b : point) : K :=
    nexp K (- total d (fun k => weight th k * (gap a b k * gap a b k))).
  Definition cov (nu : K) (th : list K) (d : nat) (X : nat -> point) (i j : nat) : K :=
    if (i =? j)%nat then 1 + nu else kernel th d (X i) (X j).

  (** triangular matrices with a diagonal without zeros *)
  Definition regular_lower (n : nat) (M : mat) : Prop :=
    (forall i j, (i < n)%nat -> (j < n)%nat -> (i < j)%nat -> M i j = 0)
    /\ (forall i, (i < n)%nat -> M i i <> 0).
  Definition regular_upper (n : nat) (M : mat) : Prop := regular_lower n (fun i j => M j i).
  Definition solves (n : nat) (M : mat) (x b : vec) : Prop :=
    forall i, (i < n)%nat -> total n (fun j => M i j * x j) = b i.
  Definition factor (n : nat) (R C : mat) : Prop :=
    regular_lower n C
    /\ forall i j, (i < n)%nat -> (j < n)%nat -> total n (fun k => C i k * C j k) = R i j.

  (** exact decompositions and solutions *)
  Record good_lin (L : lin K) : Prop := mkGoodLin {
    gl_chol : forall n R C, chol K L n R = Some C -> factor n R C;
    gl_ext : forall n R R', (forall i j, (i < n)%nat -> (j < n)%nat -> R i j = R' i j) ->
             chol K L n R = chol K L n R';
    gl_solL : forall n M b, regular_lower n M -> solves n M (solL K L n M b) b;
    gl_solU : forall n M b, regular_upper n M -> solves n M (solU K L n M b) b }.

  (** M = Q G, the columns of Q orthonormal, G upper triangular and regular *)
  Definition orthogonal_split (n c : nat) (M Q G : mat) : Prop :=
    (forall i j, (i < n)%nat -> (j < c)%nat -> total c (fun e => Q i e * G e j) = M i j)
    /\ (forall e e', (e < c)%nat -> (e' < c)%nat ->
        total n (fun i => Q i e * Q i e') = if (e =? e')%nat then 1 else 0)
    /\ regular_upper c G.

  (** the regression functions at a point, in columns *)
  Definition row (d : nat) (r : regression K) (x : point) : list K :=
    match r with
    | Constant _ => [1]
    | Linear _ => 1 :: map (fun k => nth k x 0) (seq 0 d)
    | Custom _ p f => map (f x) (seq 0 p)
    end.
  (** the trend of a level at a point: the scale functions times the value of the level
      below (if any), then the regression functions *)
  Definition trend_row (d : nat) (regr rho : regression K) (below : option K) (x : point) : list K :=
    (match below with Some v => map (fun g => g * v) (row d rho x) | None => [] end) ++ row d regr x.
  (** the value of the level below at training point i *)
  Definition value_below (prev : option (data K)) (s : data K) (i : nat) : option K :=
    match prev with None => None | Some t => Some (s_y K t (s_n K t - s_n K s + i)%nat) end.
  Definition design (d : nat) (regr rho : regression K) (prev : option (data K)) (s : data K) : mat :=
    fun i c => nth c (trend_row d regr rho (value_below prev s i) (s_X K s i)) 0.

  (** each level's points are the last points of the level below *)
  Fixpoint nested (prev : option (data K)) (ss : list (data K)) : Prop :=
    match ss with
    | [] => True
    | s :: r =>
        match prev with
        | None => True
        | Some t => (s_n K s <= s_n K t)%nat
                    /\ forall i, (i < s_n K s)%nat -> s_X K s i = s_X K t (s_n K t - s_n K s + i)%nat
        end /\ nested (Some s) r
    end.

  (** the levels whose theta is not given: the last theta tried is the one returned *)
  Definition asked (a : attr K) (i : nat) : option (list K) :=
    match a with One _ o => o | Many _ os => nth i os None end.
  Definition settled (a : attr K) (nl : nat) (rs : nat -> run K) : Prop :=
    forall i, (i < nl)%nat -> asked a i = None -> exists pre, o_tried K (rs i) = pre ++ [o_theta K (rs i)].

  (** the covariance of the level at its theta has a Cholesky factor *)
  Definition factored (L : lin K) (nu : K) (d : nat) (l : level K) : Prop :=
    chol K L (s_n K (l_data K l)) (cov nu (l_theta K l) d (s_X K (l_data K l))) <> None.

  (** weights g with (covariance) g = y - (design) beta *)
  Definition residual_weights (nu : K) (d : nat) (regr rho : regression K) (prev : option (data K)) (l : level K)
      (beta g : vec) : Prop :=
    let s := l_data K l in
    solves (s_n K s) (cov nu (l_theta K l) d (s_X K s)) g
      (fun i => s_y K s i - total (l_p K l + l_q K l) (fun c => design d regr rho prev s i c * beta c)).

  (** the QR decomposition of the scaled design matrix is exact, and its columns are
      independent *)
  Definition qr_exact (L : lin K) (nu : K) (d : nat) (regr rho : regression K) (prev : option (data K))
      (s : data K) (c : nat) (th : list K) : Prop :=
    forall C M, chol K L (s_n K s) (cov nu th d (s_X K s)) = Some C ->
      (forall e, (e < c)%nat -> solves (s_n K s) C (fun k => M k e) (fun i => design d regr rho prev s i e)) ->
      orthogonal_split (s_n K s) c M (fst (qr K L (s_n K s) c M)) (snd (qr K L (s_n K s) c M)).

  (** how far the prediction at the training point x is from its value: nothing but the
      nugget contributes, and each level scales the error of the level below *)
  Inductive off (nu : K) (d : nat) (regr rho : regression K) (x : point) :
      option (data K) -> option K -> list (level K) -> K -> Prop :=
  | off_end : forall prev e, off nu d regr rho x prev (Some e) [] e
  | off_level : forall prev below l ls ft g j e,
      l_fit K l = Some ft -> (j < s_n K (l_data K l))%nat -> s_X K (l_data K l) j = x ->
      residual_weights nu d regr rho prev l (f_beta K ft) g ->
      off nu d regr rho x (Some (l_data K l))
        (Some (match below with
               | None => 0
               | Some e0 => total (length (row d rho x)) (fun c => nth c (row d rho x) 0 * f_beta K ft c) * e0
               end - nu * g j)) ls e ->
      off nu d regr rho x prev below (l :: ls) e.
End CokSpec.

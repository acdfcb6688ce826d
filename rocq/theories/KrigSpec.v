(** What a Kriging surrogate should do. *)
From Coq Require Import Reals.
From Verif Require Import Base KrigModel.
Local Open Scope R_scope.

(** the Gaussian correlation of two points *)
Definition gaussian (d : nat) (th : nat -> R) (a b : nat -> R) : R :=
  exp (- rsum d (fun k => th k * ((a k - b k) * (a k - b k)))).
(** the covariance matrix of the samples, with the nugget on its diagonal *)
Definition is_covar (n d : nat) (th nugget : nat -> R) (X : nat -> nat -> R) (M : nat -> nat -> R) : Prop :=
  forall i j, (i < n)%nat -> (j < n)%nat -> M i j = gaussian d th (X i) (X j) + (if (i =? j)%nat then nugget i else 0).

Definition delta (i j : nat) : R := if (i =? j)%nat then 1 else 0.
(** M = U diag(Sg) Vh with orthogonal U and Vh; Sg decreases *)
Definition is_svd (n : nat) (M : nat -> nat -> R) (U : nat -> nat -> R) (Sg : nat -> R) (Vh : nat -> nat -> R) : Prop :=
  (forall p q, (p < n)%nat -> (q < n)%nat -> rsum n (fun k => U k p * U k q) = delta p q) /\
  (forall p q, (p < n)%nat -> (q < n)%nat -> rsum n (fun k => U p k * U q k) = delta p q) /\
  (forall p q, (p < n)%nat -> (q < n)%nat -> rsum n (fun k => Vh p k * Vh q k) = delta p q) /\
  (forall i j, (i < n)%nat -> (j < n)%nat -> M i j = rsum n (fun p => U i p * (Sg p * Vh p j))) /\
  (forall p, (p < n)%nat -> 0 <= Sg p <= Sg O).

(** the standard deviation of n numbers *)
Definition deviation (n : nat) (f : nat -> R) : R :=
  sqrt (rsum n (fun i => (f i - rsum n f / INR n) * (f i - rsum n f / INR n)) / INR n).

(** the state agrees with training data: its normalized samples are the data *)
Definition normalizes (st : krig) (n d m : nat) (x y : nat -> nat -> R) : Prop :=
  k_trained st = true /\ k_n st = n /\ k_d st = d /\ k_m st = m /\
  (forall k, k_Xs st k <> 0) /\ (forall l, k_Ys st l <> 0) /\
  (forall i k, (i < n)%nat -> (k < d)%nat -> k_Xm st k + k_Xs st k * k_X st i k = x i k) /\
  (forall i l, (i < n)%nat -> (l < m)%nat -> k_Ym st l + k_Ys st l * k_Y st i l = y i l).

(** a point with one coordinate changed *)
Definition upd (x : nat -> R) (j : nat) (t : R) : nat -> R := fun k => if (k =? j)%nat then t else x k.

(** svd decomposes the covariance matrix of the samples; its singular values lie between
    sg and top *)
Definition decomposes (svd : nat -> (nat -> nat -> R) -> (nat -> nat -> R) * (nat -> R) * (nat -> nat -> R))
    (n d : nat) (th nugget : nat -> R) (X : nat -> nat -> R) (sg top : R) : Prop :=
  forall M, is_covar n d th nugget X M ->
    is_svd n M (fst (fst (svd n M))) (snd (fst (svd n M))) (snd (svd n M)) /\
    forall p, (p < n)%nat -> sg <= snd (fst (svd n M)) p <= top.
(** how far predictions at the samples may be off: the nugget over the smallest singular
    value, and the regularization 1e-8 times the condition number, squared *)
Definition slack (nu sg top : R) : R := nu / sg + (/ 100000000 * top / sg) * (/ 100000000 * top / sg).

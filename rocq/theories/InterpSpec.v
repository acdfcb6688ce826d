(** What interpolants should do: training data, neighbours, and derivatives by dual
    numbers. *)
From Verif Require Import Base.
Local Open Scope nat_scope.
Local Open Scope list_scope.

Section Spec.
  Context {F : Type} (F0 F1 : F) (fadd fmul : F -> F -> F) (fopp : F -> F).
  Variable flt : F -> F -> Prop.

  (** ** the order of a field *)
  Record ordered : Prop := mkOrd {
    o_irr : forall a, ~ flt a a;
    o_trans : forall a b c, flt a b -> flt b c -> flt a c;
    o_total : forall a b, flt a b \/ a = b \/ flt b a;
    o_add : forall a b c, flt a b -> flt (fadd a c) (fadd b c);
    o_mul : forall a b, flt F0 a -> flt F0 b -> flt F0 (fmul a b) }.
  Definition le (a b : F) : Prop := ~ flt b a.

  (** ** training data: m points with d inputs, m rows of k outputs *)
  Definition rect (m d : nat) (a : list (list F)) : Prop := length a = m /\ forall r, In r a -> length r = d.
  Definition distinct (a : list (list F)) : Prop := NoDup a.

  (** ** the neighbours of a point *)
  Definition distance (dist : list F -> list F -> F) : Prop :=
    (forall x y, le F0 (dist x y)) /\ forall x y, length x = length y -> (dist x y = F0 <-> x = y).
  (** n different training points with their distances, the first at the smallest
      distance, the others no farther than those left out *)
  Definition nearest (dist : list F -> list F -> F) (tp : list (list F)) (x : list F) (n : nat) (nb : list (F * nat)) : Prop :=
    length nb = n /\ NoDup (map snd nb) /\
    (forall d i, In (d, i) nb -> i < length tp /\ d = dist x (nth i tp [])) /\
    (forall d i j, In (d, i) nb -> j < length tp -> ~ In j (map snd nb) -> le d (dist x (nth j tp []))) /\
    (forall e r, nb = e :: r -> forall e', In e' r -> le (fst e) (fst e')).

  (** ** dual numbers a + a' eps with eps*eps = 0: the first order part of a
      computation is its derivative *)
  Definition dual : Type := (F * F)%type.
  Definition dconst (a : F) : dual := (a, F0).
  Definition dadd (a b : dual) : dual := (fadd (fst a) (fst b), fadd (snd a) (snd b)).
  Definition dopp (a : dual) : dual := (fopp (fst a), fopp (snd a)).
  Definition dsub (a b : dual) : dual := dadd a (dopp b).
  Definition dmul (a b : dual) : dual := (fmul (fst a) (fst b), fadd (fmul (fst a) (snd b)) (fmul (snd a) (fst b))).
  Fixpoint dpow (a : dual) (n : nat) : dual := match n with 0 => dconst F1 | S k => dmul a (dpow a k) end.
  Fixpoint dsum (l : list dual) : dual := match l with [] => dconst F0 | a :: r => dadd a (dsum r) end.
  (** the square of the distance of two points *)
  Definition dist2 (x y : list dual) : dual := dsum (map (fun p : dual * dual => dmul (dsub (fst p) (snd p)) (dsub (fst p) (snd p))) (combine x y)).
  (** a point moved in a direction, its coordinates shifted and scaled *)
  Variable fsub fdiv : F -> F -> F.
  Fixpoint shifted (m r x dx : list F) : list dual :=
    match m, r, x, dx with
    | a :: m', s :: r', z :: x', dz :: dx' => (fdiv (fsub z a) s, fdiv dz s) :: shifted m' r' x' dx'
    | _, _, _, _ => []
    end.
  Definition fixed (x : list F) : list dual := map dconst x.
  (** the value of a linear map with the given coefficients *)
  Fixpoint along (g dx : list F) : F := match g, dx with a :: g', z :: dx' => fadd (fmul a z) (along g' dx') | _, _ => F0 end.

  (** ** planes *)
  (** points in general position: a linear form that is constant on them is 0 *)
  Definition general_position (d : nat) (pts : list (list F)) : Prop :=
    forall v, length v = d -> (forall p q, In p pts -> In q pts -> along v p = along v q) -> v = repeat F0 d.
  (** a vector not 0 that is orthogonal to rows of length d+1 *)
  Definition orthogonal (d : nat) (rows : list (list F)) (v : list F) : Prop :=
    length v = S d /\ (forall r, In r rows -> along r v = F0) /\ v <> repeat F0 (S d).
  (** values that are an affine function of the points *)
  Definition affine (a : list (list F)) (b : list F) (tp tv : list (list F)) : Prop :=
    forall i c, i < length tp -> c < length b -> nth c (nth i tv []) F0 = fadd (along (nth c a []) (nth i tp [])) (nth c b F0).

  (** ** inverse distance weighting: the points and values of the neighbours, their
      distances, weights and the average, as equations between dual numbers *)
  Definition inverse_distance {A : Type} (p : nat) (l : list A) (X : list dual) (pt : A -> list dual) (val : A -> dual) (D W : A -> dual) (Z : dual) : Prop :=
    (forall a, In a l -> dmul (D a) (D a) = dist2 X (pt a)) /\
    (forall a, In a l -> dmul (W a) (dpow (D a) p) = dconst F1) /\
    dmul Z (dsum (map W l)) = dsum (map (fun a => dmul (W a) (val a)) l).

  (** ** radial basis functions: the distances divided by that of the last neighbour;
      the kernel is the first component of its continuation to dual numbers *)
  Definition radial {A : Type} (l : list A) (last : A) (kernel : dual -> dual) (X : list dual) (pt : A -> list dual) (coef : A -> dual) (D T : A -> dual) (Z : dual) : Prop :=
    (forall a, In a l \/ a = last -> dmul (D a) (D a) = dist2 X (pt a)) /\
    (forall a, In a l -> dmul (T a) (D last) = D a) /\
    Z = dsum (map (fun a => dmul (kernel (T a)) (coef a)) l).

  (** ** the Gaussian correlation model, given exp on dual numbers *)
  Definition gaussian {A : Type} (l : list A) (dexp : dual -> dual) (X thetas : list dual) (pt : A -> list dual) (coef : A -> dual) : dual :=
    dsum (map (fun a => dmul (dexp (dopp (dsum (map (fun q : dual * (dual * dual) => dmul (fst q) (dmul (dsub (fst (snd q)) (snd (snd q))) (dsub (fst (snd q)) (snd (snd q))))) (combine thetas (combine X (pt a))))))) (coef a)) l).
End Spec.

(** ** polynomials over the rationals, the constant term first *)
Section Poly.
  Local Open Scope Q_scope.
  Fixpoint peval (p : list Q) (t : Q) : Q := match p with [] => 0 | c :: r => c + t * peval r t end.
  Fixpoint pderiv_from (n : Z) (p : list Q) : list Q := match p with [] => [] | c :: r => inject_Z n * c :: pderiv_from (n + 1) r end.
  Definition pderiv (p : list Q) : list Q := match p with [] => [] | _ :: r => pderiv_from 1 r end.
  (** g is the derivative of the polynomial function f *)
  Definition poly_derivative (f g : Q -> Q) : Prop := exists p, (forall t, f t == peval p t) /\ forall t, g t == peval (pderiv p) t.
End Poly.

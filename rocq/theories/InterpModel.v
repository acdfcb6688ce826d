(** Model of the nearest neighbour interpolants and of kriging:
    /repo/openmdao/surrogate_models/nn_interpolators/nn_base.py 11-53 (NNBase),
    weighted_interpolator.py 8-110 (WeightedInterpolator),
    linear_interpolator.py 7-115 (LinearInterpolator),
    rbf_interpolator.py 9-334 (RBFInterpolator),
    /repo/openmdao/surrogate_models/kriging.py 156-230 (predict, linearize).

    Numbers are the elements of a field with a decidable equality and a comparison.
    Arrays are lists, a two-dimensional array is the list of its rows.  One point is
    predicted at a time (the rows of a batch are treated alike; the batch broadcasting
    of WeightedInterpolator.gradient is not modelled), so shapes are those of one point.
    The k-d tree (cKDTree.query), the singular value decomposition (the last row of V),
    the sparse solver (spsolve) and exp are arguments.  Not modelled: the cache of the
    last query (gradient uses the neighbours of the last predicted point if the points
    are np.allclose, whatever n was), complex step, the reshaping of the caller's array. *)
From Verif Require Import Base.
Local Open Scope nat_scope.
Local Open Scope list_scope.

Section Interp.
  Context {F : Type} (F0 F1 : F) (fadd fmul fsub : F -> F -> F) (fopp : F -> F) (fdiv : F -> F -> F) (finv : F -> F).
  Variable feqb : F -> F -> bool.
  Variable fltb : F -> F -> bool.

  Fixpoint zip_with {A B C} (f : A -> B -> C) (a : list A) (b : list B) : list C :=
    match a, b with x :: a', y :: b' => f x y :: zip_with f a' b' | _, _ => [] end.
  Definition vsub := zip_with fsub.
  Definition vadd := zip_with fadd.
  Definition vmul := zip_with fmul.
  Definition vdiv := zip_with fdiv.
  Fixpoint sum (l : list F) : F := match l with [] => F0 | x :: r => fadd x (sum r) end.
  Definition dot (a b : list F) : F := sum (vmul a b).
  Fixpoint pow (x : F) (n : nat) : F := match n with 0 => F1 | S k => fmul x (pow x k) end.
  Definition fmin (a b : F) : F := if fltb b a then b else a.
  Definition fmax (a b : F) : F := if fltb a b then b else a.

  (** ** nn_base.py *)
  (** np.amin(a, axis=0), np.amax(a, axis=0) *)
  Definition amin (rows : list (list F)) : list F := match rows with p :: r => fold_left (zip_with fmin) r p | [] => [] end.
  Definition amax (rows : list (list F)) : list F := match rows with p :: r => fold_left (zip_with fmax) r p | [] => [] end.
  (** lines 32-37: the range, 1 where it is 0 *)
  Definition range (rows : list (list F)) : list F := map (fun r => if feqb r F0 then F1 else r) (vsub (amax rows) (amin rows)).
  Definition normalize (m r x : list F) : list F := vdiv (vsub x m) r.
  Definition unnormalize (m r x : list F) : list F := vadd (vmul x r) m.
  Record base := mkB { b_tpm : list F; b_tpr : list F; b_tvm : list F; b_tvr : list F; b_tp : list (list F); b_tv : list (list F) }.
  Definition nn_base (tp tv : list (list F)) : base :=
    mkB (amin tp) (range tp) (amin tv) (range tv) (map (normalize (amin tp) (range tp)) tp) (map (normalize (amin tv) (range tv)) tv).
  Definition row (a : list (list F)) (i : nat) : list F := nth i a [].
  Definition entry (a : list F) (i : nat) : F := nth i a F0.
  (** the number of entries of a row of the training points and values *)
  Definition ndim (a : list (list F)) : nat := length (row a 0).

  (** self._KData.query(x, n): the distances and the indices of n neighbours *)
  Variable query : list (list F) -> list F -> nat -> list (F * nat).

  (** ** weighted_interpolator.py *)
  (** lines 11-26: 1/0 is inf; a row with an inf is 1 there and 0 elsewhere *)
  Definition get_weights (ndist : list F) (p : nat) : list F :=
    let dist := map (fun x => pow x p) ndist in
    if existsb (fun x => feqb x F0) dist then map (fun x => if feqb x F0 then F1 else F0) dist
    else map (fun x => fdiv F1 x) dist.
  (** np.einsum('ijk,ij->ik', vals, weights) for one point *)
  Definition weighted_sum (k : nat) (w : list F) (vals : list (list F)) : list F :=
    map (fun c => sum (zip_with (fun x v => fmul (entry v c) x) w vals)) (seq 0 k).
  Definition eff (dims dist_eff : nat) : nat := match dist_eff with 0 => dims + 1 | e => e end.
  (** lines 28-66 *)
  Definition weighted (b : base) (x : list F) (n dist_eff : nat) : res (list F) :=
    if length (b_tp b) <? n then Err ValueError
    else
      let nb := query (b_tp b) (normalize (b_tpm b) (b_tpr b) x) n in
      let w := get_weights (map fst nb) (eff (ndim (b_tp b)) dist_eff) in
      let vals := map (fun e : F * nat => row (b_tv b) (snd e)) nb in
      let wt := weighted_sum (ndim (b_tv b)) w vals in
      Ok (unnormalize (b_tvm b) (b_tvr b) (map (fun z => fdiv z (sum w)) wt)).
  (** lines 68-110 without the cache: rows are outputs, columns inputs; np.power(0, -e)
      is inf and the result nan, modelled as ZeroDivisionError *)
  Definition of_nat (n : nat) : F := Nat.iter n (fadd F1) F0.
  Definition weighted_gradient (b : base) (x : list F) (n dist_eff : nat) : res (list (list F)) :=
    if length (b_tp b) <? n then Err ValueError
    else
      let p := eff (ndim (b_tp b)) dist_eff in
      let xn := normalize (b_tpm b) (b_tpr b) x in
      let nb := query (b_tp b) xn n in
      let ndist := map fst nb in
      if existsb (fun e => feqb e F0) ndist then Err ZeroDivisionError
      else
        let w := map (fun e => fdiv F1 (pow e p)) ndist in
        let dw := map (fun e : F * nat => map (fun z => fmul (fmul (fopp (of_nat p)) (fdiv F1 (pow (fst e) (p + 2)))) z) (vsub xn (row (b_tp b) (snd e)))) nb in
        let ws := sum w in
        let vals := map (fun e : F * nat => row (b_tv b) (snd e)) nb in
        let col (l : nat) := map (fun r => entry r l) dw in
        let g (c l : nat) := fdiv (fsub (fmul ws (sum (zip_with (fun d v => fmul d (entry v c)) (col l) vals)))
                                        (fmul (sum (zip_with (fun x v => fmul x (entry v c)) w vals)) (sum (col l)))) (pow ws 2) in
        Ok (map (fun c => map (fun l => fmul (g c l) (fdiv (entry (b_tvr b) c) (entry (b_tpr b) l))) (seq 0 (ndim (b_tp b)))) (seq 0 (ndim (b_tv b)))).

  (** ** linear_interpolator.py *)
  (** np.linalg.svd(m)[2][-1]: a unit vector of the null space *)
  Variable null_vector : list (list F) -> list F.
  Fixpoint diffs (l : list (list F)) : list (list F) :=
    match l with a :: ((b :: _) as r) => vsub b a :: diffs r | _ => [] end.
  (** lines 13-49 for output c: the normal and the constant of the plane *)
  Definition augmented (b : base) (nloc : list nat) (c : nat) : list (list F) := map (fun i => row (b_tp b) i ++ [entry (row (b_tv b) i) c]) nloc.
  Definition hyperplane (b : base) (nloc : list nat) (c : nat) : list F * F :=
    let trnd := augmented b nloc c in
    let normal := null_vector (diffs trnd) in
    (normal, dot (row trnd 0) normal).
  (** lines 51-84 for one point: n0 are the outputs whose normal ends in 0.
      predictions[n0, :] = tv[nloc[0, n0], :] uses the output numbers as row numbers:
      there is one row only *)
  Definition linear (b : base) (x : list F) : res (list F) :=
    let d := ndim (b_tp b) in
    let xn := normalize (b_tpm b) (b_tpr b) x in
    let nloc := map snd (query (b_tp b) xn (d + 1)) in
    let hp := map (hyperplane b nloc) (seq 0 (ndim (b_tv b))) in
    let lasts := map (fun h : list F * F => entry (fst h) d) hp in
    let preds := map (fun h : list F * F => fsub (dot xn (firstn d (fst h))) (snd h)) hp in
    let n0 := filter (fun c => feqb (entry lasts c) F0) (seq 0 (ndim (b_tv b))) in
    let! preds :=
      match n0 with
      | [] => Ok preds
      | [0] => Ok (row (b_tv b) (nth 0 nloc 0))
      | _ => Err IndexError
      end in
    let preds := zip_with (fun z l => if feqb l F0 then z else fdiv z (fopp l)) preds lasts in
    Ok (unnormalize (b_tvm b) (b_tvr b) preds).
  (** lines 86-115: np.any(a) == 0 holds if all entries are 0; a zero among others is a
      division by zero *)
  Definition linear_gradient (b : base) (x : list F) : res (list (list F)) :=
    let d := ndim (b_tp b) in
    let xn := normalize (b_tpm b) (b_tpr b) x in
    let nloc := map snd (query (b_tp b) xn (d + 1)) in
    let hp := map (hyperplane b nloc) (seq 0 (ndim (b_tv b))) in
    let lasts := map (fun h : list F * F => entry (fst h) d) hp in
    if forallb (fun l => feqb l F0) lasts then Ok (repeat (repeat F0 d) (ndim (b_tv b)))
    else if existsb (fun l => feqb l F0) lasts then Err ZeroDivisionError
    else Ok (zip_with (fun h vr => zip_with (fun m pr => fmul (fdiv (fopp m) (entry (fst h) d)) (fdiv vr pr)) (firstn d (fst h)) (b_tpr b)) hp (b_tvr b)).

  (** ** rbf_interpolator.py *)
  (** kern is Cf*Cb of _find_R, dkern is dRp of _find_dR (tables below) *)
  Variable kern dkern : F -> F.
  Variable spsolve : list (list F) -> list (list F) -> list (list F).
  Definition last_dist (nb : list (F * nat)) : F := fst (last nb (F0, 0)).
  (** lines 131-132: one row of R; the neighbours are different points *)
  Definition find_R (m : nat) (nb : list (F * nat)) : list F :=
    map (fun j => match find (fun e : F * nat => snd e =? j) (removelast nb) with
                  | Some e => kern (fdiv (fst e) (last_dist nb))
                  | None => F0
                  end) (seq 0 m).
  (** lines 249-269; a last distance 0 gives nan, modelled as an error *)
  Definition rbf_train (b : base) (n : nat) : res (list (list F)) :=
    if length (b_tp b) <? n then Err ValueError
    else
      let nbs := map (fun t => query (b_tp b) t n) (b_tp b) in
      if existsb (fun nb => feqb (last_dist nb) F0) nbs then Err ZeroDivisionError
      else Ok (spsolve (map (find_R (length (b_tp b))) nbs) (b_tv b)).
  (** lines 271-300 *)
  Definition rbf_predict (b : base) (n : nat) (weights : list (list F)) (x : list F) : res (list F) :=
    let nb := query (b_tp b) (normalize (b_tpm b) (b_tpr b) x) n in
    if feqb (last_dist nb) F0 then Err ZeroDivisionError
    else
      let Rp := find_R (length (b_tp b)) nb in
      Ok (unnormalize (b_tvm b) (b_tvr b) (map (fun c => sum (zip_with (fun r w => fmul r (entry w c)) Rp weights)) (seq 0 (ndim (b_tv b))))).
  (** lines 136-247 and 302-323 without the cache; eps is 1.0e-11 *)
  Definition rbf_gradient (eps : F) (b : base) (n : nat) (weights : list (list F)) (x : list F) : res (list (list F)) :=
    let xn := normalize (b_tpm b) (b_tpr b) x in
    let nb := query (b_tp b) xn n in
    let dm := last_dist nb in
    if feqb dm F0 then Err ZeroDivisionError
    else
      let tm := row (b_tp b) (snd (last nb (F0, 0))) in
      let dtx (e : F * nat) (l : nat) :=
        let t := fdiv (fst e) dm in
        let t := if feqb t F0 then fadd t eps else t in
        fdiv (fsub (fsub (entry xn l) (entry (row (b_tp b) (snd e)) l)) (fmul (fmul t t) (fsub (entry xn l) (entry tm l)))) (fmul (fmul dm dm) t) in
      Ok (map (fun c => map (fun l => fmul (sum (map (fun e : F * nat => fmul (fmul (dkern (fdiv (fst e) dm)) (dtx e l)) (entry (row weights (snd e)) c)) (removelast nb)))
                                           (fdiv (entry (b_tvr b) c) (entry (b_tpr b) l))) (seq 0 (ndim (b_tp b)))) (seq 0 (ndim (b_tv b)))).

  (** ** kriging.py *)
  Variable fexp : F -> F.
  (** thetas.dot(np.square(x - X)) for one sample *)
  Definition corr (thetas x X : list F) : F := fexp (fopp (dot thetas (map (fun z => fmul z z) (vsub x X)))).
  Record krig := mkK { k_xmean : list F; k_xstd : list F; k_ymean : list F; k_ystd : list F; k_X : list (list F); k_thetas : list F; k_alpha : list (list F) }.
  (** lines 156-191 without the RMSE *)
  Definition krig_predict (k : krig) (x : list F) : list F :=
    let xn := normalize (k_xmean k) (k_xstd k) x in
    let r := map (corr (k_thetas k) xn) (k_X k) in
    let yt := map (fun c => sum (zip_with (fun a b => fmul a (entry b c)) r (k_alpha k))) (seq 0 (length (k_ymean k))) in
    vadd (k_ymean k) (vmul (k_ystd k) yt).
  (** lines 203-225 *)
  Definition krig_linearize (k : krig) (x : list F) : list (list F) :=
    let xn := normalize (k_xmean k) (k_xstd k) x in
    let r := map (corr (k_thetas k) xn) (k_X k) in
    let gradr (i : nat) := zip_with (fun a X => fmul (fmul a (fopp (fadd F1 F1))) (fmul (entry (k_thetas k) i) (entry (vsub xn X) i))) r (k_X k) in
    map (fun c => map (fun i => fmul (fmul (entry (k_ystd k) c) (fdiv F1 (entry (k_xstd k) i))) (sum (zip_with (fun a b => fmul a (entry b c)) (gradr i) (k_alpha k))))
                      (seq 0 (length (k_thetas k)))) (seq 0 (length (k_ystd k))).
End Interp.

(** ** the kernels of rbf_interpolator.py over the rationals *)
Section Tables.
  Local Open Scope Z_scope.
  (** lines 11-128: comp = -3 is sqrt(T*T + 1) and not in the table; any other comp leaves
      Cf unbound *)
  Definition kernel_table (dims : nat) (comp : Z) : option (nat * Z * list Z) :=
    match comp with
    | -1 => Some (5%nat, 1, [5; 72; 48; 40; 8])
    | -2 => Some (6%nat, 1, [5; 30; 72; 82; 36; 6])
    | 0 => if (dims <=? 2)%nat then Some (1%nat, 1, [1]) else if (dims <=? 4)%nat then Some (1%nat, 1, [-1; 1])
             else if (dims <=? 6)%nat then Some (2%nat, 1, [-1; 1]) else Some (2%nat, 1, [1; -2; 1])
    | 1 => if (dims <=? 2)%nat then Some (3%nat, 12, [3; 1]) else if (dims <=? 4)%nat then Some (4%nat, 20, [4; 1])
             else if (dims <=? 6)%nat then Some (5%nat, 30, [5; 1]) else Some (6%nat, 42, [6; 1])
    | 2 => if (dims <=? 2)%nat then Some (5%nat, 840, [24; 15; 3]) else if (dims <=? 4)%nat then Some (6%nat, 1680, [35; 18; 3])
             else if (dims <=? 6)%nat then Some (7%nat, 3024, [48; 21; 3]) else Some (8%nat, 5040, [63; 24; 3])
    | 3 => if (dims <=? 2)%nat then Some (7%nat, 151200, [315; 285; 105; 15]) else if (dims <=? 4)%nat then Some (8%nat, 332640, [480; 375; 120; 15])
             else if (dims <=? 6)%nat then Some (9%nat, 665280, [693; 477; 135; 15]) else Some (10%nat, 1235520, [960; 591; 150; 15])
    | 4 => if (dims <=? 2)%nat then Some (9%nat, 51891840, [5760; 6795; 3555; 945; 105]) else if (dims <=? 4)%nat then Some (10%nat, 121080960, [9009; 9450; 4410; 1050; 105])
             else if (dims <=? 6)%nat then Some (11%nat, 259459200, [13440; 12705; 5355; 1155; 105]) else Some (12%nat, 518918400, [19305; 16620; 6390; 1260; 105])
    | _ => None
    end.
  (** lines 136-235: frnt and dRp_poly *)
  Definition dkernel_table (dims : nat) (comp : Z) : option (nat * Z * list Z) :=
    match comp with
    | -1 => Some (4%nat, 1, [-45; -556; -120; -144; 0])
    | -2 => Some (5%nat, 1, [-55; -275; -528; -440; -88; 0])
    | 0 => if (dims <=? 2)%nat then Some (0%nat, 1, [-1]) else if (dims <=? 4)%nat then Some (0%nat, 1, [2; -2])
             else if (dims <=? 6)%nat then Some (0%nat, 1, [-3; 6; -3]) else Some (0%nat, 1, [4; -12; 12; -4])
    | 1 => if (dims <=? 2)%nat then Some (0%nat, 1, [1; -2; 1; 0]) else if (dims <=? 4)%nat then Some (0%nat, 1, [1; -3; 3; -1; 0])
             else if (dims <=? 6)%nat then Some (0%nat, 1, [-1; 4; -6; 4; -1; 0]) else Some (0%nat, 1, [1; -5; 10; -10; 5; -1; 0])
    | 2 => if (dims <=? 2)%nat then Some (4%nat, -20, [4; 1; 0]) else if (dims <=? 4)%nat then Some (5%nat, -30, [5; 1; 0])
             else if (dims <=? 6)%nat then Some (6%nat, -42, [6; 1; 0]) else Some (7%nat, -56, [7; 1; 0])
    | 3 => if (dims <=? 2)%nat then Some (6%nat, -1680, [35; 18; 3; 0]) else if (dims <=? 4)%nat then Some (7%nat, -1008, [16; 7; 1; 0])
             else if (dims <=? 6)%nat then Some (8%nat, -1680, [21; 8; 1; 0]) else Some (9%nat, -7920, [80; 27; 3; 0])
    | 4 => if (dims <=? 2)%nat then Some (8%nat, -22176, [32; 25; 8; 1; 0]) else if (dims <=? 4)%nat then Some (9%nat, -221760, [231; 159; 45; 5; 0])
             else if (dims <=? 6)%nat then Some (10%nat, -411840, [320; 197; 50; 5; 0]) else Some (11%nat, -720720, [429; 239; 55; 5; 0])
    | _ => None
    end.
End Tables.
Section Kernels.
  Local Open Scope Q_scope.
  (** np.polyval: the coefficient of the highest power first *)
  Definition polyval (p : list Z) (t : Q) : Q := fold_left (fun acc c => acc * t + inject_Z c) p 0.
  Fixpoint qpow (t : Q) (n : nat) : Q := match n with O => 1 | S k => t * qpow t k end.
  (** (1 - T)**e / den times a polynomial; np.power with a float exponent is the power *)
  Definition shape (s : nat * Z * list Z) (t : Q) : Q := let '(e, den, p) := s in qpow (1 - t) e / inject_Z den * polyval p t.
  Definition kernel (qsqrt : Q -> Q) (dims : nat) (comp : Z) (t : Q) : res Q :=
    match comp with
    | (-3)%Z => Ok (qsqrt (t * t + 1) * polyval [1%Z] t)
    | _ => match kernel_table dims comp with Some s => Ok (shape s t) | None => Err NameError end
    end.
  Definition dkernel (qsqrt : Q -> Q) (dims : nat) (comp : Z) (t : Q) : res Q :=
    match comp with
    | (-3)%Z => Ok (t / qsqrt (t * t * 1) * polyval [1%Z] t)
    | _ => match dkernel_table dims comp with Some s => Ok (shape s t) | None => Err NameError end
    end.
End Kernels.

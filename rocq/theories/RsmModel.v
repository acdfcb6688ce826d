(** Model of openmdao/surrogate_models/response_surface.py (ResponseSurface).
    Numbers are the elements of a commutative ring.  Arrays are lists; a two-dimensional
    array is the list of its rows.  Writing to a view writes to the array at an offset.
    numpy.dual.lstsq is the argument [lstsq]. *)
From Verif Require Import Base.
Local Open Scope nat_scope.
Local Open Scope list_scope.

Section Rsm.
  Context {F : Type} (F0 F1 : F) (fadd fmul : F -> F -> F).

  (** a[off:off+len] = v: the slice is cut at the end of the array; a value of another
      length is a ValueError (broadcasting a single entry is not modelled) *)
  Definition put {A} (a : list A) (off len : nat) (v : list A) : res (list A) :=
    let len' := Nat.min len (length a - off) in
    if length v =? len' then Ok (firstn off a ++ v ++ skipn (off + len') a) else Err ValueError.
  Definition scale (c : F) (v : list F) : list F := map (fmul c) v.
  Definition addv (a b : list F) : list F := map (fun p => fadd (fst p) (snd p)) (combine a b).

  (** predict lines 83-87 and train lines 48-54 (one row of X): the quadratic terms, from
      X_offset, which starts at [off], on *)
  Fixpoint quad_loop (x : list F) (off : nat) (X : list F) : res (list F) :=
    match x with
    | [] => Ok X
    | xi :: r => let! X' := put X off (length x) (scale xi x) in quad_loop r (off + length x) X'
    end.
  (** the row of terms for a point [x] with [self.n] = n: predict lines 70-87 *)
  Definition row_of (n : nat) (x : list F) : res (list F) :=
    let X := repeat F0 (((n + 1) * (n + 2)) / 2) in
    let! X := put X 0 1 [F1] in
    let! X := put X 1 (length x) x in
    quad_loop x (length x + 1) X.

  (** v.dot(M) for a vector and the rows of a matrix with k columns *)
  Fixpoint vdot (k : nat) (v : list F) (M : list (list F)) : list F :=
    match v, M with
    | c :: v', r :: M' => addv (scale c r) (vdot k v' M')
    | _, _ => repeat F0 k
    end.
  Record surface : Type := mkRs { rs_n : nat; rs_betas : list (list F); rs_k : nat }.
  (** train, lines 20-57: m rows of n entries *)
  Fixpoint rows_of (n : nat) (x : list (list F)) : res (list (list F)) :=
    match x with
    | [] => Ok []
    | p :: r => let! X := row_of n p in let! Xs := rows_of n r in Ok (X :: Xs)
    end.
  Definition train (lstsq : list (list F) -> list (list F) -> list (list F)) (n k : nat) (x y : list (list F)) : res surface :=
    let! X := rows_of n x in Ok (mkRs n (lstsq X y) k).
  (** predict, lines 59-90: the shapes of X and betas must agree *)
  Definition predict (s : surface) (x : list F) : res (list F) :=
    let! X := row_of (rs_n s) x in
    if length X =? length (rs_betas s) then Ok (vdot (rs_k s) X (rs_betas s)) else Err ValueError.

  (** linearize, lines 106-112: jac[i] += x[i:].dot(beta_offset[:n-i]), then
      jac[i:] += x[i]*beta_offset[:n-i]; [jac] is the part jac[i:] *)
  Fixpoint lin_loop (k : nat) (x : list F) (jac beta : list (list F)) : list (list F) :=
    match x, jac with
    | xi :: r, ji :: js =>
        let b := firstn (length x) beta in
        let jac' := map (fun p => addv (fst p) (scale xi (snd p))) (combine (addv ji (vdot k x b) :: js) b) in
        match jac' with
        | j :: js' => j :: lin_loop k r js' (skipn (length x) beta)
        | [] => []
        end
    | _, _ => jac
    end.
  Fixpoint transpose (k : nat) (M : list (list F)) : list (list F) :=
    match M with
    | [] => repeat [] k
    | r :: M' => map (fun p => fst p :: snd p) (combine r (transpose k M'))
    end.
  (** linearize, lines 92-114 *)
  Definition linearize (s : surface) (x : list F) : list (list F) :=
    let n := rs_n s in
    let jac := firstn n (skipn 1 (rs_betas s)) in
    transpose (rs_k s) (lin_loop (rs_k s) x jac (skipn (n + 1) (rs_betas s))).
End Rsm.

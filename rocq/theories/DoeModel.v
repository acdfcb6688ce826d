(** Design of experiments: openmdao/drivers/fullfactorial_driver.py lines 38-64,
    latinhypercube_driver.py lines 47-94 and 128-318.

    Random choices are arguments.  Numbers are rationals (numpy.linspace is
    computed exactly).  The Morris-Mitchell criterion mmphi (lines 188-218) is an
    arbitrary function: only comparisons of its values matter.  Not modelled: the
    scattering of a Latin hypercube to several ranks (_distrib_build_runlist). *)
From Verif Require Import Base.
Local Open Scope nat_scope.

(** ** levels *)
(** numpy.linspace(low, high, num=n); the last value is set to high *)
Definition linspace (low high : Q) (n : nat) : list Q :=
  match n with
  | 0 => []
  | 1 => [low]
  | S m => map (fun k => low + inject_Z (Z.of_nat k) * ((high - low) / inject_Z (Z.of_nat m)))%Q (seq 0 m) ++ [high]
  end.

(** itertools.product: the last factor varies fastest *)
Fixpoint product {A} (ls : list (list A)) : list (list A) :=
  match ls with
  | [] => [[]]
  | l :: rest => flat_map (fun x => map (cons x) (product rest)) l
  end.

(** bounds of a design variable: a number or an array *)
Inductive bound : Type := Scal (q : Q) | Arr (l : list Q).
Record dv : Type := mkDV { dv_name : string; dv_size : nat; dv_lower : bound; dv_upper : bound }.

(** low[k] if it is an array, lines 49-54; latinhypercube_driver.py 74-79 *)
Definition entry_bound (b : bound) (k : nat) : res Q :=
  match b with
  | Scal q => Ok q
  | Arr l => match nth_error l k with Some q => Ok q | None => Err IndexError end
  end.

Fixpoint entries {A} (f : Q -> Q -> A) (v : dv) (ks : list nat) : res (list A) :=
  match ks with
  | [] => Ok []
  | k :: ks' =>
      let! low := entry_bound (dv_lower v) k in
      let! high := entry_bound (dv_upper v) k in
      let! rest := entries f v ks' in
      Ok (f low high :: rest)
  end.

Fixpoint map_res {A B} (f : A -> res B) (l : list A) : res (list B) :=
  match l with
  | [] => Ok []
  | x :: l' => let! y := f x in let! r := map_res f l' in Ok (y :: r)
  end.

(** a case: the values of each design variable, in order *)
Definition case : Type := list (string * list Q).

(** FullFactorialDriver._build_runlist, lines 38-64 *)
Definition full_factorial (num_levels : nat) (dvs : list dv) : res (list case) :=
  let! arrays := map_res (fun v => let! ls := entries (fun low high => linspace low high num_levels) v (seq 0 (dv_size v)) in
                                   Ok (product ls)) dvs in
  Ok (map (fun combination => combine (map dv_name dvs) combination) (product arrays)).

(** ** Latin hypercubes *)
(** a design: its columns *)
Definition design : Type := list (list nat).

(** _rand_latin_hypercube, lines 262-270; shuffles i is what shuffle(row) makes
    of row in pass i *)
Fixpoint rand_lhc (k : nat) (shuffles : nat -> list nat -> list nat) (i : nat) (row : list nat) : design :=
  match k with
  | 0 => []
  | S k' => let row' := shuffles i row in row' :: rand_lhc k' shuffles (S i) row'
  end.
Definition rand_latin_hypercube (n k : nat) (shuffles : nat -> list nat -> list nat) : design :=
  rand_lhc k shuffles 0 (seq 0 n).

Fixpoint set_at {A} (l : list A) (i : nat) (x : A) : list A :=
  match l, i with
  | [], _ => []
  | _ :: r, 0 => x :: r
  | y :: r, S i' => y :: set_at r i' x
  end.
Definition cell (d : design) (i j : nat) : nat := nth i (nth j d []) 0.
(** new_doe[i, j] = x *)
Definition set_cell (d : design) (i j x : nat) : design := set_at d j (set_at (nth j d []) i x).

(** the random numbers of one exchange: col, el1, and the successive el2 *)
Definition draw : Type := (nat * nat * list nat)%type.
(** while el1 == el2: draw again, lines 233-235; None when the draws are used up *)
Fixpoint other (el1 : nat) (draws : list nat) : option nat :=
  match draws with
  | [] => None
  | x :: r => if x =? el1 then other el1 r else Some x
  end.

(** perturb, lines 226-240: values are read from self.doe, not from new_doe *)
Fixpoint exchanges (mutation_count : nat) (doe new_doe : design) (draws : list draw) : option design :=
  match mutation_count, draws with
  | 0, _ => Some new_doe
  | S _, [] => None
  | S count, (col, el1, el2s) :: rest =>
      match other el1 el2s with
      | None => None
      | Some el2 =>
          let new1 := set_cell new_doe el1 col (cell doe el2 col) in
          let new2 := set_cell new1 el2 col (cell doe el1 col) in
          exchanges count doe new2 rest
      end
  end.
Definition perturb (mutation_count : nat) (doe : design) (draws : list draw) : option design :=
  exchanges mutation_count doe doe draws.

(** number of exchanges in a generation, lines 296-301; rnd is round() *)
Definition level_off (generations : nat) : nat := (17 * generations) / 20.
Definition mutations (rnd : Q -> Z) (cols generations it : nat) : nat :=
  let lo := level_off generations in
  if (it <? lo) && (1 <? lo) then
    Z.to_nat (rnd (1 + ((1 # 2) * inject_Z (Z.of_nat cols) - 1) * inject_Z (Z.of_nat (lo - it)) / inject_Z (Z.of_nat (lo - 1)))%Q)
  else 1.

Section Search.
  (** better a b: mmphi of a is less than mmphi of b *)
  Variable better : design -> design -> bool.
  Variable rnd : Q -> Z.
  (** draws it k: the random numbers of offspring k in generation it *)
  Variable draws : nat -> nat -> list draw.

  (** for offspring in range(population), lines 306-312 *)
  Fixpoint offspring (m it k count : nat) (best improved : design) : option design :=
    match count with
    | 0 => Some improved
    | S c =>
        match perturb m best (draws it k) with
        | None => None
        | Some x => offspring m it (S k) c best (if better x improved then x else improved)
        end
    end.

  (** for it in range(generations), lines 297-316 *)
  Fixpoint generations_loop (cols population generations it count : nat) (best : design) : option design :=
    match count with
    | 0 => Some best
    | S c =>
        match offspring (mutations rnd cols generations it) it 0 population best best with
        | None => None
        | Some improved => generations_loop cols population generations (S it) c (if better improved best then improved else best)
        end
    end.
  (** _mmlhs, lines 287-318; None when the random numbers are used up *)
  Definition mmlhs (start : design) (population generations : nat) : option design :=
    generations_loop (length start) population generations 0 generations start.
End Search.

(** OptimizedLatinHypercubeDriver._get_lhc, lines 158-172.  better q q' a b
    compares the criterion of a with exponent q and of b with exponent q' *)
Fixpoint best_of (better : nat -> nat -> design -> design -> bool) (rnd : Q -> Z) (draws : nat -> nat -> nat -> list draw)
         (start : design) (population generations : nat) (qs : list nat) (best : design) (bq : nat) : option design :=
  match qs with
  | [] => Some best
  | q :: qs' =>
      match mmlhs (better q q) rnd (draws q) start population generations with
      | None => None
      | Some opt => if better q bq opt best then best_of better rnd draws start population generations qs' opt q
                    else best_of better rnd draws start population generations qs' best bq
      end
  end.
Definition optimized_lhc better rnd draws (n k population generations : nat) shuffles : option design :=
  let start := rand_latin_hypercube n k shuffles in
  best_of better rnd draws start population generations [1; 2; 5; 10; 20; 50; 100] start 1.

(** _is_latin_hypercube, lines 273-284 *)
Fixpoint all_different (l : list nat) : bool :=
  match l with [] => true | x :: r => negb (existsb (Nat.eqb x) r) && all_different r end.
Definition is_latin_hypercube (d : design) : bool := forallb all_different d.

(** _get_buckets, lines 136-139 *)
Definition get_buckets (n : nat) (low high : Q) : list (Q * Q) :=
  let walls := linspace low high (n + 1) in combine (removelast walls) (tl walls).

(** [design_var_buckets[rand_lhc[i, j]] for i in range(n)], lines 82-83 *)
Definition chosen (n : nat) (buckets : list (Q * Q)) (column : list nat) : res (list (Q * Q)) :=
  map_res (fun i => match nth_error buckets (nth i column 0) with Some b => Ok b | None => Err IndexError end) (seq 0 n).

(** numpy.random.uniform(a, b) from a number u in [0, 1) *)
Definition uniform (b : Q * Q) (u : Q) : Q := (fst b + u * (snd b - fst b))%Q.

(** the loop over the design variables, lines 65-84: per variable, per entry, per
    sample a bucket.  cols are the remaining columns of the design *)
Fixpoint choose_buckets (n : nat) (bs : list (list (Q * Q))) (cols : design) : res (list (list (Q * Q)) * design) :=
  match bs with
  | [] => Ok ([], cols)
  | b :: bs' =>
      match cols with
      | [] => Err IndexError
      | c :: cols' => let! x := chosen n b c in let! r := choose_buckets n bs' cols' in Ok (x :: fst r, snd r)
      end
  end.
Fixpoint all_buckets (n : nat) (dvs : list dv) (cols : design) : res (list (string * list (list (Q * Q)))) :=
  match dvs with
  | [] => Ok []
  | v :: dvs' =>
      let! bs := entries (get_buckets n) v (seq 0 (dv_size v)) in
      let! r := choose_buckets n bs cols in
      let! rest := all_buckets n dvs' (snd r) in
      Ok ((dv_name v, fst r) :: rest)
  end.

(** lines 87-94; u i name k: the uniform random number *)
Definition lhc_runlist (n : nat) (dvs : list dv) (cols : design) (u : nat -> string -> nat -> Q) : res (list case) :=
  let! bs := all_buckets n dvs cols in
  Ok (map (fun i => map (fun nb : string * list (list (Q * Q)) =>
                           (fst nb, map (fun kb : nat * list (Q * Q) => uniform (nth i (snd kb) (0, 0)%Q) (u i (fst nb) (fst kb)))
                                        (combine (seq 0 (length (snd nb))) (snd nb)))) bs) (seq 0 n)).

(** mmphi (lines 188-218) for q = 1 and p = 1, in exact numbers: the sum over all
    pairs of rows of 1 / distance (equal distances are counted together) *)
Definition dist1 (d : design) (i j : nat) : nat :=
  fold_right (fun column s => (nth i column 0 - nth j column 0) + (nth j column 0 - nth i column 0) + s) 0 d.
Definition mmphi1 (n : nat) (d : design) : Q :=
  fold_right (fun i s => fold_right (fun j s' => / inject_Z (Z.of_nat (dist1 d i j)) + s')%Q s (seq 0 i)) 0%Q (seq 1 (n - 1)).

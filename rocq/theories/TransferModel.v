(** Model of openmdao/util/array_util.py (evenly_distrib_idxs, to_slice) and of
    openmdao/core/data_transfer.py (DataTransfer).

    Simplifications: vectors are lists of values of an arbitrary type; the two
    vectors of a transfer do not share memory (they never do); pass_by_obj
    transfers are left out. *)
From Verif Require Import Base.
Local Open Scope Z_scope.

(** evenly_distrib_idxs, array_util.py 23-54: sizes and offsets *)
Fixpoint offsets_from (start : Z) (sizes : list Z) : list Z :=
  match sizes with
  | [] => []
  | s :: rest => start :: offsets_from (start + s) rest
  end.

Definition evenly_distrib_idxs (num_divisions arr_size : Z) : res (list Z * list Z) :=
  if num_divisions =? 0 then Err ZeroDivisionError
  else
    let base := arr_size / num_divisions in
    let leftover := arr_size mod num_divisions in
    (* np.ones(num_divisions)*base; sizes[:leftover] += 1 *)
    let n := Z.to_nat num_divisions in
    let sizes := map (fun k => if Z.of_nat k <? leftover then base + 1 else base) (seq 0 n) in
    (* offsets[1:] = np.cumsum(sizes)[:-1] *)
    Ok (sizes, offsets_from 0 sizes).

(** A numpy index: slice(start, stop, step) or an index array. *)
Inductive isel : Type :=
| ISlice (start stop : Z) (step : option Z)
| IArr (l : list Z).

(** idxs[1:] - idxs[:-1] *)
Fixpoint diffs (l : list Z) : list Z :=
  match l with
  | a :: (b :: _) as l' => (b - a) :: diffs l'
  | _ => []
  end.

(** to_slice, array_util.py 56-77 *)
Definition to_slice (idxs : list Z) : isel :=
  match idxs with
  | [a] => ISlice a (a + 1) None
  | [] => IArr []
  | a :: b :: _ =>
      let stride := b - a in
      if stride <=? 0 then IArr idxs
      else if existsb (fun d => negb (d =? stride)) (diffs idxs) then IArr idxs
      else ISlice a (last idxs 0 + stride) (Some stride)
  end.

(** Index positions selected in a vector of length n; index arrays wrap
    negative entries and raise IndexError out of range, slices are clipped. *)
Definition norm_idx (n z : Z) : res nat :=
  let z' := if z <? 0 then z + n else z in
  if (z' <? 0) || (n <=? z') then Err IndexError else Ok (Z.to_nat z').

Fixpoint norm_all (n : Z) (l : list Z) : res (list nat) :=
  match l with
  | [] => Ok []
  | z :: l' => let! i := norm_idx n z in let! r := norm_all n l' in Ok (i :: r)
  end.

Definition clip (n z : Z) : Z :=
  let z' := if z <? 0 then z + n else z in
  if z' <? 0 then 0 else if n <? z' then n else z'.

(** start, start+step, ... : count elements *)
Fixpoint steps (start step : Z) (count : nat) : list nat :=
  match count with
  | O => []
  | S k => Z.to_nat start :: steps (start + step) step k
  end.

Definition resolve (n : Z) (s : isel) : res (list nat) :=
  match s with
  | IArr l => norm_all n l
  | ISlice start stop step =>
      let a := clip n start in
      let b := clip n stop in
      let st := match step with None => 1 | Some x => x end in
      if st =? 0 then Err ValueError
      else Ok (steps a st (Z.to_nat ((b - a + st - 1) / st)))   (* steps are positive here *)
  end.

(** one entry of self.scatters: source index, target index, src_unique *)
Definition scatter : Type := (isel * isel * bool)%type.

(** np.unique(srcs).size == srcs.size *)
Fixpoint nodupb (l : list Z) : bool :=
  match l with
  | [] => true
  | a :: l' => negb (existsb (Z.eqb a) l') && nodupb l'
  end.

Definition optZ_eqb (a b : option Z) : bool :=
  match a, b with
  | None, None => true
  | Some x, Some y => x =? y
  | _, _ => false
  end.

(** body of the loop, data_transfer.py 60-84 *)
Definition add_scatter (fwd : bool) (scatters : list scatter) (isrcs itgts : list Z) : list scatter :=
  let srcs := to_slice isrcs in
  let tgts := to_slice itgts in
  let src_unique := match fwd, srcs with
                    | false, IArr l => nodupb l
                    | _, _ => true
                    end in
  match rev scatters with
  | [] => [(srcs, tgts, src_unique)]
  | (olds, oldt, _) :: older =>
      match olds, oldt, srcs, tgts with
      | ISlice os oe ost, ISlice ots ote otst, ISlice s e st, ISlice ts te tst =>
          if (oe =? s) && (ote =? ts) && optZ_eqb ost st && optZ_eqb otst tst
          then rev older ++ [(ISlice os e st, ISlice ots te tst, src_unique)]
          else scatters ++ [(srcs, tgts, src_unique)]
      | _, _, _, _ => scatters ++ [(srcs, tgts, src_unique)]
      end
  end.

(** keyfunc: the first source (fwd) or target (rev) index; IndexError when the
    array is empty *)
Definition keyfunc (fwd : bool) (p : list Z * list Z) : res Z :=
  match (if fwd then fst p else snd p) with
  | [] => Err IndexError
  | a :: _ => Ok a
  end.

Fixpoint with_keys (fwd : bool) (l : list (list Z * list Z)) : res (list (Z * (list Z * list Z))) :=
  match l with
  | [] => Ok []
  | p :: l' => let! k := keyfunc fwd p in let! r := with_keys fwd l' in Ok ((k, p) :: r)
  end.

(** sorted(..., key=...): stable *)
Fixpoint insert_sorted {A} (x : Z * A) (l : list (Z * A)) : list (Z * A) :=
  match l with
  | [] => [x]
  | y :: l' => if fst x <=? fst y then x :: l else y :: insert_sorted x l'
  end.
Definition sort_pairs {A} (l : list (Z * A)) : list (Z * A) := fold_right insert_sorted [] l.

(** DataTransfer.__init__, data_transfer.py 40-86 *)
Definition make_scatters (fwd : bool) (src_idxs tgt_idxs : list (list Z)) : res (list scatter) :=
  let! keyed := with_keys fwd (combine src_idxs tgt_idxs) in
  Ok (fold_left (fun sc x => add_scatter fwd sc (fst (snd x)) (snd (snd x))) (sort_pairs keyed) []).

Section Vectors.
  Context {A : Type} (add : A -> A -> A).

  (** vec[positions] *)
  Fixpoint take (v : list A) (l : list nat) : res (list A) :=
    match l with
    | [] => Ok []
    | i :: l' => match nth_error v i with
                 | None => Err IndexError
                 | Some x => let! r := take v l' in Ok (x :: r)
                 end
    end.

  Fixpoint set_nth (v : list A) (i : nat) (x : A) : list A :=
    match v, i with
    | [], _ => []
    | _ :: v', O => x :: v'
    | y :: v', S i' => y :: set_nth v' i' x
    end.

  (** vec[positions] = values, in order; one value is broadcast, any other
      mismatch of lengths is a ValueError *)
  Fixpoint put_all (v : list A) (l : list nat) (xs : list A) : list A :=
    match l, xs with
    | i :: l', x :: xs' => put_all (set_nth v i x) l' xs'
    | _, _ => v
    end.

  Definition broadcast (n : nat) (xs : list A) : res (list A) :=
    if Nat.eqb (length xs) n then Ok xs
    else match xs with
         | [x] => Ok (repeat x n)
         | _ => Err ValueError
         end.

  Definition put (v : list A) (l : list nat) (xs : list A) : res (list A) :=
    let! ys := broadcast (length l) xs in Ok (put_all v l ys).

  Fixpoint zip_add (a b : list A) : list A :=
    match a, b with
    | x :: a', y :: b' => add x y :: zip_add a' b'
    | _, _ => []
    end.

  (** np.add.at(vec, positions, values): unbuffered *)
  Fixpoint add_at_all (v : list A) (l : list nat) (xs : list A) : list A :=
    match l, xs with
    | i :: l', x :: xs' =>
        match nth_error v i with
        | Some y => add_at_all (set_nth v i (add y x)) l' xs'
        | None => add_at_all v l' xs'
        end
    | _, _ => v
    end.

  Definition len (v : list A) : Z := Z.of_nat (length v).

  (** transfer, fwd, data_transfer.py 125-126: tgt[itgts] = src[isrcs] *)
  Definition fwd_one (src : list A) (tgt : list A) (s : scatter) : res (list A) :=
    let '(isrcs, itgts, _) := s in
    let! si := resolve (len src) isrcs in
    let! xs := take src si in
    let! ti := resolve (len tgt) itgts in
    put tgt ti xs.

  (** transfer, rev, data_transfer.py 114-118 *)
  Definition rev_one (tgt : list A) (src : list A) (s : scatter) : res (list A) :=
    let '(isrcs, itgts, src_unique) := s in
    let! ti := resolve (len tgt) itgts in
    let! xs := take tgt ti in
    let! si := resolve (len src) isrcs in
    if src_unique
    then (* src[isrcs] += tgt[itgts] *)
      let! ys := broadcast (length si) xs in
      let! old := take src si in
      Ok (put_all src si (zip_add old ys))
    else
      let! ys := broadcast (length si) xs in
      Ok (add_at_all src si ys).

  Fixpoint fold_res {B S} (f : S -> B -> res S) (s : S) (l : list B) : res S :=
    match l with
    | [] => Ok s
    | b :: l' => let! s' := f s b in fold_res f s' l'
    end.

  Definition transfer_fwd (scatters : list scatter) (src tgt : list A) : res (list A) :=
    fold_res (fwd_one src) tgt scatters.
  Definition transfer_rev (scatters : list scatter) (src tgt : list A) : res (list A) :=
    fold_res (rev_one tgt) src scatters.
End Vectors.

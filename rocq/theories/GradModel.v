(** Model of total derivatives by linear solves: openmdao/core/problem.py
    _calc_gradient_ln_solver 1482-1798, _get_voi_key 1800-1811,
    openmdao/core/vec_wrapper.py _get_local_idxs 527-567,
    openmdao/core/relevance.py vars_of_interest 84-103.

    Numbers are the elements of a ring.  One process; the mode is already chosen
    (C38); indep_list and unknown_list are lists of names; inactives is None (the
    Active area); scalers are numbers (array scalers: C13).  All derivative vectors
    are laid out like the vector of unknowns (those of a variable of interest hold
    only its relevant variables).  The linear solver, the relevance and the
    layout are given.  The linearization is part of the given solver. *)
From Verif Require Import Base.
Local Open Scope string_scope.
Local Open Scope nat_scope.
Local Open Scope list_scope.

Section Grad.
  Context {F : Type} (F0 F1 : F) (fmul : F -> F -> F) (fopp : F -> F).
  Notation vec := (nat -> F).

  (** p_len: the length of the vectors; p_var: first position and size of a
      variable; p_pois, p_qois: driver.desvars_of_interest() and
      outputs_of_interest(), as groups; p_poi, p_qoi: _poi_indices and
      _qoi_indices; p_lgs, p_reduce: root.ln_solver is a LinearGaussSeidel, its
      option single_voi_relevance_reduction; p_keys: the keys of root.dumat;
      p_rel: relevance.is_relevant; p_solve: root.ln_solver.solve for one key *)
  Record prob : Type := mkProb {
    p_len : nat;
    p_var : string -> option (nat * nat);
    p_pois : list (list string);
    p_qois : list (list string);
    p_poi : list (string * list Z);
    p_qoi : list (string * list Z);
    p_lgs : bool;
    p_reduce : bool;
    p_keys : option string -> bool;
    p_rel : option string -> string -> bool;
    p_solve : bool -> option string -> vec -> vec }.

  Fixpoint mapr {A B} (f : A -> res B) (l : list A) : res (list B) :=
    match l with
    | [] => Ok []
    | x :: l' => let! y := f x in let! r := mapr f l' in Ok (y :: r)
    end.
  Fixpoint foldr {A S} (f : S -> A -> res S) (l : list A) (s : S) : res S :=
    match l with
    | [] => Ok s
    | x :: l' => let! s' := f s x in foldr f l' s'
    end.
  Definition mem (l : list string) (x : string) : bool := existsb (String.eqb x) l.

  (** a position of an array of length n: negative ones count from its end *)
  Definition place (n : nat) (z : Z) : res nat :=
    if (0 <=? z)%Z then if (z <? Z.of_nat n)%Z then Ok (Z.to_nat z) else Err IndexError
    else if (- Z.of_nat n <=? z)%Z then Ok (Z.to_nat (Z.of_nat n + z)) else Err IndexError.

  (** _get_local_idxs; max of an empty array is a ValueError *)
  Definition local_idxs (p : prob) (idx : list (string * list Z)) (name : string) : res (list Z) :=
    match p_var p name with
    | None => Ok []
    | Some (start, size) =>
        match sget idx name with
        | Some l =>
            if size <? length l then Err RuntimeError
            else match l with
                 | [] => Err ValueError
                 | _ => if existsb (fun z => (Z.of_nat size <=? z)%Z) l then Err RuntimeError
                        else Ok (map (fun z => Z.of_nat start + z)%Z l)
                 end
        | None => Ok (map Z.of_nat (seq start size))
        end
    end.

  (** the number of entries of a variable in the Jacobian, lines 1587-1602 *)
  Definition entries (p : prob) (idx : list (string * list Z)) (name : string) : res nat :=
    match sget idx name with
    | Some l => Ok (length l)
    | None => match p_var p name with Some (_, size) => Ok size | None => Err KeyError end
    end.

  (** Jslices, lines 1582-1603: one dictionary for the rows and the columns *)
  Fixpoint slices (p : prob) (idx : list (string * list Z)) (names : list string) (start : nat)
           (acc : list (string * (nat * nat))) : res (nat * list (string * (nat * nat))) :=
    match names with
    | [] => Ok (start, acc)
    | n :: r => let! k := entries p idx n in slices p idx r (start + k) (sset acc n (start, start + k))
    end.

  (** an array of two dimensions *)
  Record arr : Type := mkArr { a_rows : nat; a_cols : nat; a_at : nat -> nat -> F }.
  Definition zeros (r c : nat) : arr := mkArr r c (fun _ _ => F0).
  Definition flip (J : arr) : arr := mkArr (a_cols J) (a_rows J) (fun i j => a_at J j i).
  (** J in forward mode, its transpose in reverse mode: J[i, a:b] is a column of
      the transpose *)
  Definition turn (fwd : bool) (J : arr) : arr := if fwd then J else flip J.

  (** J[a:b, c] = vals: the slice is cut at the end of the array; equal lengths, or
      one value for all *)
  Definition span (J : arr) (a b : nat) : nat := Nat.min b (a_rows J) - a.
  Definition put_col (J : arr) (a b c : nat) (vals : list F) : res arr :=
    if a_cols J <=? c then Err IndexError
    else
      let m := span J a b in
      let new (f : nat -> F) :=
        mkArr (a_rows J) (a_cols J) (fun i j => if (j =? c) && (a <=? i) && (i <? a + m) then f (i - a) else a_at J i j) in
      if length vals =? m then Ok (new (fun i => nth i vals F0))
      else match vals with [x] => Ok (new (fun _ => x)) | _ => Err ValueError end.
  (** J[a:b, c] *= s *)
  Definition scale_col (J : arr) (a b c : nat) (s : option F) : arr :=
    match s with
    | None => J
    | Some s =>
        mkArr (a_rows J) (a_cols J)
          (fun i j => if (j =? c) && (a <=? i) && (i <? a + span J a b) then fmul (a_at J i j) s else a_at J i j)
    end.

  (** one assignment into the array, lines 1776-1793 *)
  Definition array_put (fwd : bool) (sl : list (string * (nat * nat))) (in_scale un_scale : string -> option F)
             (J : arr) (item param : string) (i n : nat) (vals : list F) : res arr :=
    match sget sl item, sget sl param with
    | Some (a, b), Some (c, _) =>
        let! K := put_col (turn fwd J) a b (c + i) vals in
        Ok (turn fwd (scale_col (scale_col K a b (c + i) (in_scale param)) a b (c + i) (un_scale item)))
    | _, _ => Err KeyError
    end.

  (** one assignment into the dictionary, lines 1755-1774; n is len(in_idxs) *)
  Definition jdict : Type := list (string * list (string * option arr)).
  Definition dict_put (fwd : bool) (in_scale un_scale : string -> option F)
             (J : jdict) (item param : string) (i n : nat) (vals : list F) : res jdict :=
    let okey := if fwd then item else param in
    let ikey := if fwd then param else item in
    match sget J okey with
    | None => Err KeyError
    | Some row =>
        match sget row ikey with
        | None => Err KeyError
        | Some cell =>
            let K := match cell with Some K => turn fwd K | None => zeros (length vals) n end in
            let! K := put_col K 0 (a_rows K) i vals in
            let K := scale_col (scale_col K 0 (a_rows K) i (in_scale param)) 0 (a_rows K) i (un_scale item) in
            Ok (sset J okey (sset row ikey (Some (turn fwd K))))
        end
    end.

  (** _get_voi_key *)
  Definition voi_key (p : prob) (voi : string) (grp : list string) : option string :=
    if mem (concat (p_pois p) ++ concat (p_qois p)) voi && p_lgs p && ((1 <? length grp) || p_reduce p) then Some voi else None.

  Definition key_eqb (a b : option string) : bool :=
    match a, b with Some x, Some y => String.eqb x y | None, None => true | _, _ => false end.

  (** lines 1660-1687 for one member: the dictionary voi_idxs (its keys are those
      of rhs), old_size and in_idxs *)
  Definition alloc (p : prob) (idx : list (string * list Z)) (grp : list string)
             (s : list (option string * list Z) * option nat * list Z) (voi : string)
    : res (list (option string * list Z) * option nat * list Z) :=
    let '(d, old, _) := s in
    let key := voi_key p voi grp in
    if p_keys p key then
      let! l := local_idxs p idx voi in
      let! l := (match l with
                 | _ :: _ => Ok l
                 | [] => match sget idx voi with
                         | Some l => Ok l
                         | None => match p_var p voi with
                                   | Some (_, size) => Ok (map Z.of_nat (seq 0 size))
                                   | None => Err KeyError
                                   end
                         end
                 end) in
      match old with
      | Some k => if k =? length l then Ok (dset key_eqb d key l, old, l) else Err RuntimeError
      | None => Ok (dset key_eqb d key l, Some (length l), l)
      end
    else Err KeyError.

  (** a right hand side, lines 1709-1717 *)
  Definition seed (q : nat) : vec := fun k => if k =? q then fopp F1 else F0.

  Section Loops.
    Context {JT : Type} (put : JT -> string -> string -> nat -> nat -> list F -> res JT).
    Variable p : prob.
    Variable fwd : bool.
    Variable out_idx : list (string * list Z).          (* qoi_indices *)
    Variable skip : string -> string -> res bool.       (* param item: left out by sparsity *)

    (** lines 1726-1793 for one item; dx: the solution for the key *)
    Definition put_item (key : option string) (param : string) (i n : nat) (dx : vec) (J : JT) (item : string) : res JT :=
      let! s := skip param item in
      if s then Ok J
      else if p_rel p key item then
        let! zs := local_idxs p out_idx item in
        let! ks := mapr (place (p_len p)) zs in
        match ks with
        | [] => Ok J
        | _ => put J item param i n (map dx ks)
        end
      else
        let! k := entries p out_idx item in
        put J item param i n (repeat F0 k).

    (** lines 1720-1793 for one solution *)
    Definition put_solution (outputs grp : list string) (i n : nat) (J : JT) (kd : option string * vec) : res JT :=
      let param := match fst kd with Some v => v | None => hd "" grp end in
      foldr (put_item (fst kd) param i n (snd kd)) outputs J.

    (** one right hand side for each key, and the solutions, lines 1705-1719 *)
    Definition solutions (d : list (option string * list Z)) (i : nat) : res (list (option string * vec)) :=
      mapr (fun kl : option string * list Z =>
              match nth_error (snd kl) i with
              | None => Err IndexError
              | Some z => let! q := place (p_len p) z in Ok (fst kl, p_solve p fwd (fst kl) (seed q))
              end) d.

    (** for params in voi_sets, lines 1652-1793 *)
    Definition run_set (in_idx : list (string * list Z)) (outputs : list string) (J : JT) (grp : list string) : res JT :=
      let! s := foldr (alloc p in_idx grp) grp ([], None, []) in
      let '(d, _, last) := s in
      foldr (fun J i => let! dxs := solutions d i in foldr (put_solution outputs grp i (length last)) dxs J) (seq 0 (length last)) J.

    (** voi_sets, lines 1617-1644 *)
    Definition voi_sets (all_vois : list (list string)) (inputs : list string) : list (list string) :=
      filter (existsb (mem inputs)) all_vois ++
      map (fun v => [v]) (filter (fun v => negb (mem (concat all_vois) v)) inputs).

    Definition run_sets (in_idx : list (string * list Z)) (inputs outputs : list string) (J : JT) : res JT :=
      foldr (run_set in_idx outputs) (voi_sets (if fwd then p_pois p else p_qois p) inputs) J.
  End Loops.

  Definition never (a b : string) : res bool := Ok false.

  (** return_format='array' *)
  Definition gradient_array (p : prob) (fwd : bool) (indep unknown : list string) (dv_scale cn_scale : string -> option F) : res arr :=
    let! us := slices p (p_qoi p) unknown 0 [] in
    let! ps := slices p (p_poi p) indep 0 (snd us) in
    let J := zeros (fst us) (fst ps) in
    if fwd then run_sets (array_put true (snd ps) dv_scale cn_scale) p true (p_qoi p) never (p_poi p) indep unknown J
    else run_sets (array_put false (snd ps) cn_scale dv_scale) p false (p_poi p) never (p_qoi p) unknown indep J.

  (** sparsity[okey], lines 1571-1576 and 1729-1733 *)
  Definition listed (sparsity : option (list (string * list string))) (okey ikey : string) : res bool :=
    match sparsity with
    | None => Ok true
    | Some d => match sget d okey with Some l => Ok (mem l ikey) | None => Err KeyError end
    end.
  (** the initial dictionary, lines 1558-1578 *)
  Definition blank_row (sparsity : option (list (string * list string))) (okey : string) (indep : list string)
    : res (list (string * option arr)) :=
    foldr (fun row ikey => let! b := listed sparsity okey ikey in Ok (if b then sset row ikey None else row)) indep [].
  Definition blank (sparsity : option (list (string * list string))) (indep unknown : list string) : res jdict :=
    foldr (fun J okey => let! row := blank_row sparsity okey indep in Ok (sset J okey row)) unknown [].

  (** return_format='dict' *)
  Definition gradient_dict (p : prob) (fwd : bool) (indep unknown : list string) (dv_scale cn_scale : string -> option F)
             (sparsity : option (list (string * list string))) : res jdict :=
    let! J := blank sparsity indep unknown in
    if fwd then
      run_sets (dict_put true dv_scale cn_scale) p true (p_qoi p)
        (fun param item => let! b := listed sparsity item param in Ok (negb b)) (p_poi p) indep unknown J
    else
      run_sets (dict_put false cn_scale dv_scale) p false (p_poi p)
        (fun param item => let! b := listed sparsity param item in Ok (negb b)) (p_qoi p) unknown indep J.
End Grad.

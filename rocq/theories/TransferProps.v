(** Property theorems for index distribution and data transfer: C20-C22. *)
From Coq Require Import Ring_theory ZArithRing.
From Verif Require Import Base TransferModel TransferSpec TransferProofs.
Local Open Scope Z_scope.

(** C20: n chunks which exactly cover 0..size-1 *)
Theorem C20_covers : forall n size sizes offsets i, 1 <= n -> 0 <= size ->
    evenly_distrib_idxs n size = Ok (sizes, offsets) ->
    (0 <= i < size <-> exists k, in_chunk sizes offsets k i).
Proof. exact distrib_cover. Qed.
Print Assumptions C20_covers.

Theorem C20_no_overlap : forall n size sizes offsets i k k', 1 <= n -> 0 <= size ->
    evenly_distrib_idxs n size = Ok (sizes, offsets) ->
    in_chunk sizes offsets k i -> in_chunk sizes offsets k' i -> k = k'.
Proof. exact distrib_disjoint. Qed.
Print Assumptions C20_no_overlap.

(** sizes differ by at most one, larger first *)
Theorem C20_even : forall n size sizes offsets k k' s s', 1 <= n -> 0 <= size ->
    evenly_distrib_idxs n size = Ok (sizes, offsets) -> (k <= k')%nat ->
    nth_error sizes k = Some s -> nth_error sizes k' = Some s' -> s' <= s <= s' + 1.
Proof. exact distrib_even. Qed.
Print Assumptions C20_even.

(** the chunks are consecutive *)
Theorem C20_consecutive : forall n size sizes offsets k s o o', 1 <= n -> 0 <= size ->
    evenly_distrib_idxs n size = Ok (sizes, offsets) ->
    nth_error sizes k = Some s -> nth_error offsets k = Some o -> nth_error offsets (S k) = Some o' -> o' = o + s.
Proof. exact distrib_consecutive. Qed.
Print Assumptions C20_consecutive.

(** there is a result, with n sizes and n offsets *)
Theorem C20_total : forall n size, 1 <= n ->
    exists sizes offsets, evenly_distrib_idxs n size = Ok (sizes, offsets) /\
      length sizes = Z.to_nat n /\ length offsets = Z.to_nat n.
Proof. exact distrib_total. Qed.
Print Assumptions C20_total.

Example C20_ex : evenly_distrib_idxs 4 10 = Ok ([3; 3; 2; 2], [0; 3; 6; 8]) /\
                 evenly_distrib_idxs 3 2 = Ok ([1; 1; 0], [0; 1; 2]).
Proof. split; reflexivity. Qed.

(** C21: the forward transfer delivers every connected entry and leaves the
    other entries alone, for all index lists in range (the same scatters are
    built from fwd and rev lists).  Missing: empty index lists. *)
Theorem C21_forward_partial : forall A fwd conns (src tgt : list A),
    legal_conns (length src) (length tgt) conns -> targets_distinct conns ->
    exists sc tgt', make_scatters fwd (map fst conns) (map snd conns) = Ok sc /\
      transfer_fwd sc src tgt = Ok tgt' /\ length tgt' = length tgt /\
      (forall s t, In (s, t) (entries conns) -> nth_error tgt' (Z.to_nat t) = nth_error src (Z.to_nat s)) /\
      (forall j, ~ In (Z.of_nat j) (map snd (entries conns)) -> nth_error tgt' j = nth_error tgt j).
Proof. exact forward_correct. Qed.
Print Assumptions C21_forward_partial.

(** a connection without entries (an array of size 0) makes setup fail *)
Theorem C21_empty_refuted : forall fwd conns, (exists c, In c conns /\ fst c = [] /\ snd c = []) ->
    make_scatters fwd (map fst conns) (map snd conns) = Err IndexError.
Proof. exact empty_fails. Qed.
Print Assumptions C21_empty_refuted.

Example C21_ex :
  let conns := [([5; 3; 1; 1], [4; 5; 6; 7]); ([0; 2], [0; 1]); ([4; 6], [2; 3])] in
  legal_conns 8 9 conns /\ targets_distinct conns /\
  make_scatters true (map fst conns) (map snd conns)
  = Ok [(ISlice 0 8 (Some 2), ISlice 0 4 (Some 1), true); (IArr [5; 3; 1; 1], ISlice 4 8 (Some 1), true)] /\
  transfer_fwd [(ISlice 0 8 (Some 2), ISlice 0 4 (Some 1), true); (IArr [5; 3; 1; 1], ISlice 4 8 (Some 1), true)]
    [10; 11; 12; 13; 14; 15; 16; 17] [0; 0; 0; 0; 0; 0; 0; 0; 99] = Ok [10; 12; 14; 16; 15; 13; 11; 11; 99].
Proof.
  split; [|split; [|split; reflexivity]].
  - unfold legal_conns, in_range.
    repeat (apply Forall_cons || apply Forall_nil || split); simpl; try lia; discriminate.
  - unfold targets_distinct. simpl. repeat constructor; simpl; intuition discriminate.
Qed.

(** C22: over any commutative ring, the reverse transfer is the transpose of the
    forward one *)
Theorem C22_adjoint : forall R (r0 r1 : R) radd rmul rsub ropp,
    ring_theory r0 r1 radd rmul rsub ropp eq ->
    forall conns u p, legal_conns (length u) (length p) conns -> targets_distinct conns ->
      exists scf scr fu rp,
        make_scatters true (map fst conns) (map snd conns) = Ok scf /\
        make_scatters false (map fst conns) (map snd conns) = Ok scr /\
        transfer_fwd scf u (zeros r0 (length p)) = Ok fu /\
        transfer_rev radd scr (zeros r0 (length u)) p = Ok rp /\
        dot r0 radd rmul fu p = dot r0 radd rmul u rp.
Proof. exact @adjoint. Qed.
Print Assumptions C22_adjoint.

(** each source entry accumulates the values of all its targets, repeated
    indices included *)
Theorem C22_accumulates : forall R (r0 r1 : R) radd rmul rsub ropp,
    ring_theory r0 r1 radd rmul rsub ropp eq ->
    forall conns x p, legal_conns (length x) (length p) conns ->
      exists sc x', make_scatters false (map fst conns) (map snd conns) = Ok sc /\
        transfer_rev radd sc x p = Ok x' /\ length x' = length x /\
        forall j, (j < length x)%nat ->
          nth j x' r0 = radd (nth j x r0)
            (sum r0 radd (map (fun q => entry r0 p (snd q))
                            (filter (fun q => Z.eqb (fst q) (Z.of_nat j)) (entries conns)))).
Proof. exact @reverse_correct. Qed.
Print Assumptions C22_accumulates.

Example C22_ex :
  let conns := [([1; 1; 0], [0; 1; 2]); ([1], [3])] in
  legal_conns 2 4 conns /\ targets_distinct conns /\
  transfer_rev Z.add [(IArr [1; 1; 0], ISlice 0 3 (Some 1), false); (ISlice 1 2 None, ISlice 3 4 None, true)]
     [100; 200] [1; 2; 3; 4] = Ok [103; 207] /\
  ring_theory 0 1 Z.add Z.mul Z.sub Z.opp eq.
Proof.
  split; [|split; [|split; [reflexivity|exact Zth]]].
  - unfold legal_conns, in_range.
    repeat (apply Forall_cons || apply Forall_nil || split); simpl; try lia; discriminate.
  - unfold targets_distinct. simpl. repeat constructor; simpl; intuition discriminate.
Qed.

(** Data transfer between processes (C98). *)
From Coq Require Import Permutation.
From Verif Require Import Base DtrModel DtrSpec DtrProofs.
Local Open Scope string_scope.
Local Open Scope nat_scope.
Local Open Scope list_scope.

(** Forward: every process that has a target gets exactly the entries it takes from the whole
    source, in the order of its indices; nothing else changes.  For all worlds and whatever the
    order in which PETSc treats the entries. *)
Theorem C98_forward : forall {A : Type} (d : A) add w junk order name conns vu vp, shaped (u_sizes w) vu -> shaped (p_sizes w) vp -> NoDup (map c_p conns) ->
    (forall c, In c (xfer Fwd name conns) -> fwd_ok w c) -> (forall l, Permutation (order l) l) ->
    exists vp', transfer d add w junk order Fwd name conns vu vp = Ok (vu, vp') /\ shaped (p_sizes w) vp' /\
      (forall c r, In c (xfer Fwd name conns) -> r < nranks w -> p_local (P w r (c_p c)) = true ->
         value (p_sizes w) vp' r (c_p c) = map (fun k => nth k (whole w vu (c_u c)) d) (taken w r (c_p c))) /\
      (forall r p, ~ In p (map c_p (xfer Fwd name conns)) -> value (p_sizes w) vp' r p = value (p_sizes w) vp r p).
Proof. exact @fwd_main. Qed.
Print Assumptions C98_forward.

(** Backward: to every entry of every process's part or copy of a source are added the
    derivatives of the entries taken from it, once.  Partial: see the three conditions at the
    end of [rev_ok], without which it is false (below). *)
Theorem C98_reverse_partial : forall {A : Type} (zero : A) add, (forall x y, add x y = add y x) -> (forall x y z, add x (add y z) = add (add x y) z) -> (forall x, add zero x = x) ->
    forall w (given : conn -> bool) junk order name conns vu vp, shaped (u_sizes w) vu -> shaped (p_sizes w) vp ->
    (forall c, In c (xfer Rev name conns) -> rev_ok w c (given c)) -> (forall l, Permutation (order l) l) ->
    exists vu', transfer zero add w junk order Rev name conns vu vp = Ok (vu', vp) /\ shaped (u_sizes w) vu' /\
      forall r u k, r < nranks w -> k < cell (u_sizes w) r u ->
        nth k (value (u_sizes w) vu' r u) zero =
        add (nth k (value (u_sizes w) vu r u) zero) (total zero add (map (fun c => share zero add w (given c) vp c r k) (filter (fun c => c_u c =? u) (xfer Rev name conns)))).
Proof. intros A zero add C S Z w given. exact (rev_main zero add C S Z w given). Qed.
Print Assumptions C98_reverse_partial.

(** ** where the backward claim fails *)
Definition id_order (l : list (nat * nat)) : list (nat * nat) := l.
Definition c00 : conn := mkConn 0 0 "src" "tgt".
(** A source that every process has a copy of and a target with indices that every process has
    too: the lowest copy gets the derivative once per process, the others nothing.  (The same
    without indices is right.) *)
Definition w_copies (idx : option (list nat)) : world := mkWorld [[mkU true false 1]; [mkU true false 1]] [[mkP true idx 1]; [mkP true idx 1]].
Theorem C98_reverse_copies_refuted : forall d, transfer 0 Nat.add (w_copies (Some [0])) 0 id_order Rev "" [c00] [[0]; [0]] [[d]; [d]] = Ok ([[d + d]; [0]], [[d]; [d]]) /\
    transfer 0 Nat.add (w_copies None) 0 id_order Rev "" [c00] [[0]; [0]] [[d]; [d]] = Ok ([[d]; [d]], [[d]; [d]]).
Proof. intros d. split; reflexivity. Qed.
Print Assumptions C98_reverse_copies_refuted.

(** A spread source and a target without indices in a process that has no part of the source:
    the derivative is lost. *)
Definition w_apart : world := mkWorld [[mkU false true 0]; [mkU true true 1]; [mkU true true 1]] [[mkP true None 2]; [mkP false None 2]; [mkP false None 2]].
Theorem C98_reverse_lost_refuted : (forall vu d, shaped (u_sizes w_apart) vu -> transfer 0 Nat.add w_apart 0 id_order Rev "" [c00] vu [d; []; []] = Ok (vu, [d; []; []])) /\
    share 0 Nat.add w_apart false [[3; 5]; []; []] c00 1 0 = 3 /\ share 0 Nat.add w_apart false [[3; 5]; []; []] c00 2 0 = 5 /\
    fwd_ok w_apart c00.
Proof.
  split; [|split; [reflexivity|split; [reflexivity|]]].
  - intros vu d S. unfold transfer, shaped in *. destruct vu as [|[|? ?] [|[|b [|? ?]] [|[|c [|? ?]] [|? ?]]]]; try discriminate S. reflexivity.
  - unfold fwd_ok. split; [discriminate|]. split; [discriminate|]. intros r L Lp. destruct r as [|[|[|r]]]; try discriminate Lp; try (cbn in L; lia). split; [reflexivity|]. split; [reflexivity|]. intros k [<-|[<-|[]]]; cbn; lia.
Qed.
Print Assumptions C98_reverse_lost_refuted.

(** Indices that a component sets itself (setup_distrib) are set in the processes it runs in
    only (component.py 371-380); the others take it for a connection without indices and add
    the derivative to the first entries as well. *)
Definition w_inactive : world := mkWorld [[mkU true false 2]; [mkU false false 2]] [[mkP false None 1]; [mkP true (Some [1]) 1]].
Theorem C98_reverse_indices_refuted : forall d, transfer 0 Nat.add w_inactive 0 id_order Rev "" [c00] [[0; 0]; []] [[]; [d]] = Ok ([[d; d]; []], [[]; [d]]) /\
    transfer 0 Nat.add w_inactive 0 id_order Fwd "" [c00] [[7; 8]; []] [[]; [0]] = Ok ([[7; 8]; []], [[]; [8]]).
Proof. intros d. split; reflexivity. Qed.
Print Assumptions C98_reverse_indices_refuted.

(** Forward: in a process the source's component does not run in it is not known that the
    source is spread; the target gets the owner's part and whatever comes after it. *)
Definition w_unknown (known : bool) : world := mkWorld [[mkU true true 1; mkU true false 1]; [mkU true true 1; mkU true false 1]; [mkU false known 1; mkU true false 1]] [[mkP false None 2]; [mkP false None 2]; [mkP true None 2]].
Theorem C98_forward_unknown_refuted : forall a b x y z, transfer 0 Nat.add (w_unknown false) 0 id_order Fwd "" [c00] [[a; x]; [b; y]; [z]] [[]; []; [0; 0]] = Ok ([[a; x]; [b; y]; [z]], [[]; []; [a; x]]) /\
    transfer 0 Nat.add (w_unknown true) 0 id_order Fwd "" [c00] [[a; x]; [b; y]; [z]] [[]; []; [0; 0]] = Ok ([[a; x]; [b; y]; [z]], [[]; []; [a; b]]).
Proof. intros. split; reflexivity. Qed.
Print Assumptions C98_forward_unknown_refuted.

(** ** examples *)
(** two processes; unknown 0 spread (2 and 1 entries), unknown 1 a copy in both; parameter 0 takes
    entries of unknown 0 (crossing processes, one repeated), parameter 1 all of unknown 1 *)
Definition w_ex : world := mkWorld [[mkU true true 2; mkU true false 1]; [mkU true true 1; mkU true false 1]] [[mkP true (Some [2; 0]) 2; mkP true None 1]; [mkP true (Some [1; 2; 2]) 3; mkP true None 1]].
Definition c_ex : list conn := [mkConn 0 0 "src" "tgt"; mkConn 1 1 "src" "tgt"].
Local Ltac two r L := destruct r as [|[|r]]; try reflexivity; cbn in L; lia.
Example C98_ex_ok : (forall c, In c c_ex -> fwd_ok w_ex c) /\ (forall c, In c c_ex -> rev_ok w_ex c (c_u c =? 0)) /\
    shaped (u_sizes w_ex) [[10; 11; 5]; [12; 5]] /\ shaped (p_sizes w_ex) [[0; 0; 0]; [0; 0; 0; 0]] /\ NoDup (map c_p c_ex).
Proof.
  split; [|split; [|split; [reflexivity|split; [reflexivity|repeat constructor; cbn; intuition discriminate]]]].
  - intros c [<-|[<-|[]]]; (split; [discriminate|]); (split; [intros E; try discriminate E; exists 1; intros r L; two r L|]);
      intros r L Lp; (destruct r as [|[|r]]; [| |cbn in L; lia]); (split; [reflexivity|]); (split; [reflexivity|]); intros k I; cbn in I; intuition (subst; cbn; lia).
  - intros c [<-|[<-|[]]]; (split; [discriminate|]); (split; [discriminate|]); (split; [intros E; try discriminate E; exists 1; intros r L; two r L|]);
      (split; [intros r L; two r L|]); (split; [intros r L; two r L|]);
      (split; [intros r L Lp; (destruct r as [|[|r]]; [| |cbn in L; lia]); (split; [reflexivity|]); intros k I; cbn in I; intuition (subst; cbn; lia)|]);
      (split; [intros E; try discriminate E; intros r L; two r L|]); (split; [intros E1 E2; try discriminate E1; discriminate E2|]); intros E1 E2; try discriminate E1; discriminate E2.
Qed.
Example C98_ex_fwd : transfer 0 Nat.add w_ex 0 id_order Fwd "tgt" c_ex [[10; 11; 5]; [12; 6]] [[0; 0; 0]; [0; 0; 0; 0]] = Ok ([[10; 11; 5]; [12; 6]], [[12; 10; 5]; [11; 12; 12; 5]]).
Proof. vm_compute. reflexivity. Qed.
Example C98_ex_rev : transfer 0 Nat.add w_ex 0 (fun l => rev l) Rev "" c_ex [[0; 0; 0]; [100; 0]] [[1; 2; 3]; [4; 5; 6; 3]] = Ok ([[2; 4; 3]; [112; 3]], [[1; 2; 3]; [4; 5; 6; 3]]).
Proof. vm_compute. reflexivity. Qed.

(** Property theorems for total derivatives by linear solves: C73, C74. *)
From Coq Require Import Ring_theory.
From Verif Require Import Base GradModel LinModel LinSpec LinProofs LinProofs2 GradSpec GradProofs.
Local Open Scope string_scope.
Local Open Scope nat_scope.
Local Open Scope list_scope.

(** C73: if the linear solves find the total derivatives X, then the array holds
    exactly the requested ones, scaled, at the requested rows and columns *)
Theorem gradient_array_entries_partial : forall F (F0 F1 : F) fadd fmul fsub fopp, ring_theory F0 F1 fadd fmul fsub fopp eq ->
    forall p fwd indep unknown dv cn X, request_ok p fwd indep unknown ->
    (forall n, In n indep -> ~ In n unknown) -> finds F0 F1 fopp p fwd indep unknown X ->
    exists J, gradient_array F0 F1 fmul fopp p fwd indep unknown dv cn = Ok J /\ jacobian fmul p indep unknown dv cn X J.
Proof. exact @array_ok. Qed.
Print Assumptions gradient_array_entries_partial.

(** the dictionary: no condition on the names; pairs which are not in the sparsity
    dictionary have no entry *)
Theorem gradient_dict_entries_partial : forall F (F0 F1 : F) fadd fmul fsub fopp, ring_theory F0 F1 fadd fmul fsub fopp eq ->
    forall p fwd indep unknown dv cn sp X, request_ok p fwd indep unknown ->
    (forall u, In u unknown -> match sp with None => True | Some d => exists l, sget d u = Some l end) ->
    finds F0 F1 fopp p fwd indep unknown X ->
    exists J, gradient_dict F0 F1 fmul fopp p fwd indep unknown dv cn sp = Ok J /\ jacobian_dict fmul p indep unknown dv cn sp X J.
Proof. exact @dict_ok. Qed.
Print Assumptions gradient_dict_entries_partial.

(** C74: with a solver that solves the root's equations, and their transpose, both
    modes return the same Jacobian, that of the chain rule *)
Theorem modes_give_total_derivatives : forall F (F0 F1 : F) fadd fmul fsub fopp, ring_theory F0 F1 fadd fmul fsub fopp eq ->
    forall p (s : sys (F:=F)) indep unknown dv cn, wf s -> plain p -> inside p s (p_poi p) indep -> inside p s (p_qoi p) unknown ->
    exact F0 F1 fadd fmul fopp p s true -> exact F0 F1 fadd fmul fopp p s false ->
    (forall n, In n indep -> ~ In n unknown) ->
    exists X, total_derivatives F0 F1 fadd fmul fopp s X /\
      (forall Y, total_derivatives F0 F1 fadd fmul fopp s Y -> forall q k, In q (rows s) -> In k (rows s) -> Y k q = X k q) /\
      forall fwd, request_ok p fwd indep unknown ->
      exists J, gradient_array F0 F1 fmul fopp p fwd indep unknown dv cn = Ok J /\ jacobian fmul p indep unknown dv cn X J.
Proof.
  intros F F0 F1 fadd fmul fsub fopp Fth p s indep unknown dv cn Hw Hp Hi Ho Hf Hr Hd.
  destruct (exact_finds _ _ _ _ _ _ Fth p s indep unknown Hw Hp Hi Ho Hf Hr) as [HT HF].
  eexists. split; [exact HT|]. split.
  - intros Y HY q k Hq Hk. exact (derivatives_unique _ _ _ _ _ _ Fth p s _ _ Hw Hr HY HT q k Hq Hk).
  - intros fwd Hok. exact (array_ok _ _ _ _ _ _ Fth p fwd indep unknown dv cn _ Hok Hd (HF fwd)).
Qed.
Print Assumptions modes_give_total_derivatives.

(** in particular for a root group without feedback under LinearGaussSeidel *)
Theorem feed_forward_total_derivatives : forall F (F0 F1 : F) fadd fmul fsub fopp, ring_theory F0 F1 fadd fmul fsub fopp eq ->
    forall tiny, (forall v, tiny v = true -> Forall (fun x => x = F0) v) ->
    forall p ns ks subs indep unknown dv cn, let s : sys (F:=F) := Group ns None ks subs in
    wf s -> (forall fwd, feed_forward F0 F1 fadd fmul fopp fwd s) -> unscaled s -> swept F0 fadd fmul fopp fsub tiny p ns ks subs ->
    plain p -> inside p s (p_poi p) indep -> inside p s (p_qoi p) unknown -> (forall n, In n indep -> ~ In n unknown) ->
    exists X, total_derivatives F0 F1 fadd fmul fopp s X /\
      forall fwd, request_ok p fwd indep unknown ->
      exists J, gradient_array F0 F1 fmul fopp p fwd indep unknown dv cn = Ok J /\ jacobian fmul p indep unknown dv cn X J.
Proof.
  intros F F0 F1 fadd fmul fsub fopp Fth tiny Ht p ns ks subs indep unknown dv cn s Hw Hff Hun Hs Hp Hi Ho Hd.
  destruct (modes_give_total_derivatives _ F0 F1 fadd fmul fsub fopp Fth p s indep unknown dv cn Hw Hp Hi Ho) as [X [H1 [_ H2]]]; auto.
  - exact (swept_exact _ _ _ _ _ _ Fth tiny Ht p ns ks subs true Hw (Hff true) Hun Hs).
  - exact (swept_exact _ _ _ _ _ _ Fth tiny Ht p ns ks subs false Hw (Hff false) Hun Hs).
  - eauto.
Qed.
Print Assumptions feed_forward_total_derivatives.

(** ** concrete problems over the integers *)
Definition zat (X : list (list Z)) (k q : nat) : Z := nth q (nth k X []) 0%Z.
Definition zsum (n : nat) (f : nat -> Z) : Z := fold_right Z.add 0%Z (map f (seq 0 n)).
(** a solver which finds the derivatives X *)
Definition zprob (vars : list (string * (nat * nat))) (X : list (list Z)) (lgs reduce : bool) (pois qois : list (list string))
    (poi qoi : list (string * list Z)) (keys : option string -> bool) : prob :=
  mkProb (length X) (sget vars) pois qois poi qoi lgs reduce keys (fun _ _ => true)
    (fun fwd _ rhs k => (- zsum (length X) (fun q => (if fwd then zat X k q else zat X q k) * rhs q))%Z).
Notation zgrad := (gradient_array 0%Z 1%Z Z.mul Z.opp).
Notation zdict := (gradient_dict 0%Z 1%Z Z.mul Z.opp).
Definition entries_of (J : arr (F:=Z)) : list (list Z) := map (fun i => map (a_at J i) (seq 0 (a_cols J))) (seq 0 (a_rows J)).
Definition out_of (r : res (arr (F:=Z))) : res (list (list Z)) := let! J := r in Ok (entries_of J).
Definition noscale : string -> option Z := fun _ => None.

Lemma one_group : forall (p : prob (F:=Z)) idx inputs v, In v inputs -> group_ok p idx inputs [v].
Proof.
  intros p idx inputs v Hv _. split; [constructor; [intros []|constructor]|]. split; [intros a [<-|[]]; exact Hv|]. split; [left; simpl; lia|].
  intros a b [<-|[]] [<-|[]]. reflexivity.
Qed.
Lemma zprob_finds : forall vars X lgs reduce pois qois poi qoi keys fwd indep unknown,
    let p := zprob vars X lgs reduce pois qois poi qoi keys in
    (forall n, In n indep -> var_ok p poi n) -> (forall n, In n unknown -> var_ok p qoi n) ->
    finds 0%Z 1%Z Z.opp p fwd indep unknown (zat X).
Proof.
  intros vars X lgs reduce pois qois poi qoi keys fwd indep unknown p Hi Ho v q u k key Hv Hq Hu Hk _. simpl.
  assert (Hql : q < length X) by exact (wanted_range p poi v q (Hi v Hv) Hq).
  assert (Hkl : k < length X) by exact (wanted_range p qoi u k (Ho u Hu) Hk).
  assert (G : forall f n r, zsum n (fun j => f j * (if (j =? r)%nat then -1 else 0))%Z = if r <? n then (- f r)%Z else 0%Z).
  { intros f n r. unfold zsum. induction n as [|n IH]; [reflexivity|]. rewrite seq_S, map_app, fold_right_app. simpl.
    assert (Hf : forall l a, fold_right Z.add a l = (fold_right Z.add 0 l + a)%Z) by (induction l; intros; simpl; [lia|rewrite IHl; lia]).
    rewrite Hf. setoid_rewrite IH. destruct (Nat.ltb_spec r n), (Nat.ltb_spec r (S n)), (Nat.eqb_spec n r); subst; lia. }
  destruct fwd; unfold minus_unit; rewrite G.
  - replace (q <? length X) with true by (symmetry; now apply Nat.ltb_lt). lia.
  - replace (k <? length X) with true by (symmetry; now apply Nat.ltb_lt). lia.
Qed.

(** x: two entries, y: one, z: two; y = 2 x0 + 3 x1, z = (y, 5 x1) *)
Definition ex_vars : list (string * (nat * nat)) := [("x", (0, 2)); ("y", (2, 1)); ("z", (3, 2))].
Definition ex_X : list (list Z) := [[1; 0; 0; 0; 0]; [0; 1; 0; 0; 0]; [2; 3; 1; 0; 0]; [2; 3; 1; 1; 0]; [0; 5; 0; 0; 1]]%Z.
Definition ex_keys (k : option string) : bool := true.
Definition ex_p := zprob ex_vars ex_X true false [["x"]] [["z"]; ["y"]] [] [("z", [1%Z])] ex_keys.
Definition ex_dv (n : string) : option Z := if String.eqb n "x" then Some 10%Z else None.
Definition ex_cn (n : string) : option Z := if String.eqb n "y" then Some 100%Z else None.
Example gradient_ex : (forall fwd, request_ok ex_p fwd ["x"] ["z"; "y"]) /\
    (forall fwd, out_of (zgrad ex_p fwd ["x"] ["z"; "y"] ex_dv ex_cn) = Ok [[0; 50]; [2000; 3000]]%Z) /\
    (forall fwd, (let! J := zdict ex_p fwd ["x"] ["z"; "y"] ex_dv ex_cn (Some [("z", []); ("y", ["x"])]) in
                  Ok (map (fun r => (fst r, map (fun c => (fst c, option_map entries_of (snd c))) (snd r))) J)) =
       Ok [("z", []); ("y", [("x", Some [[2000; 3000]]%Z)])]).
Proof.
  split; [|split; intros []; vm_compute; reflexivity].
  assert (Hx : var_ok ex_p [] "x") by (exists 0, 2; repeat split; [simpl; lia|discriminate|discriminate|discriminate]).
  assert (Hy : var_ok ex_p (p_qoi ex_p) "y") by (exists 2, 1; repeat split; [simpl; lia|discriminate|discriminate|discriminate]).
  assert (Hz : var_ok ex_p (p_qoi ex_p) "z").
  { exists 3, 2. repeat split; [simpl; lia| | |]; inversion H; subst; [discriminate|simpl; lia|repeat constructor; lia]. }
  intros fwd. repeat split.
  - repeat constructor. intros [].
  - repeat constructor; simpl; intuition discriminate.
  - intros n [<-|[]]. exact Hx.
  - intros n [<-|[<-|[]]]; auto.
  - intros grp Hg. destruct fwd; simpl in Hg; [destruct Hg as [<-|[]]|destruct Hg as [<-|[<-|[]]]]; apply one_group; simpl; auto.
Qed.

(** ** where it fails *)
(** a variable on both sides: the rows of the array are confused with its columns;
    y = 3 x, derivatives of y and x with respect to x *)
Definition sh_X : list (list Z) := [[1; 0]; [3; 1]]%Z.
Definition sh_p := zprob [("x", (0, 1)); ("y", (1, 1))] sh_X false false [["x"]] [["y"]; ["x"]] [] [] ex_keys.
Theorem gradient_array_shared_refuted : request_ok sh_p true ["x"] ["y"; "x"] /\
    finds 0%Z 1%Z Z.opp sh_p true ["x"] ["y"; "x"] (zat sh_X) /\
    out_of (zgrad sh_p true ["x"] ["y"; "x"] noscale noscale) = Ok [[1]; [0]]%Z /\
    forall J, zgrad sh_p true ["x"] ["y"; "x"] noscale noscale = Ok J -> ~ jacobian Z.mul sh_p ["x"] ["y"; "x"] noscale noscale (zat sh_X) J.
Proof.
  assert (Hx : var_ok sh_p [] "x") by (exists 0, 1; repeat split; [simpl; lia|discriminate|discriminate|discriminate]).
  assert (Hy : var_ok sh_p [] "y") by (exists 1, 1; repeat split; [simpl; lia|discriminate|discriminate|discriminate]).
  split; [|split; [|split; [vm_compute; reflexivity|]]].
  - split; [|split; [|split; [|split; [|split; [reflexivity|split; [reflexivity|]]]]]].
    + repeat constructor. intros [].
    + repeat constructor; simpl; intuition discriminate.
    + intros n [<-|[]]. exact Hx.
    + intros n [<-|[<-|[]]]; auto.
    + intros grp [<-|[]]. apply one_group. simpl; auto.
  - apply zprob_finds; [intros n [<-|[]]; exact Hx|intros n [<-|[<-|[]]]; auto].
  - intros J E [_ [_ H]]. specialize (H 0 0 "y" 1 "x" 0 eq_refl eq_refl). vm_compute in E. inversion E; subst J. discriminate H.
Qed.
Print Assumptions gradient_array_shared_refuted.

(** a parallel group with a solver other than LinearGaussSeidel: one right hand
    side is used for all of its members; f = 2 a + 7 b gives df/da = 7 and no df/db *)
Definition pg_X : list (list Z) := [[1; 0; 0]; [0; 1; 0]; [2; 7; 1]]%Z.
Definition pg_p (lgs : bool) := zprob [("a", (0, 1)); ("b", (1, 1)); ("f", (2, 1))] pg_X lgs false [["a"; "b"]] [["f"]] [] [] ex_keys.
Theorem gradient_parallel_group_refuted :
    out_of (zgrad (pg_p true) true ["a"; "b"] ["f"] noscale noscale) = Ok [[2; 7]]%Z /\
    finds 0%Z 1%Z Z.opp (pg_p false) true ["a"; "b"] ["f"] (zat pg_X) /\
    out_of (zgrad (pg_p false) true ["a"; "b"] ["f"] noscale noscale) = Ok [[7; 0]]%Z.
Proof.
  split; [vm_compute; reflexivity|]. split; [|vm_compute; reflexivity].
  apply zprob_finds.
  - intros n [<-|[<-|[]]]; [exists 0, 1|exists 1, 1]; repeat split; try discriminate; simpl; lia.
  - intros n [<-|[]]; exists 2, 1; repeat split; try discriminate; simpl; lia.
Qed.
Print Assumptions gradient_parallel_group_refuted.

(** part of a parallel group cannot be requested *)
Theorem gradient_part_of_group_refuted : zgrad (pg_p true) true ["a"] ["f"] noscale noscale = Err KeyError /\
    zdict (pg_p true) true ["a"] ["f"] noscale noscale None = Err KeyError.
Proof. split; vm_compute; reflexivity. Qed.
Print Assumptions gradient_part_of_group_refuted.

(** a negative index reads the variable stored before *)
Definition ng_X : list (list Z) := [[1; 0; 0]; [3; 1; 0]; [5; 0; 1]]%Z.
Definition ng_p := zprob [("x", (0, 1)); ("y", (1, 1)); ("z", (2, 1))] ng_X true false [["x"]] [["z"]] [] [("z", [(-1)%Z])] ex_keys.
Theorem gradient_negative_index_refuted : out_of (zgrad ng_p true ["x"] ["z"] noscale noscale) = Ok [[3]]%Z.
Proof. vm_compute. reflexivity. Qed.
Print Assumptions gradient_negative_index_refuted.

(** with relevance reduction only the mode the problem was set up for can be used *)
Definition rl_keys (k : option string) : bool := match k with None => true | Some v => String.eqb v "x" end.
Definition rl_p := zprob [("x", (0, 1)); ("y", (1, 1))] sh_X true true [["x"]] [["y"]] [] [] rl_keys.
Theorem gradient_other_mode_refuted : out_of (zgrad rl_p true ["x"] ["y"] noscale noscale) = Ok [[3]]%Z /\
    zgrad rl_p false ["x"] ["y"] noscale noscale = Err KeyError.
Proof. split; vm_compute; reflexivity. Qed.
Print Assumptions gradient_other_mode_refuted.

(** ** C74: a feed-forward group of C29, solved by LinearGaussSeidel *)
Definition ff_p : prob :=
  mkProb 5 (sget [("x", (0, 1)); ("y", (1, 2)); ("z", (3, 1)); ("w", (4, 1))]) [["x"]] [["w"]] [] [] true false (fun _ => true) (fun _ _ => true)
    (fun fwd _ rhs => match zsweep fwd z_names z_ks z_subs rhs (z_st [] [] []) with
                      | Ok st => if fwd then du st else dr st
                      | Err _ => fun _ => 0%Z
                      end).
Lemma z_st_zero : forall k, du (z_st [] [] []) k = 0%Z /\ dp (z_st [] [] []) k = 0%Z.
Proof. intros k. split; destruct k; reflexivity. Qed.
Example feed_forward_ex : let s := Group z_names None z_ks z_subs in
    wf s /\ (forall fwd, feed_forward 0%Z 1%Z Z.add Z.mul Z.opp fwd s) /\ unscaled s /\
    swept 0%Z Z.add Z.mul Z.opp Z.sub zrest ff_p z_names z_ks z_subs /\ plain ff_p /\ inside ff_p s [] ["x"] /\ inside ff_p s [] ["w"; "y"] /\
    (forall fwd, request_ok ff_p fwd ["x"] ["w"; "y"]) /\
    (forall fwd, out_of (zgrad ff_p fwd ["x"] ["w"; "y"] noscale noscale) = Ok [[410]; [3]; [5]]%Z).
Proof.
  assert (Hx : var_ok ff_p [] "x") by (exists 0, 1; repeat split; [simpl; lia|discriminate|discriminate|discriminate]).
  assert (Hy : var_ok ff_p [] "y") by (exists 1, 2; repeat split; [simpl; lia|discriminate|discriminate|discriminate]).
  assert (Hw : var_ok ff_p [] "w") by (exists 4, 1; repeat split; [simpl; lia|discriminate|discriminate|discriminate]).
  split; [exact z_group_wf|]. split; [exact z_group_ff|]. split; [exact z_group_un|]. split; [|split; [|split; [|split; [|split]]]].
  - intros fwd rhs.
    assert (E : exists st', zsweep fwd z_names z_ks z_subs rhs (z_st [] [] []) = Ok st').
    { destruct fwd.
      - destruct (sweep_fwd _ _ _ _ _ _ Zth zrest zrest_zero z_names z_ks z_subs rhs (z_st [] [] []) z_group_wf (z_group_ff true)) as [st [E _]];
          [intros; apply z_st_zero|intros; apply z_st_zero|eauto].
      - destruct (sweep_rev _ _ _ _ _ _ Zth zrest zrest_zero z_names z_ks z_subs rhs (z_st [] [] []) z_group_wf (z_group_ff false) z_group_un) as [st [E _]]. eauto. }
    destruct E as [st' E]. exists (z_st [] [] []), st'. split; [intros; apply z_st_zero|]. split; [intros; apply z_st_zero|]. split; [exact E|].
    intros k _. unfold ff_p. cbn [p_solve]. rewrite E. destruct fwd; reflexivity.
  - split; [|reflexivity]. intros v [_ [_ [H|[grp [H [_ H2]]]]]]; [discriminate|]. simpl in H. destruct H as [<-|[<-|[]]]; simpl in H2; lia.
  - intros n k [<-|[]] H. simpl in *. intuition.
  - intros n k [<-|[<-|[]]] H; simpl in *; intuition.
  - intros fwd. repeat split.
    + repeat constructor. intros [].
    + repeat constructor; simpl; intuition discriminate.
    + intros n [<-|[]]. exact Hx.
    + intros n [<-|[<-|[]]]; auto.
    + intros grp Hg. destruct fwd; simpl in Hg; destruct Hg as [<-|[]]; apply one_group; simpl; auto.
  - intros []; vm_compute; reflexivity.
Qed.

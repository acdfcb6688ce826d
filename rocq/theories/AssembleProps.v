(** Property theorems for the assembled Jacobian of DirectSolver: C30. *)
From Coq Require Import Ring_theory.
From Verif Require Import Base LinModel LinSpec LinProofs LinProofs2 AssembleModel AssembleSpec AssembleProofs.
Local Open Scope string_scope.
Local Open Scope nat_scope.
Local Open Scope list_scope.

(** the matrix obtained by products with unit vectors is the linear operator of the
    system, in both modes, for every system *)
Theorem mvp_operator : forall F (F0 F1 : F) fadd fmul fsub fopp, ring_theory F0 F1 fadd fmul fsub fopp eq ->
    forall (fwd : bool) s, wf s -> forall st, (fwd = true -> forall t, In t (outside_params s) -> dp st t = F0) ->
    exists m st', assemble_mvp F0 F1 fadd fmul fsub fwd s st = Ok (m, st') /\
      forall x st2, (fwd = true -> forall t, In t (outside_params s) -> dp st2 t = F0) ->
      exists r st3, mult F0 fadd fmul fsub fwd s x st2 = Ok (r, st3) /\
        forall i, In i (rows s) -> r i = inner F0 fadd fmul (rows s) (m i) x.
Proof.
  intros F F0 F1 fadd fmul fsub fopp Fth fwd s Hw st Hz.
  destruct (mvp_dense _ _ _ _ _ _ Fth fwd s Hw st Hz) as [m [st' [E R]]]. exists m, st'. split; [exact E|].
  intros x st2 Hz2. destruct (mult_dense _ _ _ _ _ _ Fth fwd s Hw x st2 Hz2) as [r [st3 [E2 R2]]].
  exists r, st3. split; [exact E2|]. intros i Hi. rewrite R2 by exact Hi. apply total_ext. intros j Hj. now rewrite R.
Qed.
Print Assumptions mvp_operator.

(** the assembled Jacobian of an assemblable group is the same matrix *)
Theorem assemble_operator_partial : forall F (F0 F1 : F) fadd fmul fsub fopp, ring_theory F0 F1 fadd fmul fsub fopp eq ->
    forall (fwd : bool) s nm subs, wf s -> assemblable nm subs s ->
    exists m ca, assemble F0 F1 fopp fwd nm subs [] = Ok (m, ca) /\
      (forall st, (fwd = true -> forall t, In t (outside_params s) -> dp st t = F0) ->
       exists m2 st2, assemble_mvp F0 F1 fadd fmul fsub fwd s st = Ok (m2, st2) /\
         forall i j, In i (rows s) -> In j (rows s) -> m i j = m2 i j) /\
      (forall x st, (fwd = true -> forall t, In t (outside_params s) -> dp st t = F0) ->
       exists r st2, mult F0 fadd fmul fsub fwd s x st = Ok (r, st2) /\
         forall i, In i (rows s) -> r i = inner F0 fadd fmul (rows s) (m i) x).
Proof.
  intros F F0 F1 fadd fmul fsub fopp Fth fwd s nm subs Hw Ha.
  assert (Hsub : exists m ca, assemble F0 F1 fopp fwd nm subs [] = Ok (m, ca) /\
            forall a b, In a (rows s) -> cell fwd m a b = dense F0 fadd (sys_mat F1 fmul fopp None s) a b).
  { exact (assemble_fresh _ _ _ _ _ _ Fth s nm subs Hw Ha fwd). }
  destruct Hsub as [m [ca [E R]]]. exists m, ca. split; [exact E|].
  assert (R' : forall i j, In i (rows s) -> In j (rows s) -> m i j = cell fwd (dense F0 fadd (sys_mat F1 fmul fopp None s)) i j).
  { intros i j Hi Hj. destruct fwd; unfold cell in *; now apply R. }
  split.
  - intros st Hz. destruct (mvp_dense _ _ _ _ _ _ Fth fwd s Hw st Hz) as [m2 [st2 [E2 R2]]]. exists m2, st2.
    split; [exact E2|]. intros i j Hi Hj. now rewrite R2, R'.
  - intros x st Hz. destruct (mult_dense _ _ _ _ _ _ Fth fwd s Hw x st Hz) as [r [st2 [E2 R2]]]. exists r, st2.
    split; [exact E2|]. intros i Hi. rewrite R2 by exact Hi. apply total_ext. intros j Hj. now rewrite R'.
Qed.
Print Assumptions assemble_operator_partial.

(** the cache of spans is transparent: whatever Jacobians were assembled before, in
    whatever mode, a call gives what it would give with an empty cache *)
Definition calls {F} (F0 F1 : F) fopp (nm : naming) :=
  fix go (l : list (bool * list (string * comp (F:=F)))) (ca : icache) : list (res (table (F:=F))) :=
    match l with
    | [] => []
    | (fwd, subs) :: l' =>
        match assemble F0 F1 fopp fwd nm subs ca with
        | Ok (m, ca') => Ok m :: go l' ca'
        | Err e => [Err e]
        end
    end.
Theorem assemble_cached : forall F (F0 F1 : F) fopp nm sof l,
    (forall fwd subs, In (fwd, subs) l -> forall a, In a subs -> states_of (snd a) = sof (fst a)) ->
    forall n r, nth_error (calls F0 F1 fopp nm l []) n = Some r ->
    exists fwd subs, nth_error l n = Some (fwd, subs) /\
      r = match assemble F0 F1 fopp fwd nm subs [] with Ok (m, _) => Ok m | Err e => Err e end.
Proof.
  intros F F0 F1 fopp nm sof l Hl.
  assert (H0 : cache_ok nm sof []) by (intros p o i sp H; discriminate).
  assert (Hc : forall ca, cache_ok nm sof ca -> forall fwd subs, (forall a, In a subs -> states_of (snd a) = sof (fst a)) ->
             match assemble F0 F1 fopp fwd nm subs ca with
             | Ok (m, ca') => cache_ok nm sof ca' /\ exists c0, assemble F0 F1 fopp fwd nm subs [] = Ok (m, c0)
             | Err e => assemble F0 F1 fopp fwd nm subs [] = Err e
             end).
  { intros ca Hca fwd subs Hs. pose proof (put_comps_same fwd nm sof subs (minus_eye F0 F1 fopp) ca Hca Hs) as K1.
    pose proof (put_comps_same fwd nm sof subs (minus_eye F0 F1 fopp) [] H0 Hs) as K2. unfold assemble.
    destruct (pure_comps fwd nm subs (minus_eye F0 F1 fopp)) as [m|e]; cbn [same] in K1, K2.
    - destruct K1 as [c1 [-> C1]]. destruct K2 as [c2 [-> _]]. eauto.
    - rewrite K1. exact K2. }
  assert (G : forall ca, cache_ok nm sof ca -> forall n r, nth_error (calls F0 F1 fopp nm l ca) n = Some r ->
    exists fwd subs, nth_error l n = Some (fwd, subs) /\
      r = match assemble F0 F1 fopp fwd nm subs [] with Ok (m, _) => Ok m | Err e => Err e end).
  { induction l as [|[fwd subs] l IH]; intros ca Hca n r H; cbn [calls] in H; [destruct n; discriminate|].
    specialize (Hc ca Hca fwd subs (Hl fwd subs (or_introl eq_refl))).
    destruct (assemble F0 F1 fopp fwd nm subs ca) as [[m ca']|e].
    - destruct Hc as [Hca' [c0 E0]]. destruct n as [|n]; cbn [nth_error] in *.
      + injection H as <-. exists fwd, subs. split; [reflexivity|]. now rewrite E0.
      + apply (IH (fun f s0 Hin => Hl f s0 (or_intror Hin)) ca' Hca' n r H).
    - destruct n as [|n]; cbn [nth_error] in *; [|destruct n; discriminate].
      injection H as <-. exists fwd, subs. split; [reflexivity|]. now rewrite Hc. }
  exact (G [] H0).
Qed.
Print Assumptions assemble_cached.

(** *** models over the integers *)
Notation zasm := (assemble 0%Z 1%Z Z.opp).
Notation zmvp := (assemble_mvp 0%Z 1%Z Z.add Z.mul Z.sub).
Definition shown (n : nat) {A} (r : res (table (F:=Z) * A)) : res (list (list Z)) :=
  match r with Ok (m, _) => Ok (map (fun i => map (m i) (seq 0 n)) (seq 0 n)) | Err e => Err e end.

(** x (2 entries); group g with a: y = f(x, s) and b with state s and parameter y *)
Definition q_i : list (uvar (F:=Z)) := [out "x" 0 2].
Definition q_a : comp (F:=Z) := mkC [par "x" 0 2; par "s" 3 1] [out "y" 2 1] false
  (Some [(("y", "x"), zmat 1 2 [3; 5]%Z); (("y", "s"), zmat 1 1 [2]%Z)]) None.
Definition q_b : comp (F:=Z) := mkC [par "y" 2 1] [sta "s" 3 1] false
  (Some [(("s", "s"), zmat 1 1 [4]%Z); (("s", "y"), zmat 1 1 [7]%Z)]) None.
Definition q_sys : sys (F:=Z) := Group ["x"; "g.y"; "g.s"] None [mkK 0 0 1 0; mkK 0 1 1 1]
  [Indep q_i; Group ["y"; "s"] None [mkK 0 2 1 2; mkK 1 3 0 3] [Comp q_a; Comp q_b]].
Definition q_names : naming := mkN
  [("p.x", "x"); ("g.a.x", "x"); ("g.a.s", "g.a.s"); ("g.a.y", "g.y"); ("g.b.y", "g.y"); ("g.b.s", "g.s")]
  [("x", (0, 2)); ("g.y", (2, 3)); ("g.s", (3, 4))] [("g.a.s", "g.b.s"); ("g.a.x", "p.x"); ("g.b.y", "g.a.y")].
Definition q_subs : list (string * comp (F:=Z)) := [("p", mkC [] q_i false (Some []) None); ("g.a", q_a); ("g.b", q_b)].

Lemma q_wf : wf q_sys.
Proof.
  assert (wf_comp q_a) by wfc. assert (wf_comp q_b) by wfc.
  assert (wf (Indep q_i)) by (split; [nodup|repeat constructor]).
  assert (wf (Group ["y"; "s"] None [mkK 0 2 1 2; mkK 1 3 0 3] [Comp q_a; Comp q_b])).
  { split; [nodup|]. split; [nodup|]. split; [nodup|]. split; [intros k Hk; simpl in *; tauto|]. split; [intros k Hk; simpl in *; tauto|].
    cbn; auto. }
  split; [nodup|]. split; [nodup|]. split; [nodup|]. split; [intros k Hk; simpl in *; tauto|]. split; [intros k Hk; simpl in *; tauto|].
  cbn; auto.
Qed.
Ltac pairs := repeat first [apply FOP_nil | apply FOP_cons; [repeat first [apply Forall_nil | apply Forall_cons; [intros i j [H1 H2] [H3 H4]; cbn in *; intuition congruence|]]|]].
Lemma q_assemblable : assemblable q_names q_subs q_sys.
Proof.
  split; [cbn; tauto|]. split; [nodup|]. cbn [leaves q_sys flat_map app].
  constructor; [|constructor; [|constructor; [|constructor]]]; (split; [reflexivity|]); cbn [fst snd]; split.
  - split; [intros u [<-|[]]; eexists; split; reflexivity | intros p []].
  - split; [right; repeat constructor|]. intros l E. injection E as <-. split; [intros k []|]. split; [constructor|].
    intros u [<-|[]] i _. intros k [].
  - split; [intros u [<-|[]]; eexists; split; reflexivity|]. intros p [<-|[<-|[]]]; left.
    + exists 0. split; [left; eexists; split; reflexivity|]. intros [|[|i]] Hi; cbn in *; [reflexivity|reflexivity|lia].
    + exists 3. split; [right; split; [eexists; split; reflexivity|]; eexists; split; [reflexivity|]; eexists; split; reflexivity|].
      intros [|i] Hi; cbn in *; [reflexivity|lia].
  - split; [right; repeat constructor|]. intros l E. injection E as <-. split; [|split].
    + intros k [<-|[<-|[]]]; (split; [cbn; discriminate|right; cbn; discriminate]).
    + pairs.
    + intros u [<-|[]] i [<-|[]]. intros k [<-|[<-|[]]] [H1 H2]; cbn in *; intuition congruence.
  - split; [intros u [<-|[]]; eexists; split; reflexivity|]. intros p [<-|[]]; left.
    exists 2. split; [left; eexists; split; reflexivity|]. intros [|i] Hi; cbn in *; [reflexivity|lia].
  - split; [right; repeat constructor|]. intros l E. injection E as <-. split; [|split].
    + intros k [<-|[<-|[]]]; (split; [cbn; discriminate|]); [left|right]; cbn; discriminate.
    + pairs.
    + intros u [<-|[]] i [<-|[]]. eexists. split; [left; reflexivity|]. split; cbn; auto.
Qed.

Example assemble_ex : wf q_sys /\ assemblable q_names q_subs q_sys /\
    shown 4 (zasm true q_names q_subs []) = Ok [[-1; 0; 0; 0]; [0; -1; 0; 0]; [3; 5; -1; 2]; [0; 0; 7; 4]]%Z /\
    shown 4 (zmvp true q_sys (z_st [] [] [])) = Ok [[-1; 0; 0; 0]; [0; -1; 0; 0]; [3; 5; -1; 2]; [0; 0; 7; 4]]%Z /\
    shown 4 (zasm false q_names q_subs []) = Ok [[-1; 0; 3; 0]; [0; -1; 5; 0]; [0; 0; -1; 7]; [0; 0; 2; 4]]%Z /\
    shown 4 (zmvp false q_sys (z_st [] [] [])) = Ok [[-1; 0; 3; 0]; [0; -1; 5; 0]; [0; 0; -1; 7]; [0; 0; 2; 4]]%Z.
Proof. split; [exact q_wf|]. split; [exact q_assemblable|]. vm_compute. auto. Qed.
Example assemble_cached_ex :
    map (fun r => match r with Ok m => shown 4 (Ok (m, tt)) | Err e => Err e end)
        (calls 0%Z 1%Z Z.opp q_names [(true, q_subs); (false, q_subs)] []) =
    [Ok [[-1; 0; 0; 0]; [0; -1; 0; 0]; [3; 5; -1; 2]; [0; 0; 7; 4]]; Ok [[-1; 0; 3; 0]; [0; -1; 5; 0]; [0; 0; -1; 7]; [0; 0; 2; 4]]]%Z.
Proof. vm_compute. reflexivity. Qed.

(** *** without the conditions the two methods differ *)

(** x -> c.p, y = 3 p: two positions *)
Definition two (p : pvar (F:=Z)) (y : uvar (F:=Z)) (J : list (string * string * mat (F:=Z))) : comp (F:=Z) := mkC [p] [y] false (Some J) None.
Definition two_sys (c : comp (F:=Z)) : sys (F:=Z) := Group ["p.x"; "c.y"] None [mkK 0 0 1 0] [Indep [out "x" 0 1]; Comp c].
Definition two_names : naming := mkN [("p.x", "p.x"); ("c.p", "c.p"); ("c.y", "c.y")] [("p.x", (0, 1)); ("c.y", (1, 2))] [("c.p", "p.x")].
Definition two_subs (c : comp (F:=Z)) : list (string * comp (F:=Z)) := [("p", mkC [] [out "x" 0 1] false (Some []) None); ("c", c)].
Lemma two_wf : forall p y J, wf_comp (two p y J) -> pcells [p] = [0] -> ucells [y] = [1] -> wf (two_sys (two p y J)).
Proof.
  intros p y J H Hp Hy. cbn. unfold LinSpec.pcells, ucells in *. cbn in Hp, Hy. rewrite !app_nil_r in *. rewrite Hp, Hy. cbn.
  split; [nodup|]. split; [nodup|]. split; [nodup|]. split; [intros k Hk; simpl in *; tauto|]. split; [intros k Hk; simpl in *; tauto|].
  split; [split; [nodup|repeat constructor]|]. split; [exact H|exact I].
Qed.

(** a unit conversion and a resid_scaler are left out *)
Theorem assemble_units_refuted : exists c, wf (two_sys c) /\
    shown 2 (zasm true two_names (two_subs c) []) = Ok [[-1; 0]; [3; -1]]%Z /\
    shown 2 (zmvp true (two_sys c) (z_st [] [] [])) = Ok [[-1; 0]; [30; -1]]%Z.
Proof.
  exists (two (mkP "p" 0 1 (Some 10%Z)) (out "y" 1 1) [(("y", "p"), zmat 1 1 [3]%Z)]).
  split; [apply two_wf; [wfc|reflexivity|reflexivity]|]. vm_compute. auto.
Qed.
Print Assumptions assemble_units_refuted.
Theorem assemble_scaler_refuted : exists c, wf (two_sys c) /\
    shown 2 (zasm true two_names (two_subs c) []) = Ok [[-1; 0]; [3; -1]]%Z /\
    shown 2 (zmvp true (two_sys c) (z_st [] [] [])) = Ok [[-1; 0]; [15; -1]]%Z.
Proof.
  exists (two (par "p" 0 1) (mkU "y" 1 1 false (Some 5%Z)) [(("y", "p"), zmat 1 1 [3]%Z)]).
  split; [apply two_wf; [wfc|reflexivity|reflexivity]|]. vm_compute. auto.
Qed.
Print Assumptions assemble_scaler_refuted.

(** a state without a key of its own keeps the -1 of an output *)
Theorem assemble_state_refuted : exists c, wf (two_sys c) /\
    shown 2 (zasm true two_names (two_subs c) []) = Ok [[-1; 0]; [3; -1]]%Z /\
    shown 2 (zmvp true (two_sys c) (z_st [] [] [])) = Ok [[-1; 0]; [3; 0]]%Z.
Proof.
  exists (two (par "p" 0 1) (sta "y" 1 1) [(("y", "p"), zmat 1 1 [3]%Z)]).
  split; [apply two_wf; [wfc|reflexivity|reflexivity]|]. vm_compute. auto.
Qed.
Print Assumptions assemble_state_refuted.

(** a key that is no variable of the component is ignored by the products and is a
    KeyError for 'assemble' *)
Theorem assemble_key_refuted : exists c, wf (two_sys c) /\
    shown 2 (zasm true two_names (two_subs c) []) = Err KeyError /\
    shown 2 (zmvp true (two_sys c) (z_st [] [] [])) = Ok [[-1; 0]; [3; -1]]%Z.
Proof.
  exists (two (par "p" 0 1) (out "y" 1 1) [(("y", "p"), zmat 1 1 [3]%Z); (("y", "old"), zmat 1 1 [8]%Z)]).
  split; [apply two_wf; [wfc|reflexivity|reflexivity]|]. vm_compute. auto.
Qed.
Print Assumptions assemble_key_refuted.

(** source indices are not looked at: the derivative with respect to x[1] is put in
    both columns *)
Definition idx_c : comp (F:=Z) := two (par "p" 0 1) (out "y" 2 1) [(("y", "p"), zmat 1 1 [3]%Z)].
Definition idx_sys : sys (F:=Z) := Group ["p.x"; "c.y"] None [mkK 0 1 1 0] [Indep [out "x" 0 2]; Comp idx_c].
Definition idx_names : naming := mkN [("p.x", "p.x"); ("c.p", "c.p"); ("c.y", "c.y")] [("p.x", (0, 2)); ("c.y", (2, 3))] [("c.p", "p.x")].
Theorem assemble_indices_refuted : wf idx_sys /\
    shown 3 (zasm true idx_names [("p", mkC [] [out "x" 0 2] false (Some []) None); ("c", idx_c)] []) =
      Ok [[-1; 0; 0]; [0; -1; 0]; [3; 3; -1]]%Z /\
    shown 3 (zmvp true idx_sys (z_st [] [] [])) = Ok [[-1; 0; 0]; [0; -1; 0]; [0; 3; -1]]%Z.
Proof.
  split; [|vm_compute; auto]. assert (wf_comp idx_c) by wfc.
  split; [nodup|]. split; [nodup|]. split; [nodup|]. split; [intros k Hk; simpl in *; tauto|]. split; [intros k Hk; simpl in *; tauto|].
  split; [split; [nodup|repeat constructor]|]. split; [assumption|exact I].
Qed.
Print Assumptions assemble_indices_refuted.

(** two parameters with one source: the second block replaces the first; their sum is
    right *)
Definition dup_c : comp (F:=Z) := mkC [par "p" 0 1; par "q" 1 1] [out "y" 1 1] false
  (Some [(("y", "p"), zmat 1 1 [3]%Z); (("y", "q"), zmat 1 1 [4]%Z)]) None.
Definition dup_sys : sys (F:=Z) := Group ["p.x"; "c.y"] None [mkK 0 0 1 0; mkK 0 0 1 1] [Indep [out "x" 0 1]; Comp dup_c].
Definition dup_names : naming := mkN [("p.x", "p.x"); ("c.p", "c.p"); ("c.q", "c.q"); ("c.y", "c.y")] [("p.x", (0, 1)); ("c.y", (1, 2))]
  [("c.p", "p.x"); ("c.q", "p.x")].
Theorem assemble_two_params_refuted : wf dup_sys /\
    shown 2 (zasm true dup_names (two_subs dup_c) []) = Ok [[-1; 0]; [4; -1]]%Z /\
    shown 2 (zmvp true dup_sys (z_st [] [] [])) = Ok [[-1; 0]; [7; -1]]%Z.
Proof.
  split; [|vm_compute; auto]. assert (wf_comp dup_c) by wfc.
  split; [nodup|]. split; [nodup|]. split; [nodup|]. split; [intros k Hk; simpl in *; tauto|]. split; [intros k Hk; simpl in *; tauto|].
  split; [split; [nodup|repeat constructor]|]. split; [assumption|exact I].
Qed.
Print Assumptions assemble_two_params_refuted.

(** an output connected to a parameter of its own component: the -1 of the output is
    replaced *)
Definition self_c : comp (F:=Z) := two (par "p" 0 1) (out "y" 0 1) [(("y", "p"), zmat 1 1 [3]%Z)].
Definition self_sys : sys (F:=Z) := Group ["c.y"] None [mkK 0 0 0 0] [Comp self_c].
Theorem assemble_self_refuted : wf self_sys /\
    shown 1 (zasm true (mkN [("c.p", "c.p"); ("c.y", "c.y")] [("c.y", (0, 1))] [("c.p", "c.y")]) [("c", self_c)] []) = Ok [[3]]%Z /\
    shown 1 (zmvp true self_sys (z_st [] [] [])) = Ok [[2]]%Z.
Proof.
  split; [|vm_compute; auto]. assert (wf_comp self_c) by wfc.
  split; [nodup|]. split; [nodup|]. split; [nodup|]. split; [intros k Hk; simpl in *; tauto|]. split; [intros k Hk; simpl in *; tauto|].
  split; [assumption|exact I].
Qed.
Print Assumptions assemble_self_refuted.

(** the components of a finite differenced subgroup are never linearized, their
    _jacobian_cache is the empty dictionary of Component.__init__ (component.py line 80): the
    derivatives of the subgroup are missing, without an error *)
Definition fdg_c : comp (F:=Z) := mkC [par "p" 0 1] [out "y" 1 1] true (Some [(("y", "p"), zmat 1 1 [3]%Z)]) None.
Definition fdg_sys : sys (F:=Z) := Group ["p.x"; "g.y"] None [mkK 0 0 1 0] [Indep [out "x" 0 1]; FdGroup [] fdg_c].
Theorem assemble_fd_group_refuted : wf fdg_sys /\
    shown 2 (zasm true (mkN [("p.x", "p.x"); ("g.c.p", "g.p"); ("g.c.y", "g.y")] [("p.x", (0, 1)); ("g.y", (1, 2))] [("g.c.p", "p.x")])
      [("p", mkC [] [out "x" 0 1] false (Some []) None); ("g.c", mkC [par "p" 0 1] [out "y" 1 1] false (Some []) None)] []) =
      Ok [[-1; 0]; [0; -1]]%Z /\
    shown 2 (zmvp true fdg_sys (z_st [] [] [])) = Ok [[-1; 0]; [3; -1]]%Z.
Proof.
  split; [|vm_compute; auto]. assert (wf_comp fdg_c) by wfc.
  split; [nodup|]. split; [nodup|]. split; [nodup|]. split; [intros k Hk; simpl in *; tauto|]. split; [intros k Hk; simpl in *; tauto|].
  split; [split; [nodup|repeat constructor]|]. split; [|exact I].
  split; [assumption|]. split; [nodup|]. split; intros k [].
Qed.
Print Assumptions assemble_fd_group_refuted.

(** a group with a parameter connected from outside: the connections are those of the
    whole problem, but the source has no name in the group *)
Theorem assemble_outside_refuted : wf (Group ["y"] None [] [Comp self_c]) /\
    shown 1 (zasm true (mkN [("g.c.p", "c.p"); ("g.c.y", "y")] [("y", (0, 1))] [("g.c.p", "p.x")]) [("g.c", self_c)] []) = Err KeyError /\
    shown 1 (zmvp true (Group ["y"] None [] [Comp self_c]) (z_st [] [] [])) = Ok [[-1]]%Z.
Proof.
  split; [|vm_compute; auto]. assert (wf_comp self_c) by wfc.
  split; [nodup|]. split; [nodup|]. split; [nodup|]. split; [intros k []|]. split; [intros k []|].
  split; [assumption|exact I].
Qed.
Print Assumptions assemble_outside_refuted.

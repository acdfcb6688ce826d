(** Property theorems for linear operators and linear Gauss-Seidel: C28, C29, C65. *)
From Coq Require Import Ring_theory.
From Verif Require Import Base LinModel LinSpec LinProofs LinProofs2.
Local Open Scope string_scope.
Local Open Scope nat_scope.

(** C28: for every tree of systems, <A (du, dp), dr> = <(du, dp), A^T dr>; sys_fwd
    writes A (du, dp) to dr and sys_rev writes A^T dr to du and dp *)
Theorem C28_adjoint : forall F (F0 F1 : F) fadd fmul fsub fopp, ring_theory F0 F1 fadd fmul fsub fopp eq ->
    forall g s, wf s -> forall st st2, (forall k, In k (indep_cells s) -> du st2 k = F0) ->
    exists st1 st3, sys_fwd F0 fadd fmul fsub g s st = Ok st1 /\ sys_rev F0 fadd fmul fsub g s st2 = Ok st3 /\
      inner F0 fadd fmul (rows s) (dr st1) (dr st2) =
      fadd (inner F0 fadd fmul (rows s) (du st) (du st3)) (inner F0 fadd fmul (outside_params s) (dp st) (dp st3)).
Proof. exact @adjoint. Qed.
Print Assumptions C28_adjoint.

(** the product offered to the Krylov and direct solvers is that of the system's
    Jacobian matrix, and of its transpose *)
Theorem C28_product : forall F (F0 F1 : F) fadd fmul fsub fopp, ring_theory F0 F1 fadd fmul fsub fopp eq ->
    forall s, wf s -> forall arg st, (forall t, In t (outside_params s) -> dp st t = F0) ->
    (exists r st', mult F0 fadd fmul fsub true s arg st = Ok (r, st') /\
        forall k, In k (rows s) -> r k = row_of F0 fadd fmul (sys_mat F1 fmul fopp None s) (over arg (fun _ => F0)) k) /\
    (exists r st', mult F0 fadd fmul fsub false s arg st = Ok (r, st') /\
        forall k, In k (rows s) -> r k = col_of F0 fadd fmul (sys_mat F1 fmul fopp None s) arg (CU k)).
Proof. exact @mult_spec. Qed.
Print Assumptions C28_product.

Theorem C28_product_adjoint : forall F (F0 F1 : F) fadd fmul fsub fopp, ring_theory F0 F1 fadd fmul fsub fopp eq ->
    forall s, wf s -> forall x y st st2,
    (forall t, In t (outside_params s) -> dp st t = F0) -> (forall t, In t (outside_params s) -> dp st2 t = F0) ->
    exists a st1 b st3, mult F0 fadd fmul fsub true s x st = Ok (a, st1) /\ mult F0 fadd fmul fsub false s y st2 = Ok (b, st3) /\
      inner F0 fadd fmul (rows s) a y = inner F0 fadd fmul (rows s) x b.
Proof. exact @mult_adjoint. Qed.
Print Assumptions C28_product_adjoint.

(** without the hypotheses: a block of one row for two outputs is repeated in
    forward mode and refused in reverse mode *)
Theorem C28_one_row_refuted : exists c : comp, is_ok (zfwd None (Comp c) (z_st [] [] [1; 1]%Z)) = true /\
    zrev None (Comp c) (z_st [] [1; 1]%Z []) = Err ValueError.
Proof. exact (ex_intro _ z_wide z_wide_bad). Qed.
Print Assumptions C28_one_row_refuted.

Theorem C28_one_row_is_repeated : forall F (F0 : F) fadd fmul (c : comp) s un pn (J : mat) u p,
    find_u c un = Some u -> find (fun v => (u_name v =? pn)%string && u_state v) (c_unks c) = None -> find_p c pn = Some p ->
    m_rows J = 1 -> m_cols J = p_size p -> u_size u <> 1 ->
    (exists s', jac_term F0 fadd fmul true c s un pn J = Ok s' /\ du s' = du s /\ dp s' = dp s /\
       (forall k, k < u_size u -> dr s' (u_off u + k) =
          fadd (dr s (u_off u + k)) (sumto F0 fadd (p_size p) (fun j => fmul (m_at J 0 j) (dp s (p_off p + j))))) /\
       (forall k, k < u_off u \/ u_off u + u_size u <= k -> dr s' k = dr s k)) /\
    jac_term F0 fadd fmul false c s un pn J = Err ValueError.
Proof. exact one_row_term. Qed.
Print Assumptions C28_one_row_is_repeated.

(** the Jacobian of an implicit component without parameters is applied in neither mode *)
Theorem C28_no_params_refuted : forall st, (exists st', zfwd None (Comp z_closed) st = Ok st' /\ dr st' 0 = 0%Z) /\
    (exists st', zrev None (Comp z_closed) st = Ok st' /\ du st' 0 = 0%Z).
Proof. exact z_closed_bad. Qed.
Print Assumptions C28_no_params_refuted.

(** an IndepVarComp adds to what du held *)
Theorem C28_indep_refuted : exists st', zrev None (Indep [out "x" 0 1]) (z_st [5]%Z [1]%Z []) = Ok st' /\ du st' 0 = 4%Z.
Proof. exact z_indep_bad. Qed.
Print Assumptions C28_indep_refuted.

Example C28_ex : wf z_group /\
    match mult 0%Z Z.add Z.mul Z.sub true z_group (zvec [1; 2; 3; 4; 5]%Z) (z_st [] [] []),
          mult 0%Z Z.add Z.mul Z.sub false z_group (zvec [1; 2; 3; 4; 5]%Z) (z_st [] [] []) with
    | Ok (a, _), Ok (b, _) => map a (rows z_group) = [-1; 1; 2; 21; 35]%Z /\ map b (rows z_group) = [20; 6; 25; 46; -5]%Z
    | _, _ => False
    end.
Proof. split; [exact z_group_wf | vm_compute; auto]. Qed.

(** C29: one sweep solves every feed-forward system exactly *)
Theorem C29_forward : forall F (F0 F1 : F) fadd fmul fsub fopp, ring_theory F0 F1 fadd fmul fsub fopp eq ->
    forall tiny, (forall v, tiny v = true -> Forall (fun x => x = F0) v) ->
    forall s, wf s -> feed_forward F0 F1 fadd fmul fopp true s ->
    forall st, (forall t, In t (outside_params s) -> dp st t = F0) ->
    exists st', sys_solve F0 fadd fmul fsub fopp tiny true s st = Ok st' /\
      is_solution F0 F1 fadd fmul fopp true s (dr st) st'.
Proof. exact @gs_fwd. Qed.
Print Assumptions C29_forward.

Theorem C29_reverse_partial : forall F (F0 F1 : F) fadd fmul fsub fopp, ring_theory F0 F1 fadd fmul fsub fopp eq ->
    forall tiny, (forall v, tiny v = true -> Forall (fun x => x = F0) v) ->
    forall s, wf s -> feed_forward F0 F1 fadd fmul fopp false s -> unscaled s ->
    forall st, exists st', sys_solve F0 fadd fmul fsub fopp tiny false s st = Ok st' /\
      is_solution F0 F1 fadd fmul fopp false s (du st) st'.
Proof. exact @gs_rev. Qed.
Print Assumptions C29_reverse_partial.

(** and it touches nothing outside the group *)
Theorem C29_frame : forall F (F0 F1 : F) fadd fmul fsub fopp, ring_theory F0 F1 fadd fmul fsub fopp eq ->
    forall tiny, (forall v, tiny v = true -> Forall (fun x => x = F0) v) ->
    forall fwd s, wf s -> feed_forward F0 F1 fadd fmul fopp fwd s -> (fwd = false -> unscaled s) ->
    forall st, (fwd = true -> forall t, In t (outside_params s) -> dp st t = F0) ->
    exists st', sys_solve F0 fadd fmul fsub fopp tiny fwd s st = Ok st' /\
      (forall k, ~ In k (rows s) -> du st' k = du st k /\ dr st' k = dr st k) /\
      (forall t, ~ In t (all_params s) -> dp st' t = dp st t).
Proof. exact @gs_frame. Qed.
Print Assumptions C29_frame.

(** a right hand side with a norm under the threshold gives the zero vector, for every solver *)
Theorem C29_small_rhs : forall F (F0 : F) fadd fmul fsub fopp tiny (fwd : bool) ns sv ks (subs : list (sys (F:=F))) (st : state),
    let s := Group ns sv ks subs in
    tiny (map (if fwd then dr st else du st) (rows s)) = true ->
    exists st' : state, sys_solve F0 fadd fmul fsub fopp tiny fwd s st = Ok st' /\
      forall k, In k (rows s) -> (if fwd then du (F:=F) st' k else dr st' k) = F0.
Proof. exact @gs_small. Qed.
Print Assumptions C29_small_rhs.

(** with a resid_scaler the reverse solution is wrong *)
Theorem C29_scaled_refuted : wf z_scaled_group /\ feed_forward 0%Z 1%Z Z.add Z.mul Z.opp false z_scaled_group /\
    exists st, zsolve false z_scaled_group (z_st [0; 1]%Z [] []) = Ok st /\ ~ zsolution false z_scaled_group (zvec [0; 1]%Z) st.
Proof. exact (conj (proj1 z_scaled_ok) (conj (proj2 z_scaled_ok) z_scaled_bad)). Qed.
Print Assumptions C29_scaled_refuted.

Example C29_ex : wf z_group /\ (forall fwd, feed_forward 0%Z 1%Z Z.add Z.mul Z.opp fwd z_group) /\ unscaled z_group /\
    (match zsolve true z_group (z_st [] [1]%Z []) with Ok st => map (du st) (rows z_group) | Err _ => [] end = [-1; -3; -5; -41; -410]%Z) /\
    (match zsolve false z_group (z_st [0; 0; 0; 0; 1]%Z [] []) with Ok st => map (dr st) (rows z_group) | Err _ => [] end = [-410; -20; -70; -10; -1]%Z).
Proof. split; [exact z_group_wf|]. split; [exact z_group_ff|]. split; [exact z_group_un|]. split; vm_compute; reflexivity. Qed.

(** C65: iterating sweeps over a group with cycles; if a sweep changes nothing,
    a solution has been found.  Forward: groups of explicit components. *)
Theorem C65_forward_partial : forall F (F0 F1 : F) fadd fmul fsub fopp, ring_theory F0 F1 fadd fmul fsub fopp eq ->
    forall tiny, (forall v, tiny v = true -> Forall (fun x => x = F0) v) ->
    forall ns ks subs rhs st st', wf (Group ns None ks subs) -> Forall explicit_comp subs -> Forall (located subs) ks ->
    (forall t, In t (flat_map outside_params subs) -> dp st t = F0) ->
    sweep F0 fadd fmul fsub fopp tiny true ns ks subs rhs st = Ok st' ->
    (forall k, In k (flat_map rows subs) -> du st' k = du st k) ->
    is_solution F0 F1 fadd fmul fopp true (Group ns None ks subs) rhs st'.
Proof. exact @fixed_fwd. Qed.
Print Assumptions C65_forward_partial.

(** reverse: any subsystems which solve their own part exactly *)
Theorem C65_reverse_partial : forall F (F0 F1 : F) fadd fmul fsub fopp, ring_theory F0 F1 fadd fmul fsub fopp eq ->
    forall tiny, (forall v, tiny v = true -> Forall (fun x => x = F0) v) ->
    forall ns ks subs rhs st st1 st2, wf (Group ns None ks subs) ->
    Forall (feed_forward F0 F1 fadd fmul fopp false) subs -> Forall unscaled subs -> Forall (located subs) ks ->
    sweep F0 fadd fmul fsub fopp tiny false ns ks subs rhs st = Ok st1 ->
    sweep F0 fadd fmul fsub fopp tiny false ns ks subs rhs st1 = Ok st2 ->
    (forall k, In k (flat_map rows subs) -> dr st2 k = dr st1 k) ->
    is_solution F0 F1 fadd fmul fopp false (Group ns None ks subs) rhs st2.
Proof. exact @fixed_rev2. Qed.
Print Assumptions C65_reverse_partial.

(** the tested residual is the linear residual if all names are promoted unchanged *)
Theorem C65_residual_partial : forall F (F0 F1 : F) fadd fmul fsub fopp, ring_theory F0 F1 fadd fmul fsub fopp eq ->
    forall fwd ns sv ks subs rhs st, let s := Group ns sv ks subs in
    wf s -> named_in ns s -> (fwd = true -> forall t, In t (outside_params s) -> dp st t = F0) ->
    (fwd = false -> forall k, In k (indep_cells s) -> du st k = F0) ->
    exists v st', gs_resid F0 fadd fmul fsub fwd ns sv ks subs rhs st = Ok (v, st') /\
      forall k, In k (rows s) ->
        v k = fsub (if fwd then row_of F0 fadd fmul (sys_mat F1 fmul fopp None s) (over (du st) (fun _ => F0)) k
                    else col_of F0 fadd fmul (sys_mat F1 fmul fopp None s) (dr st) (CU k)) (rhs k).
Proof. exact @gs_resid_true. Qed.
Print Assumptions C65_residual_partial.

(** an implicit component in a feed-forward group: right after one sweep, wrong after two *)
Theorem C65_implicit_refuted : wf (Group z_imp_names None z_imp_ks z_imp_subs) /\
    feed_forward 0%Z 1%Z Z.add Z.mul Z.opp true (Group z_imp_names None z_imp_ks z_imp_subs) /\
    exists st, zgs 2 true z_imp_names z_imp_ks z_imp_subs (z_st [] [1]%Z []) = Ok (2, st) /\
      ~ zsolution true (Group z_imp_names None z_imp_ks z_imp_subs) (zvec [1]%Z) st.
Proof. exact (conj (proj1 z_imp_ok) (conj (proj2 z_imp_ok) z_imp_two)). Qed.
Print Assumptions C65_implicit_refuted.

(** a group in a feed-forward group: two sweeps reach a fixed point which is no solution *)
Theorem C65_nested_refuted : exists st st', zgs 2 true z_names z_ks z_subs (z_st [] [1]%Z []) = Ok (2, st) /\
    zsweep true z_names z_ks z_subs (zvec [1]%Z) st = Ok st' /\ (forall k, In k (flat_map rows z_subs) -> du st' k = du st k) /\
    ~ zsolution true (Group z_names None z_ks z_subs) (zvec [1]%Z) st'.
Proof. exact z_nested_fixed. Qed.
Print Assumptions C65_nested_refuted.

(** with unpromoted names the tested residual of an exact solution is not zero *)
Theorem C65_residual_refuted : exists st v st', zsweep true ["i.x"; "a.y"] z_flat_ks z_flat_subs (zvec [1]%Z) (z_st [] [1]%Z []) = Ok st /\
    zsolution true (Group ["i.x"; "a.y"] None z_flat_ks z_flat_subs) (zvec [1]%Z) st /\
    gs_resid 0%Z Z.add Z.mul Z.sub true ["i.x"; "a.y"] None z_flat_ks z_flat_subs (zvec [1]%Z) st = Ok (v, st') /\
    v 0 = (-1)%Z.
Proof. exact z_norm_bad. Qed.
Print Assumptions C65_residual_refuted.

(** a cycle: a: y = 2 w + x, b: w = y; both sweeps of the forward iteration leave the solution alone *)
Definition ex_ca : comp := mkC [par "x" 0 1; par "w" 1 1] [out "y" 1 1] false
  (Some [(("y", "x"), zmat 1 1 [1]%Z); (("y", "w"), zmat 1 1 [2]%Z)]) None.
Definition ex_cb : comp := mkC [par "y" 2 1] [out "w" 2 1] false (Some [(("w", "y"), zmat 1 1 [1]%Z)]) None.
Definition ex_cyc : list sys := [Indep [out "x" 0 1]; Comp ex_ca; Comp ex_cb].
Definition ex_cyc_ks : list conn := [mkK 0 0 1 0; mkK 2 2 1 1; mkK 1 1 2 2].
Example C65_ex : wf (Group ["x"; "y"; "w"] None ex_cyc_ks ex_cyc) /\ Forall explicit_comp ex_cyc /\ Forall (located ex_cyc) ex_cyc_ks /\
    named_in ["x"; "y"; "w"] (Group ["x"; "y"; "w"] None ex_cyc_ks ex_cyc) /\
    match zsweep true ["x"; "y"; "w"] ex_cyc_ks ex_cyc (zvec [1]%Z) (z_st [-1; 1; 1]%Z [] []) with
    | Ok st => map (du st) [0; 1; 2] = [-1; 1; 1]%Z
    | Err _ => False
    end.
Proof.
  split.
  - assert (wf_comp ex_ca) by wfc. assert (wf_comp ex_cb) by wfc.
    assert (wf (Indep [out "x" 0 1])) by (split; [nodup|repeat constructor]).
    split; [nodup|]. split; [nodup|]. split; [nodup|]. split; [intros k Hk; simpl in *; tauto|]. split; [intros k Hk; simpl in *; tauto|].
    cbn; auto.
  - split; [repeat constructor|]. split.
    { constructor; [|constructor; [|constructor; [|constructor]]]; (split; [simpl; lia|]); split; eexists; (split; [reflexivity|]); simpl; tauto. }
    split; [|vm_compute; auto]. cbn. repeat split; intros u Hu; decompose [or] Hu; subst; simpl; tauto.
Qed.

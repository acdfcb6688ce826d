(** Further facts on the linear operators, and models on which the full claims
    fail. *)
From Coq Require Import Ring_theory Ring ZArithRing.
From Verif Require Import Base LinModel LinSpec LinProofs.
Local Open Scope string_scope.
Local Open Scope nat_scope.

Section P.
  Context {F : Type} (F0 F1 : F) (fadd fmul fsub : F -> F -> F) (fopp : F -> F).
  Context (Fth : ring_theory F0 F1 fadd fmul fsub fopp eq).
  Add Ring FRing : Fth.
  Infix "+!" := fadd (at level 50, left associativity).
  Context (tiny : list F -> bool) (Htiny : forall v, tiny v = true -> Forall (fun x => x = F0) v).
  Notation sys_solve := (sys_solve F0 fadd fmul fsub fopp tiny).
  Notation feed_forward := (feed_forward F0 F1 fadd fmul fopp).
  Notation is_solution := (is_solution F0 F1 fadd fmul fopp).
  Notation sweep := (sweep F0 fadd fmul fsub fopp tiny).
  Notation col_of := (col_of F0 fadd fmul).
  Notation sys_mat := (sys_mat F1 fmul fopp).

  Lemma gs_fwd : forall s, wf s -> feed_forward true s -> forall st, (forall t, In t (outside_params s) -> dp st t = F0) ->
      exists st', sys_solve true s st = Ok st' /\ is_solution true s (dr st) st'.
  Proof.
    intros s Hw Hff st Hp. destruct (solve_fwd F0 F1 fadd fmul fsub fopp Fth tiny Htiny s Hw Hff st Hp) as [st' [E [A _]]].
    exists st'. split; [exact E|]. exact A.
  Qed.
  Lemma gs_rev : forall s, wf s -> feed_forward false s -> unscaled s -> forall st,
      exists st', sys_solve false s st = Ok st' /\ is_solution false s (du st) st'.
  Proof.
    intros s Hw Hff Hu st. destruct (solve_rev F0 F1 fadd fmul fsub fopp Fth tiny Htiny s Hw Hff Hu st) as [st' [E [A _]]].
    exists st'. split; [exact E|]. exact A.
  Qed.
  (** nothing outside the group is touched *)
  Lemma gs_frame : forall fwd s, wf s -> feed_forward fwd s -> (fwd = false -> unscaled s) -> forall st,
      (fwd = true -> forall t, In t (outside_params s) -> dp st t = F0) ->
      exists st', sys_solve fwd s st = Ok st' /\
        (forall k, ~ In k (rows s) -> du st' k = du st k /\ dr st' k = dr st k) /\
        (forall t, ~ In t (all_params s) -> dp st' t = dp st t).
  Proof.
    intros [|] s Hw Hff Hu st Hp.
    - destruct (solve_fwd F0 F1 fadd fmul fsub fopp Fth tiny Htiny s Hw Hff st (Hp eq_refl)) as [st' [E [_ [A [B [C _]]]]]].
      exists st'. split; [exact E|]. split; auto.
    - destruct (solve_rev F0 F1 fadd fmul fsub fopp Fth tiny Htiny s Hw Hff (Hu eq_refl) st) as [st' [E [_ [A [B C]]]]].
      exists st'. split; [exact E|]. split; auto.
  Qed.

  (** a right hand side whose norm is small gives the zero solution *)
  Lemma gs_small : forall (fwd : bool) ns sv ks (subs : list (sys (F:=F))) (st : state), let s := Group ns sv ks subs in
      tiny (map (if fwd then dr st else du st) (rows s)) = true ->
      exists st' : state, sys_solve fwd s st = Ok st' /\ forall k, In k (rows s) -> (if fwd then du (F:=F) st' k else dr st' k) = F0.
  Proof.
    intros fwd ns sv ks subs st s Ht. unfold s in *.
    assert (E : sys_solve fwd (Group ns sv ks subs) st =
      Ok (if fwd then mkS (zero_at F0 (rows (Group ns sv ks subs)) (du st)) (dr st) (dp st)
          else mkS (du st) (zero_at F0 (rows (Group ns sv ks subs)) (dr st)) (dp st))).
    { cbn [LinModel.sys_solve]. cbv zeta. destruct (tiny _) eqn:E; [reflexivity|]. exfalso. clear -E Ht.
      cbn [rows] in *. congruence. }
    rewrite E. eexists. split; [reflexivity|]. intros k Hk; destruct fwd; cbn [du dr]; rewrite zero_at_spec;
      apply memb_spec in Hk; now rewrite Hk.
  Qed.

  (** after a reverse sweep dp is consistent with dr *)
  Lemma loop_rev_consistent : forall ns ks subs rhs, Forall wf subs ->
      Forall (feed_forward false) subs -> Forall unscaled subs ->
      NoDup (flat_map rows subs) -> NoDup (flat_map all_params subs) ->
      forall l pre, subs = (pre ++ l)%list -> forall st st',
      loop_rev F0 fadd fmul fsub fopp tiny ns ks (flat_map rows subs) rhs (length pre) l st = Ok st' ->
      forall s t, In s l -> In t (outside_params s) -> dp st' t = col_of (sys_mat None s) (dr st') (CP t).
  Proof.
    intros ns ks subs rhs Hw Hff Hun Hr Hp. pose proof (nodup_outside subs Hw Hp) as Ho.
    rewrite Forall_forall in Hff, Hw, Hun.
    induction l as [|sub l IH]; intros pre Hsubs st st' E s t Hs Ht; [destruct Hs|].
    set (i := length pre) in *.
    assert (Hsub : nth_error subs i = Some sub).
    { subst subs i. rewrite nth_error_app2 by lia. now rewrite Nat.sub_diag. }
    assert (Hin : In sub subs) by (now apply nth_error_In in Hsub).
    rewrite loop_rev_cons in E. destruct (loop_rev _ _ _ _ _ _ ns ks (flat_map rows subs) rhs (S i) l st) as [st1|e] eqn:E1; [|discriminate E].
    cbn [bind] in E.
    assert (IH' : forall s t, In s l -> In t (outside_params s) -> dp st1 t = col_of (sys_mat None s) (dr st1) (CP t)).
    { apply (IH (pre ++ [sub])%list) with (st := st).
      - rewrite <- app_assoc. exact Hsubs.
      - rewrite app_length. simpl. rewrite Nat.add_1_r. exact E1. }
    match type of E with bind (sys_solve false sub ?x) _ = _ => set (st3 := x) in * end.
    destruct (solve_rev F0 F1 fadd fmul fsub fopp Fth tiny Htiny sub (Hw sub Hin) (Hff sub Hin) (Hun sub Hin) st3) as [st4 [E4 [A4 [U4 [R4 P4]]]]].
    rewrite E4 in E. cbn [bind] in E.
    destruct (sys_rev_spec F0 F1 fadd fmul fsub fopp Fth (Some (gs_outputs ns sub)) sub (Hw sub Hin) st4) as [st5 [E5 [[_ [U5 [D5 [P5 _]]]] S5]]].
    specialize (S5 (Hun sub Hin)). assert (st' = st5) as -> by congruence.
    destruct Hs as [<-|Hs].
    - rewrite D5 by exact Ht. rewrite (col_p_g F0 F1 fadd fmul fsub fopp Fth _ sub (Hw sub Hin)) by exact Ht.
      apply (col_ext F0 fadd fmul). intros e _. symmetry. apply S5.
    - assert (Hj : exists j, nth_error subs j = Some s /\ j <> i).
      { apply In_nth_error in Hs. destruct Hs as [j Hj]. exists (i + S j). split; [|lia]. subst subs i.
        rewrite nth_error_app2 by lia. replace (length pre + S j - length pre) with (S j) by lia. exact Hj. }
      destruct Hj as [j [Hj Hne]]. assert (Hws : wf s) by (apply Hw; now apply nth_error_In in Hj).
      assert (Hta : ~ In t (all_params sub)).
      { intro Hc. apply Hne. apply (nth_disjoint _ all_params subs j i s sub t Hp Hj Hsub); auto. now apply outside_all. }
      rewrite P5, P4 by exact Hta. unfold st3. cbn [dp xfer_rev]. rewrite (IH' s t Hs Ht).
      apply (col_ext F0 fadd fmul). intros e He. apply sys_mat_in in He; auto. destruct He as [Hre _].
      assert (Hnr : ~ In (e_row e) (rows sub)).
      { intro Hc. apply Hne. exact (nth_disjoint _ rows subs j i s sub _ Hr Hj Hsub Hre Hc). }
      rewrite S5, R4 by exact Hnr. reflexivity.
  Qed.

  Lemma fixed_rev2 : forall ns ks subs rhs st st1 st2, wf (Group ns None ks subs) ->
      Forall (feed_forward false) subs -> Forall unscaled subs -> Forall (located subs) ks ->
      sweep false ns ks subs rhs st = Ok st1 -> sweep false ns ks subs rhs st1 = Ok st2 ->
      (forall k, In k (flat_map rows subs) -> dr st2 k = dr st1 k) ->
      is_solution false (Group ns None ks subs) rhs st2.
  Proof.
    intros ns ks subs rhs st st1 st2 Hw Hff Hun Hks E1 E2 Hfix. pose proof Hw as Hwf.
    destruct Hw as [Hr [Hp [Hn [Ht [Hsrc Hw]]]]]. apply fold_and in Hw.
    eapply (fixed_rev F0 F1 fadd fmul fsub fopp Fth tiny Htiny); eauto.
    intros s t Hs Hto. rewrite sweep_loops in E1.
    eapply (loop_rev_consistent ns ks subs rhs Hw Hff Hun Hr Hp subs [] eq_refl); eauto.
  Qed.

  Lemma named_mat : forall ns s, named_in ns s -> sys_mat (Some ns) s = sys_mat None s.
  Proof.
    intro ns. assert (Hm : forall us, (forall u, In u us -> In (u_name u) ns) ->
      minus_identity F1 fopp (Some ns) us = minus_identity F1 fopp None us).
    { induction us as [|u us IH]; intro H; simpl; auto. rewrite IH by (intros v Hv; apply H; now right). f_equal.
      destruct (u_state u); auto. replace (existsb (String.eqb (u_name u)) ns) with true; auto. symmetry.
      apply existsb_exists. exists (u_name u). split; [apply H; now left | apply String.eqb_refl]. }
    induction s as [c|us|ks c|ns' sv ks subs IH] using sys_ind'; intro H; cbn [LinSpec.sys_mat named_in] in *.
    - unfold comp_mat. now rewrite Hm.
    - now apply Hm.
    - unfold comp_mat. now rewrite Hm.
    - f_equal. apply fold_and in H. induction subs as [|s l IHl]; simpl; auto.
      apply Forall_cons_iff in H. apply Forall_cons_iff in IH. destruct H, IH. rewrite IHl by auto. f_equal. auto.
  Qed.

  Lemma sub_at_spec : forall cells (f v : nat -> F) k,
      fold_left (fun w j => set w j (f j)) cells v k = if memb k cells then f k else v k.
  Proof. intros. exact (copy_at_spec cells f v k). Qed.

  Lemma gs_resid_true : forall fwd ns sv ks subs rhs st, let s := Group ns sv ks subs in
      wf s -> named_in ns s -> (fwd = true -> forall t, In t (outside_params s) -> dp st t = F0) ->
      (fwd = false -> forall k, In k (indep_cells s) -> du st k = F0) ->
      exists v st', gs_resid F0 fadd fmul fsub fwd ns sv ks subs rhs st = Ok (v, st') /\
        forall k, In k (rows s) ->
          v k = fsub (if fwd then row_of F0 fadd fmul (sys_mat None s) (over (du st) (fun _ => F0)) k
                      else col_of (sys_mat None s) (dr st) (CU k)) (rhs k).
  Proof.
    intros fwd ns sv ks subs rhs st s Hw Hn Hp Hz. unfold gs_resid. fold s. destruct fwd.
    - destruct (sys_fwd_spec F0 F1 fadd fmul fsub fopp Fth (Some ns) s Hw st) as [st1 [E [[_ [R _]] _]]].
      rewrite E. cbn [bind]. eexists _, _. split; [reflexivity|]. intros k Hk. rewrite sub_at_spec.
      pose proof Hk as Hk'. apply memb_spec in Hk'. rewrite Hk'. rewrite R by exact Hk. rewrite named_mat by exact Hn. f_equal.
      apply (row_ext F0 fadd fmul). intros e He. apply sys_mat_in in He; auto. destruct He as [_ B].
      destruct (e_col e); cbn [over]; auto.
    - destruct (sys_rev_spec F0 F1 fadd fmul fsub fopp Fth (Some ns) s Hw st) as [st1 [E [[R _] _]]].
      rewrite E. cbn [bind]. eexists _, _. split; [reflexivity|]. intros k Hk. rewrite sub_at_spec.
      pose proof Hk as Hk'. apply memb_spec in Hk'. rewrite Hk'. rewrite R by exact Hk. rewrite named_mat by exact Hn.
      unfold left_over. destruct (memb k (indep_cells s)) eqn:Em; [|f_equal; ring].
      apply memb_spec in Em. rewrite (Hz eq_refl k Em). f_equal. ring.
  Qed.
End P.

(** ** models over the integers *)
Local Open Scope Z_scope.
Definition zvec (l : list Z) : nat -> Z := fun k => nth k l 0.
Definition zmat (rows cols : nat) (l : list Z) : mat (F:=Z) := mkM rows cols (fun i j => nth (i * cols + j) l 0).
Definition zrest : list Z -> bool := forallb (Z.eqb 0).
Notation zfwd := (sys_fwd 0 Z.add Z.mul Z.sub).
Notation zrev := (sys_rev 0 Z.add Z.mul Z.sub).
Notation zsolve := (sys_solve 0 Z.add Z.mul Z.sub Z.opp zrest).
Notation zsweep := (sweep 0 Z.add Z.mul Z.sub Z.opp zrest).
Notation zgs := (gs_solve 0 Z.add Z.mul Z.sub Z.opp zrest zrest).
Notation zsolution := (is_solution 0 1 Z.add Z.mul Z.opp).
Local Open Scope nat_scope.

Lemma zrest_zero : forall v, zrest v = true -> Forall (fun x => x = 0%Z) v.
Proof. intros v H. unfold zrest in H. rewrite forallb_forall in H. apply Forall_forall. intros x Hx. specialize (H x Hx). apply Z.eqb_eq in H. auto. Qed.

Definition out (n : string) (off size : nat) : uvar (F:=Z) := mkU n off size false None.
Definition sta (n : string) (off size : nat) : uvar (F:=Z) := mkU n off size true None.
Definition par (n : string) (off size : nat) : pvar (F:=Z) := mkP n off size None.

(** x, a: y = J x (2 entries), a group of b: z = [2 7] y and c: w = z / unit *)
Definition z_a : comp := mkC [par "x" 0 1] [out "y" 1 2] false (Some [(("y", "x"), zmat 2 1 [3; 5]%Z)]) None.
Definition z_b : comp := mkC [par "y" 1 2] [out "z" 3 1] false (Some [(("z", "y"), zmat 1 2 [2; 7]%Z)]) None.
Definition z_c : comp := mkC [mkP "z" 3 1 (Some 10%Z)] [out "w" 4 1] false (Some [(("w", "z"), zmat 1 1 [1]%Z)]) None.
Definition z_sub : sys := Group ["z"; "c.w"] None [mkK 0 3 1 3] [Comp z_b; Comp z_c].
Definition z_group : sys := Group ["i.x"; "a.y"; "sub.z"; "sub.c.w"] None [mkK 0 0 1 0; mkK 1 1 2 1; mkK 1 2 2 2] [Indep [out "x" 0 1]; Comp z_a; z_sub].
Definition z_st (u r p : list Z) : state := mkS (zvec u) (zvec r) (zvec p).

Lemma fits_key : forall (c : comp (F:=Z)) key, (let '(un, pn, J) := key in
    match unknown_of c un with
    | None => true
    | Some u => match state_of c pn with
                | Some x => (m_rows J =? u_size u) && (m_cols J =? u_size x)
                | None => match param_of c pn with Some p => (m_rows J =? u_size u) && (m_cols J =? p_size p) | None => true end
                end
    end = true) -> fits c key.
Proof.
  intros c [[un pn] J] H u Hu. rewrite Hu in H. destruct (state_of c pn) as [x|].
  - apply Bool.andb_true_iff in H. rewrite !Nat.eqb_eq in H. split; [|discriminate]. intros y Hy. injection Hy as <-. tauto.
  - destruct (param_of c pn) as [p|]; [|split; intros; discriminate].
    apply Bool.andb_true_iff in H. rewrite !Nat.eqb_eq in H. split; [discriminate|]. intros q _ Hq. injection Hq as <-. tauto.
Qed.
Ltac nodup := vm_compute; repeat match goal with |- NoDup (_ :: _) => constructor; [simpl; intuition discriminate|] end; constructor.
Ltac wfc := split; [nodup|split; [nodup|eexists; split; [reflexivity|split; [repeat (apply Forall_cons; [apply fits_key; reflexivity|]); apply Forall_nil|discriminate]]]].
Lemma z_group_wf : wf z_group.
Proof.
  assert (wf_comp z_a) by wfc. assert (wf_comp z_b) by wfc. assert (wf_comp z_c) by wfc.
  assert (wf (Indep [out "x" 0 1])) by (split; [nodup|repeat constructor]).
  assert (wf z_sub).
  { split; [nodup|]. split; [nodup|]. split; [nodup|]. split; [intros k Hk; simpl in *; tauto|]. split; [intros k Hk; simpl in *; tauto|].
    cbn; auto. }
  split; [nodup|]. split; [nodup|]. split; [nodup|]. split; [intros k Hk; simpl in *; tauto|]. split; [intros k Hk; simpl in *; tauto|].
  cbn; auto.
Qed.
Lemma z_group_ff : forall fwd, feed_forward 0%Z 1%Z Z.add Z.mul Z.opp fwd z_group.
Proof.
  intros fwd. split.
  - constructor; [|constructor; [|constructor; [|constructor]]]; (split; [simpl; lia|]); split; eexists; (split; [reflexivity|]); simpl; tauto.
  - split; [exact I|]. split; [repeat constructor|]. split; [|exact I]. split.
    + constructor; [|constructor]. split; [simpl; lia|]. split; eexists; (split; [reflexivity|]); simpl; tauto.
    + cbn. repeat constructor.
Qed.
Lemma z_group_un : unscaled z_group.
Proof. cbn. repeat split; auto; right; repeat constructor. Qed.

(** a Jacobian block with one row for an output of two entries: numpy's += in
    forward mode repeats the row, reverse mode refuses it *)
Definition z_wide : comp := mkC [par "x" 0 2] [out "y" 0 2] false (Some [(("y", "x"), zmat 1 2 [3; 5]%Z)]) None.
Lemma z_wide_bad : is_ok (zfwd None (Comp z_wide) (z_st [] [] [1; 1]%Z)) = true /\
    zrev None (Comp z_wide) (z_st [] [1; 1]%Z []) = Err ValueError.
Proof. split; vm_compute; reflexivity. Qed.

(** in general *)
Lemma one_row_term : forall F (F0 : F) fadd fmul (c : comp) s un pn (J : mat) u p,
    find_u c un = Some u -> find (fun v => (u_name v =? pn)%string && u_state v) (c_unks c) = None -> find_p c pn = Some p ->
    m_rows J = 1 -> m_cols J = p_size p -> u_size u <> 1 ->
    (exists s', jac_term F0 fadd fmul true c s un pn J = Ok s' /\ du s' = du s /\ dp s' = dp s /\
       (forall k, k < u_size u -> dr s' (u_off u + k) =
          fadd (dr s (u_off u + k)) (sumto F0 fadd (p_size p) (fun j => fmul (m_at J 0 j) (dp s (p_off p + j))))) /\
       (forall k, k < u_off u \/ u_off u + u_size u <= k -> dr s' k = dr s k)) /\
    jac_term F0 fadd fmul false c s un pn J = Err ValueError.
Proof.
  intros F F0 fadd fmul c s un pn J u p Hu Hs Hp Hr Hc Hn. unfold jac_term. rewrite Hu, Hs, Hp. split.
  - unfold jdot. rewrite Hc, Nat.eqb_refl. cbn [bind]. unfold iadd. rewrite Hr. cbn [fst snd].
    destruct (Nat.eqb_spec 1 (u_size u)); [congruence|]. cbn [bind Nat.eqb].
    eexists. split; [reflexivity|]. split; [reflexivity|]. split; [reflexivity|]. cbn [dr]. unfold at_range, inr. split.
    + intros k Hk. destruct (Nat.leb_spec (u_off u) (u_off u + k)); [|lia].
      destruct (Nat.ltb_spec (u_off u + k) (u_off u + u_size u)); [|lia]. reflexivity.
    + intros k Hk. destruct (Nat.leb_spec (u_off u) k), (Nat.ltb_spec k (u_off u + u_size u)); try reflexivity. lia.
  - unfold jtdot. rewrite Hr. destruct (Nat.eqb_spec 1 (u_size u)); [congruence|]. reflexivity.
Qed.

(** an implicit component without parameters: its Jacobian is not applied at all *)
Definition z_closed : comp := mkC [] [sta "s" 0 1] false (Some [(("s", "s"), zmat 1 1 [4]%Z)]) None.
Lemma z_closed_bad : forall st, (exists st', zfwd None (Comp z_closed) st = Ok st' /\ dr st' 0 = 0%Z) /\
    (exists st', zrev None (Comp z_closed) st = Ok st' /\ du st' 0 = 0%Z).
Proof. intro st. split; (eexists; split; [reflexivity|]); reflexivity. Qed.

(** reverse mode of an IndepVarComp adds to what was in du *)
Lemma z_indep_bad : exists st', zrev None (Indep [out "x" 0 1]) (z_st [5]%Z [1]%Z []) = Ok st' /\ du st' 0 = 4%Z.
Proof. eexists. split; [reflexivity|]. reflexivity. Qed.

(** resid_scaler in reverse mode: the solution is scaled *)
Definition z_scaled : comp := mkC [par "x" 0 1] [mkU "s" 1 1 true (Some (-1)%Z)] false
  (Some [(("s", "x"), zmat 1 1 [3]%Z); (("s", "s"), zmat 1 1 [-1]%Z)]) (Some (fun (_ : bool) (v : nat -> Z) k => v k)).
Definition z_scaled_group : sys := Group ["x"; "s"] None [mkK 0 0 1 0] [Indep [out "x" 0 1]; Comp z_scaled].

(** an implicit component: two forward sweeps *)
Definition z_imp : comp := mkC [par "p" 0 1] [sta "s" 1 1] false
  (Some [(("s", "p"), zmat 1 1 [3]%Z); (("s", "s"), zmat 1 1 [-1]%Z)]) (Some (fun (_ : bool) (v : nat -> Z) k => (- v k)%Z)).
Definition z_imp_subs : list sys := [Indep [out "x" 0 1]; Comp z_imp].
Definition z_imp_ks : list conn := [mkK 0 0 1 0].
Definition z_imp_names : list string := ["i.x"; "c.s"].
Lemma z_imp_ok : wf (Group z_imp_names None z_imp_ks z_imp_subs) /\
    feed_forward 0%Z 1%Z Z.add Z.mul Z.opp true (Group z_imp_names None z_imp_ks z_imp_subs).
Proof.
  assert (Hc : wf_comp z_imp) by wfc. split.
  - split; [nodup|]. split; [nodup|]. split; [nodup|]. split; [intros k Hk; simpl in *; tauto|]. split; [intros k Hk; simpl in *; tauto|].
    cbn. split; [|auto]. split; [nodup|repeat constructor].
  - split.
    + constructor; [|constructor]. split; [simpl; lia|]. split; eexists; (split; [reflexivity|]); simpl; tauto.
    + cbn. split; auto. split; auto. intros rhs z k [<-|[]] Hz. specialize (Hz 1 (or_introl eq_refl)).
      cbv -[Z.mul Z.add Z.opp]. rewrite Hz. ring.
Qed.


Definition at_end (P : nat -> state (F:=Z) -> Prop) (r : res (nat * state)) : Prop :=
  match r with Ok (n, st) => P n st | Err _ => False end.

Lemma z_imp_two : exists st, zgs 2 true z_imp_names z_imp_ks z_imp_subs (z_st [] [1]%Z []) = Ok (2, st) /\
    ~ zsolution true (Group z_imp_names None z_imp_ks z_imp_subs) (zvec [1]%Z) st.
Proof.
  set (r := zgs 2 true z_imp_names z_imp_ks z_imp_subs (z_st [] [1]%Z [])).
  assert (H : at_end (fun n st => n = 2 /\ du st 0 = (-1)%Z /\ du st 1 = 0%Z) r) by (vm_compute; auto).
  destruct r as [[n st]|e]; [|destruct H]. destruct H as [-> [H0 H1]]. exists st. split; [reflexivity|].
  intro Hs. specialize (Hs 1). cbv -[Z.mul Z.add Z.opp du dr] in Hs. rewrite H0, H1 in Hs. specialize (Hs (or_intror (or_introl eq_refl))).
  cbv in Hs. discriminate Hs.
Qed.

Lemma z_scaled_ok : wf z_scaled_group /\ feed_forward 0%Z 1%Z Z.add Z.mul Z.opp false z_scaled_group.
Proof.
  assert (Hc : wf_comp z_scaled) by wfc. split.
  - split; [nodup|]. split; [nodup|]. split; [nodup|]. split; [intros k Hk; simpl in *; tauto|]. split; [intros k Hk; simpl in *; tauto|].
    cbn. split; [|auto]. split; [nodup|repeat constructor].
  - split.
    + constructor; [|constructor]. split; [simpl; lia|]. split; eexists; (split; [reflexivity|]); simpl; tauto.
    + cbn. split; auto. split; auto. intros rhs z k [<-|[]] Hz. specialize (Hz 1 (or_introl eq_refl)).
      cbv -[Z.mul Z.add Z.opp]. rewrite Hz. ring.
Qed.
Lemma z_scaled_bad : exists st, zsolve false z_scaled_group (z_st [0; 1]%Z [] []) = Ok st /\
    ~ zsolution false z_scaled_group (zvec [0; 1]%Z) st.
Proof.
  set (r := zsolve false z_scaled_group (z_st [0; 1]%Z [] [])).
  assert (H : match r with Ok st => dr st 0 = (-3)%Z /\ dr st 1 = (-1)%Z | Err _ => False end) by (vm_compute; auto).
  destruct r as [st|e]; [|destruct H]. destruct H as [H0 H1]. exists st. split; [reflexivity|].
  intro Hs. specialize (Hs 1). cbv -[Z.mul Z.add Z.opp du dr] in Hs. rewrite H1 in Hs.
  specialize (Hs (or_intror (or_introl eq_refl))). cbv in Hs. discriminate Hs.
Qed.

(** the nested group, two and more sweeps *)
Definition z_names : list string := ["i.x"; "a.y"; "sub.z"; "sub.c.w"].
Definition z_ks : list conn := [mkK 0 0 1 0; mkK 1 1 2 1; mkK 1 2 2 2].
Definition z_subs : list sys := [Indep [out "x" 0 1]; Comp z_a; z_sub].
Lemma z_nested_fixed : exists st st', zgs 2 true z_names z_ks z_subs (z_st [] [1]%Z []) = Ok (2, st) /\
    zsweep true z_names z_ks z_subs (zvec [1]%Z) st = Ok st' /\ (forall k, In k (flat_map rows z_subs) -> du st' k = du st k) /\
    ~ zsolution true (Group z_names None z_ks z_subs) (zvec [1]%Z) st'.
Proof.
  set (r := zgs 2 true z_names z_ks z_subs (z_st [] [1]%Z [])).
  assert (H : at_end (fun n st => n = 2 /\
            match zsweep true z_names z_ks z_subs (zvec [1]%Z) st with
            | Ok st' => map (du st') [0; 1; 2; 3; 4] = map (du st) [0; 1; 2; 3; 4] /\ map (du st') [0; 1; 2; 3; 4] = [-1; -3; -5; -41; -820]%Z
            | Err _ => False end) r) by (vm_compute; auto).
  destruct r as [[n st]|e]; [|destruct H]. destruct H as [-> H].
  destruct (zsweep true z_names z_ks z_subs (zvec [1]%Z) st) as [st'|e] eqn:E; [|destruct H]. destruct H as [H1 H2].
  exists st, st'. split; [reflexivity|]. split; [exact E|]. cbn [map] in H1, H2. injection H1 as H10 H11 H12 H13 H14.
  injection H2 as H20 H21 H22 H23 H24. split.
  - intros k Hk. simpl in Hk. decompose [or] Hk; subst; auto; try contradiction.
  - intro Hs. specialize (Hs 4). cbv -[Z.mul Z.add Z.opp du dr] in Hs. rewrite H23, H24 in Hs.
    assert (Hin : 0 = 4 \/ 1 = 4 \/ 2 = 4 \/ 3 = 4 \/ 4 = 4 \/ False) by tauto. specialize (Hs Hin). cbv in Hs. discriminate Hs.
Qed.

(** the convergence test: one sweep has solved the system, yet the tested residual
    is not zero *)
Definition z_flat_subs : list sys := [Indep [out "x" 0 1]; Comp z_a].
Definition z_flat_ks : list conn := [mkK 0 0 1 0].
Lemma z_norm_bad : exists st v st', zsweep true ["i.x"; "a.y"] z_flat_ks z_flat_subs (zvec [1]%Z) (z_st [] [1]%Z []) = Ok st /\
    zsolution true (Group ["i.x"; "a.y"] None z_flat_ks z_flat_subs) (zvec [1]%Z) st /\
    gs_resid 0%Z Z.add Z.mul Z.sub true ["i.x"; "a.y"] None z_flat_ks z_flat_subs (zvec [1]%Z) st = Ok (v, st') /\
    v 0 = (-1)%Z.
Proof.
  destruct (zsweep true ["i.x"; "a.y"] z_flat_ks z_flat_subs (zvec [1]%Z) (z_st [] [1]%Z [])) as [st|e] eqn:E.
  2:{ vm_compute in E. discriminate E. }
  destruct (gs_resid 0%Z Z.add Z.mul Z.sub true ["i.x"; "a.y"] None z_flat_ks z_flat_subs (zvec [1]%Z) st) as [[v st']|e] eqn:E2.
  2:{ exfalso. revert E2. injection E as <-. vm_compute. discriminate. }
  exists st, v, st'. split; [reflexivity|]. split; [|split; [exact E2|]].
  - injection E as <-. intros k Hk. simpl in Hk. decompose [or] Hk; subst; try contradiction; vm_compute; reflexivity.
  - injection E as <-. injection E2 as <- _. vm_compute. reflexivity.
Qed.

(** Property theorems for the Krylov and direct linear solvers: C91. *)
From Coq Require Import Ring_theory.
From Verif Require Import Base LinModel LinSpec LinProofs LinProofs2 AssembleModel AssembleProofs GradModel GradSpec GradProofs GradProps KryModel KrySpec KryProofs.
Local Open Scope string_scope.
Local Open Scope nat_scope.
Local Open Scope list_scope.

(** C91: whatever gmres asks, in whatever order, and whatever the preconditioner leaves
    in the vectors: every product it sees is that of the system's matrix (or its
    transpose), and nothing outside the system is touched *)
Theorem gmres_refines : forall F (F0 F1 : F) fadd fmul fsub fopp, ring_theory F0 F1 fadd fmul fsub fopp eq ->
    forall (fwd : bool) s pre, wf s -> harmless F0 fwd s pre ->
    forall t st, sized (length (rows s)) t -> ready F0 fwd s st ->
    exists x info st', drive F0 fadd fmul fsub fwd s pre t st = Ok (x, info, st') /\
      runs (equations F0 F1 fadd fmul fopp fwd s) t x info /\ ready F0 fwd s st' /\ only_inside s st st'.
Proof.
  intros F F0 F1 fadd fmul fsub fopp Fth fwd s pre Hw Hf t st Hs Hr.
  destruct (drive_ok _ _ _ _ _ _ Fth fwd s pre Hw Hf t st Hs Hr) as (x & info & st' & E & _ & R & Z & I). exists x, info, st'. auto.
Qed.
Print Assumptions gmres_refines.

(** the equations determine the product: what gmres saw are products of one matrix *)
Theorem equations_functional : forall F (F0 F1 : F) fadd fmul fopp fwd (s : sys (F:=F)) x y y',
    NoDup (rows s) -> equations F0 F1 fadd fmul fopp fwd s x y -> equations F0 F1 fadd fmul fopp fwd s x y' -> y = y'.
Proof.
  intros F F0 F1 fadd fmul fopp fwd s x y y' N (L & L1 & H1) (_ & L2 & H2).
  rewrite <- (map_spread F0 (rows s) y N L1), <- (map_spread F0 (rows s) y' N L2). apply map_ext_in. intros k Hk.
  rewrite <- (H1 (spread F0 (rows s) x) _ (map_spread F0 (rows s) x N L) (map_spread F0 (rows s) y N L1) k Hk).
  apply (H2 (spread F0 (rows s) x) _ (map_spread F0 (rows s) x N L) (map_spread F0 (rows s) y' N L2) k Hk).
Qed.
Print Assumptions equations_functional.

(** the solver: the solution if gmres converged; an error, or an unfinished solution
    otherwise *)
Theorem gmres_outcome : forall F (F0 F1 : F) fadd fmul fsub fopp, ring_theory F0 F1 fadd fmul fsub fopp eq ->
    forall (fwd err : bool) s pre g rhs st, wf s -> harmless F0 fwd s pre -> ready F0 fwd s st -> length rhs = length (rows s) ->
    gmres_sound (equations F0 F1 fadd fmul fopp fwd s) (length (rows s)) g ->
    exists x info st', runs (equations F0 F1 fadd fmul fopp fwd s) (g rhs) x info /\ only_inside s st st' /\
      ((info = 0)%Z -> gmres_solve F0 fadd fmul fsub fwd err s pre g rhs st = Ok (x, st') /\ equations F0 F1 fadd fmul fopp fwd s x rhs) /\
      ((0 < info)%Z -> gmres_solve F0 fadd fmul fsub fwd err s pre g rhs st = if err then Err AnalysisError else Ok (x, st')) /\
      ((info < 0)%Z -> gmres_solve F0 fadd fmul fsub fwd err s pre g rhs st = Err RuntimeError).
Proof.
  intros F F0 F1 fadd fmul fsub fopp Fth fwd err s pre g rhs st Hw Hf Hr L Hg. destruct (Hg rhs L) as [Sz Sd].
  destruct (drive_ok _ _ _ _ _ _ Fth fwd s pre Hw Hf (g rhs) st Sz Hr) as (x & info & st' & E & _ & R & _ & I). exists x, info, st'.
  split; [exact R|]. split; [exact I|]. unfold gmres_solve. rewrite E. cbn [bind]. split; [|split].
  - intros ->. split; [reflexivity|]. exact (Sd x R).
  - intros H. apply Z.ltb_lt in H. rewrite H. reflexivity.
  - intros H. assert (E1 : (0 <? info)%Z = false) by (apply Z.ltb_ge; lia). apply Z.ltb_lt in H. rewrite E1, H. reflexivity.
Qed.
Print Assumptions gmres_outcome.

(** calc_gradient with ScipyGMRES at the root gives the derivatives of the chain rule in
    both modes *)
Theorem gmres_total_derivatives : forall F (F0 F1 : F) fadd fmul fsub fopp, ring_theory F0 F1 fadd fmul fsub fopp eq ->
    forall p s g indep unknown dv cn, wf s -> (forall fwd, gmres_sound (equations F0 F1 fadd fmul fopp fwd s) (length (rows s)) g) ->
    krylov F0 fadd fmul fsub p s g ->
    plain p -> inside p s (p_poi p) indep -> inside p s (p_qoi p) unknown -> (forall n, In n indep -> ~ In n unknown) ->
    exists X, total_derivatives F0 F1 fadd fmul fopp s X /\
      forall fwd, request_ok p fwd indep unknown ->
      exists J, gradient_array F0 F1 fmul fopp p fwd indep unknown dv cn = Ok J /\ jacobian fmul p indep unknown dv cn X J.
Proof.
  intros F F0 F1 fadd fmul fsub fopp Fth p s g indep unknown dv cn Hw Hg Hk Hp Hi Ho Hd.
  destruct (modes_give_total_derivatives _ F0 F1 fadd fmul fsub fopp Fth p s indep unknown dv cn Hw Hp Hi Ho
              (krylov_exact _ _ _ _ _ _ Fth p s g Hw Hg Hk true) (krylov_exact _ _ _ _ _ _ Fth p s g Hw Hg Hk false) Hd) as [X [H1 [_ H2]]].
  eauto.
Qed.
Print Assumptions gmres_total_derivatives.

(** so does DirectSolver, with the matrix of products with unit vectors *)
Theorem direct_total_derivatives : forall F (F0 F1 : F) fadd fmul fsub fopp, ring_theory F0 F1 fadd fmul fsub fopp eq ->
    forall p s lin indep unknown dv cn, wf s -> lin_sound F0 fadd fmul lin -> direct F0 F1 fadd fmul fsub p s lin ->
    plain p -> inside p s (p_poi p) indep -> inside p s (p_qoi p) unknown -> (forall n, In n indep -> ~ In n unknown) ->
    exists X, total_derivatives F0 F1 fadd fmul fopp s X /\
      forall fwd, request_ok p fwd indep unknown ->
      exists J, gradient_array F0 F1 fmul fopp p fwd indep unknown dv cn = Ok J /\ jacobian fmul p indep unknown dv cn X J.
Proof.
  intros F F0 F1 fadd fmul fsub fopp Fth p s lin indep unknown dv cn Hw Hl Hk Hp Hi Ho Hd.
  destruct (modes_give_total_derivatives _ F0 F1 fadd fmul fsub fopp Fth p s indep unknown dv cn Hw Hp Hi Ho
              (direct_exact _ _ _ _ _ _ Fth p s lin Hw Hl Hk true) (direct_exact _ _ _ _ _ _ Fth p s lin Hw Hl Hk false) Hd) as [X [H1 [_ H2]]].
  eauto.
Qed.
Print Assumptions direct_total_derivatives.

(** LinearGaussSeidel as preconditioner of a feed-forward group does no harm, and is the
    exact inverse *)
Theorem gs_preconditioner : forall F (F0 F1 : F) fadd fmul fsub fopp, ring_theory F0 F1 fadd fmul fsub fopp eq ->
    forall tiny, (forall v, tiny v = true -> Forall (fun x => x = F0) v) ->
    forall (fwd : bool) ns ks subs, let s := Group ns None ks subs in
    wf s -> feed_forward F0 F1 fadd fmul fopp fwd s -> (fwd = false -> unscaled s) ->
    harmless F0 fwd s (Some (gs_pre F0 fadd fmul fsub fopp tiny fwd ns ks subs)) /\
    forall v st, length v = length (rows s) -> ready F0 fwd s st ->
    exists w st', precon F0 fwd s (gs_pre F0 fadd fmul fsub fopp tiny fwd ns ks subs) v st = Ok (w, st') /\ equations F0 F1 fadd fmul fopp fwd s w v.
Proof. intros F F0 F1 fadd fmul fsub fopp Fth tiny Ht. exact (gs_harmless F0 F1 fadd fmul fsub fopp Fth tiny Ht). Qed.
Print Assumptions gs_preconditioner.

(** solve_linear of a group with a solver that solves: the solution stands in du (dr in
    reverse mode), and nothing outside is touched *)
Theorem group_linear_solves : forall F (F0 F1 : F) fadd fmul fsub fopp, ring_theory F0 F1 fadd fmul fsub fopp eq ->
    forall tiny, (forall v, tiny v = true -> Forall (fun x => x = F0) v) ->
    forall (fwd : bool) s solve, wf s ->
    (forall rhs st, length rhs = length (rows s) -> ready F0 fwd s st ->
       exists x st', solve rhs st = Ok (x, st') /\ equations F0 F1 fadd fmul fopp fwd s x rhs /\ only_inside s st st') ->
    forall st, ready F0 fwd s st -> exists st', group_linear F0 tiny fwd s solve st = Ok st' /\ only_inside s st st' /\
      is_solution F0 F1 fadd fmul fopp fwd s (if fwd then dr st else du st) st'.
Proof.
  intros F F0 F1 fadd fmul fsub fopp Fth tiny Ht fwd s solve Hw Hs st Hr.
  destruct (group_ok F0 F1 fadd fmul fsub fopp Fth tiny Ht fwd s solve Hw Hs st Hr) as (st' & E & I & H). exists st'. split; [exact E|]. split; [exact I|].
  intros k Hk. specialize (H k Hk). destruct fwd; exact H.
Qed.
Print Assumptions group_linear_solves.

(** ** the feed-forward group of C29 *)
Definition zlist_eqb (a b : list Z) : bool := (length a =? length b) && forallb (fun ab => (fst ab =? snd ab)%Z) (combine a b).
Lemma zlist_eqb_eq : forall a b, zlist_eqb a b = true <-> a = b.
Proof.
  unfold zlist_eqb. induction a as [|x a IH]; intros [|y b]; cbn; try (split; congruence). specialize (IH b). rewrite !Bool.andb_true_iff in *. rewrite Z.eqb_eq. split.
  - intros (H1 & H2 & H3). f_equal; [exact H2|]. apply IH. auto.
  - intros H. injection H as -> ->. destruct (proj2 IH eq_refl). auto.
Qed.
(** x - (rhs - A x), until A x = rhs, at most n times, after the preconditioner *)
Fixpoint rich (n : nat) (x rhs : list Z) : gm (F:=Z) :=
  Product x (fun r => if zlist_eqb r rhs then Done x 0%Z else
     match n with O => Done x 1%Z | S n => rich n (map (fun a => (fst (fst a) - (snd a - snd (fst a)))%Z) (combine (combine x r) rhs)) rhs end).
Definition zgmres (n : nat) (rhs : list Z) : gm (F:=Z) := Precon rhs (fun x => rich n x rhs).
Lemma rich_sized : forall m n x rhs, length x = m -> length rhs = m -> sized m (rich n x rhs).
Proof.
  intros m. induction n as [|n IH]; intros x rhs L Lr; cbn [rich sized]; (split; [exact L|]); intros w Lw; destruct (zlist_eqb w rhs); try exact L.
  apply IH; [|exact Lr]. rewrite map_length, !combine_length. lia.
Qed.
Lemma rich_sound : forall A n x rhs y, runs A (rich n x rhs) y 0%Z -> A y rhs.
Proof.
  intros A. induction n as [|n IH]; intros x rhs y H; cbn [rich] in H; inversion H as [|v k w x0 info HA HR|]; subst;
    (destruct (zlist_eqb w rhs) eqn:E; [inversion HR; subst; apply zlist_eqb_eq in E; subst; exact HA|]).
  - inversion HR.
  - apply (IH _ _ _ HR).
Qed.
Lemma zgmres_sound : forall A m n, gmres_sound A m (zgmres n).
Proof.
  intros A m n rhs L. split.
  - cbn [zgmres sized]. split; [exact L|]. intros w Lw. apply rich_sized; assumption.
  - intros x H. inversion H; subst. eapply rich_sound. eassumption.
Qed.
Notation zdrive := (drive 0%Z Z.add Z.mul Z.sub).
Notation zpre fwd := (gs_pre 0%Z Z.add Z.mul Z.sub Z.opp zrest fwd z_names z_ks z_subs).
Notation zeqs := (equations 0%Z 1%Z Z.add Z.mul Z.opp).
Definition kry_p : prob :=
  mkProb 5 (sget [("x", (0, 1)); ("y", (1, 2)); ("z", (3, 1)); ("w", (4, 1))]) [["x"]] [["w"]] [] [] false false (fun _ => true) (fun _ _ => true)
    (fun fwd _ rhs => match zdrive fwd z_group (Some (zpre fwd)) (zgmres 0 (map rhs (rows z_group))) (z_st [] [] []) with
                      | Ok r => spread 0%Z (rows z_group) (fst (fst r))
                      | Err _ => fun _ => 0%Z
                      end).
(** the preconditioner is exact: the first product already fits *)
Lemma zgmres_converges : forall (fwd : bool) rhs, length rhs = 5 -> exists x st', zdrive fwd z_group (Some (zpre fwd)) (zgmres 0 rhs) (z_st [] [] []) = Ok (x, 0%Z, st') /\ length x = 5.
Proof.
  intros fwd rhs L. pose proof (gs_preconditioner _ _ _ _ _ _ _ Zth zrest zrest_zero fwd z_names z_ks z_subs z_group_wf (z_group_ff fwd) (fun _ => z_group_un)) as [Hf Hp].
  assert (R0 : ready 0%Z fwd z_group (z_st [] [] [])) by (intros _ t _; apply z_st_zero).
  destruct (Hp rhs (z_st [] [] []) L R0) as (w & st1 & E & Q). cbn [zgmres drive].
  change (Group z_names None z_ks z_subs) with z_group in *. rewrite E. cbn [bind fst snd]. cbn [rich drive].
  destruct (precon_ok 0%Z fwd z_group _ rhs (z_st [] [] []) z_group_wf Hf L R0) as (w' & st1' & E' & Lw & R1 & _). rewrite E in E'. assert (w' = w) by congruence. assert (st1' = st1) by congruence. subst.
  destruct (product_ok _ _ _ _ _ _ Zth fwd z_group w st1 z_group_wf Lw R1) as (r & st2 & E2 & _ & _ & _ & Q2). rewrite E2. cbn [bind fst snd].
  assert (Er : r = rhs) by exact (equations_functional _ _ _ _ _ _ fwd z_group w r rhs (proj1 (wf_nodup z_group z_group_wf)) Q2 Q).
  rewrite (proj2 (zlist_eqb_eq r rhs) Er). cbn [drive]. exists w, st2. auto.
Qed.
Example gmres_total_ex : wf z_group /\ (forall fwd, gmres_sound (zeqs fwd z_group) 5 (zgmres 0)) /\ krylov 0%Z Z.add Z.mul Z.sub kry_p z_group (zgmres 0) /\
    plain kry_p /\ inside kry_p z_group [] ["x"] /\ inside kry_p z_group [] ["w"; "y"] /\ (forall fwd, request_ok kry_p fwd ["x"] ["w"; "y"]) /\
    (forall fwd, out_of (zgrad kry_p fwd ["x"] ["w"; "y"] noscale noscale) = Ok [[410]; [3]; [5]]%Z).
Proof.
  assert (Hx : var_ok kry_p [] "x") by (exists 0, 1; repeat split; [simpl; lia|discriminate|discriminate|discriminate]).
  assert (Hy : var_ok kry_p [] "y") by (exists 1, 2; repeat split; [simpl; lia|discriminate|discriminate|discriminate]).
  assert (Hw : var_ok kry_p [] "w") by (exists 4, 1; repeat split; [simpl; lia|discriminate|discriminate|discriminate]).
  split; [exact z_group_wf|]. split; [intros fwd; apply zgmres_sound|]. split; [|split; [|split; [|split; [|split]]]].
  - intros fwd rhs. destruct (zgmres_converges fwd (map rhs (rows z_group)) eq_refl) as (x & st' & E & L).
    exists (Some (zpre fwd)), (z_st [] [] []), x, st'.
    split; [exact (proj1 (gs_preconditioner _ _ _ _ _ _ _ Zth zrest zrest_zero fwd z_names z_ks z_subs z_group_wf (z_group_ff fwd) (fun _ => z_group_un)))|].
    split; [intros _ t _; apply z_st_zero|]. split; [exact E|]. unfold kry_p. cbn [p_solve]. rewrite E. cbn [fst].
    apply map_spread; [exact (proj1 (wf_nodup z_group z_group_wf))|exact L].
  - split; [|reflexivity]. intros v [H _]. discriminate H.
  - intros n k [<-|[]] H. simpl in *. intuition.
  - intros n k [<-|[<-|[]]] H; simpl in *; intuition.
  - intros fwd. repeat split.
    + repeat constructor. intros [].
    + repeat constructor; simpl; intuition discriminate.
    + intros n [<-|[]]. exact Hx.
    + intros n [<-|[<-|[]]]; auto.
    + intros grp Hg. destruct fwd; simpl in Hg; destruct Hg as [<-|[]]; apply one_group; simpl; auto.
  - intros []; vm_compute; reflexivity.
Qed.
(** without a preconditioner: five products *)
Definition shown (r : res (list Z * state (F:=Z))) : res (list Z) := let! x := r in Ok (fst x).
Notation zgm := (gmres_solve 0%Z Z.add Z.mul Z.sub).
Example gmres_plain_ex : forall fwd, shown (zgm fwd true z_group None (zgmres 5) [-1; 0; 0; 0; 0]%Z (z_st [7]%Z [7]%Z [])) = Ok (if fwd then [1; 3; 5; 41; 410]%Z else [1; 0; 0; 0; 0]%Z).
Proof. intros []; vm_compute; reflexivity. Qed.
(** a 2 x 2 system with feedback, y = 2 x and x = y + p: no sweep solves it; DirectSolver
    with Cramer's rule does *)
Definition fb_x : comp := mkC [par "y" 0 1; par "p" 1 1] [out "x" 0 1] false (Some [(("x", "y"), zmat 1 1 [1]%Z); (("x", "p"), zmat 1 1 [1]%Z)]) None.
Definition fb_y : comp := mkC [par "x" 2 1] [out "y" 1 1] false (Some [(("y", "x"), zmat 1 1 [2]%Z)]) None.
Definition fb_sys : sys := Group ["x"; "y"] None [mkK 1 1 0 0; mkK 0 0 1 2] [Comp fb_x; Comp fb_y].
Definition cramer (M : list (list Z)) (b : list Z) : res (list Z) :=
  match M, b with
  | [[a; c]; [d; e]], [u; v] =>
      let det := (a * e - c * d)%Z in
      if (det * det =? 1)%Z then Ok [(det * (e * u - c * v))%Z; (det * (a * v - d * u))%Z] else Err ValueError
  | _, _ => Err ValueError
  end.
Lemma cramer_sound : lin_sound 0%Z Z.add Z.mul cramer.
Proof.
  intros [|[|a [|c [|]]] [|[|d [|e [|]]] [|]]] [|u [|v [|]]] x H; try discriminate H. cbn [cramer] in H. destruct (_ =? 1)%Z eqn:E in H; [|discriminate H].
  apply Z.eqb_eq in E. injection H as <-. split; [reflexivity|]. unfold times_row. cbn [map combine fold_right fst snd].
  f_equal; [|f_equal].
  - transitivity ((a * e - c * d) * (a * e - c * d) * u)%Z; [ring|]. rewrite E. ring.
  - transitivity ((a * e - c * d) * (a * e - c * d) * v)%Z; [ring|]. rewrite E. ring.
Qed.
Lemma fb_wf : wf fb_sys.
Proof.
  assert (wf_comp fb_x) by wfc. assert (wf_comp fb_y) by wfc.
  split; [nodup|]. split; [nodup|]. split; [nodup|]. split; [intros k Hk; simpl in *; tauto|]. split; [intros k Hk; simpl in *; tauto|]. cbn; auto.
Qed.
Example direct_ex : wf fb_sys /\ lin_sound 0%Z Z.add Z.mul cramer /\
    (forall fwd, shown (direct_mvp 0%Z 1%Z Z.add Z.mul Z.sub fwd fb_sys cramer [-1; 0]%Z (z_st [4; 5]%Z [6]%Z [])) = Ok (if fwd then [-1; -2]%Z else [-1; -1]%Z)) /\
    (forall fwd, shown (zgm fwd true fb_sys None (zgmres 9) [-1; 0]%Z (z_st [] [] [])) = Err AnalysisError).
Proof. split; [exact fb_wf|]. split; [exact cramer_sound|]. split; intros []; vm_compute; reflexivity. Qed.

(** ** where it fails *)
Lemma shown_ok : forall r x, shown r = Ok x -> exists st, r = Ok (x, st).
Proof. intros [[y st]|e] x H; [|discriminate H]. cbn in H. exists st. congruence. Qed.
(** a solve that did not converge is returned like one that did (err_on_maxiter is off) *)
Theorem gmres_unconverged_refuted : exists (s : sys (F:=Z)) g rhs st x st', wf s /\ ready 0%Z true s st /\ gmres_sound (zeqs true s) (length (rows s)) g /\
    zgm true false s None g rhs st = Ok (x, st') /\ ~ zeqs true s x rhs.
Proof.
  assert (H : shown (zgm true false z_group None (zgmres 0) [-1; 0; 0; 0; 0]%Z (z_st [] [] [])) = Ok [-1; 0; 0; 0; 0]%Z) by (vm_compute; reflexivity).
  destruct (shown_ok _ _ H) as [st' E]. exists z_group, (zgmres 0), [-1; 0; 0; 0; 0]%Z, (z_st [] [] []), [-1; 0; 0; 0; 0]%Z, st'.
  split; [exact z_group_wf|]. split; [intros _ t _; apply z_st_zero|]. split; [apply zgmres_sound|]. split; [exact E|].
  intros (_ & _ & Q). specialize (Q (zvec [-1; 0; 0; 0; 0]%Z) (zvec [-1; 0; 0; 0; 0]%Z) eq_refl eq_refl 0 (or_introl eq_refl)). vm_compute in Q. discriminate Q.
Qed.
Print Assumptions gmres_unconverged_refuted.
(** a parameter from outside with a value: the products are not those of a matrix *)
Theorem gmres_not_ready_refuted : exists (s : sys (F:=Z)) st w st', wf s /\ product 0%Z Z.add Z.mul Z.sub true s (map (fun _ => 0%Z) (rows s)) st = Ok (w, st') /\
    ~ zeqs true s (map (fun _ => 0%Z) (rows s)) w.
Proof.
  assert (H : shown (product 0%Z Z.add Z.mul Z.sub true fb_sys (map (fun _ => 0%Z) (rows fb_sys)) (z_st [] [] [0; 3]%Z)) = Ok [3; 0]%Z) by (vm_compute; reflexivity).
  destruct (shown_ok _ _ H) as [st' E]. exists fb_sys, (z_st [] [] [0; 3]%Z), [3; 0]%Z, st'. split; [exact fb_wf|]. split; [exact E|].
  intros (_ & _ & Q). specialize (Q (fun _ => 0%Z) (zvec [3; 0]%Z) eq_refl eq_refl 0 (or_introl eq_refl)). vm_compute in Q. discriminate Q.
Qed.
Print Assumptions gmres_not_ready_refuted.

(** Property theorems for total derivatives by finite differences: C89. *)
From Coq Require Import Field_theory Field Qcanon.
From Verif Require Import Base BaseFacts GradModel LinModel LinSpec LinProofs LinProofs2 GradSpec GradProofs GradProps TotModel TotSpec TotProofs TotProofs2 TotProofs3.
From Verif Require FdModel FdSpec FdProofs.
Local Open Scope string_scope.
Local Open Scope nat_scope.
Local Open Scope list_scope.

(** C89: the array holds the difference quotients of the model, for the functions phi it
    computes, whatever they are; scaled, in the places of the requested entries *)
Theorem fd_array_quotients : forall F (F0 F1 : F) fadd fmul fsub fopp fdiv finv flt, field_theory F0 F1 fadd fmul fsub fopp fdiv finv eq -> fadd F1 F1 <> F0 ->
    forall r p run indep unknown s0 ins phi X dv cn, fd_request F0 flt r p indep unknown -> fd_model F0 p run indep unknown ins phi s0 ->
    table F0 F1 p indep unknown (quotients F0 F1 fadd fmul fsub fopp fdiv flt r p ins phi s0) X ->
    exists J, fd_array F0 F1 fadd fmul fsub fopp finv flt r p run indep unknown s0 dv cn = Ok J /\ jacobian fmul p indep unknown dv cn X J.
Proof.
  intros F F0 F1 fadd fmul fsub fopp fdiv finv flt Fth two r p run indep unknown s0 ins phi X dv cn Hr Hm HX.
  exact (fd_array_ok F0 F1 fadd fmul fsub fopp fdiv finv flt Fth r p run indep unknown s0 Hr ins phi Hm two X dv cn HX).
Qed.
Print Assumptions fd_array_quotients.

(** the dictionary *)
Theorem fd_dict_quotients : forall F (F0 F1 : F) fadd fmul fsub fopp fdiv finv flt, field_theory F0 F1 fadd fmul fsub fopp fdiv finv eq -> fadd F1 F1 <> F0 ->
    forall r p run indep unknown s0 ins phi X dv cn sp, fd_request F0 flt r p indep unknown -> fd_model F0 p run indep unknown ins phi s0 ->
    (forall u, In u unknown -> match sp with None => True | Some d => exists l : list string, sget d u = Some l end) ->
    table F0 F1 p indep unknown (quotients F0 F1 fadd fmul fsub fopp fdiv flt r p ins phi s0) X ->
    exists J, fd_dict F0 F1 fadd fmul fsub fopp finv flt r p run indep unknown s0 dv cn sp = Ok J /\ jacobian_dict fmul p indep unknown dv cn sp X J.
Proof.
  intros F F0 F1 fadd fmul fsub fopp fdiv finv flt Fth two r p run indep unknown s0 ins phi X dv cn sp Hr Hm Hsp HX.
  exact (fd_dict_ok F0 F1 fadd fmul fsub fopp fdiv finv flt Fth r p run indep unknown s0 Hr ins phi Hm two X dv cn sp HX Hsp).
Qed.
Print Assumptions fd_dict_quotients.

(** for polynomials of degree one, or two with central differences, these are the
    derivatives; the state is consistent unless the differences are central *)
Theorem fd_total_exact : forall F (F0 F1 : F) fadd fmul fsub fopp fdiv finv flt, field_theory F0 F1 fadd fmul fsub fopp fdiv finv eq -> fadd F1 F1 <> F0 ->
    forall r p run indep unknown s0 ins phi e X dv cn, fd_request F0 flt r p indep unknown -> fd_model F0 p run indep unknown ins phi s0 ->
    let asked k := exists u, In u unknown /\ ~ In u indep /\ In k (wanted p (p_qoi p) u) in
    (forall k x, asked k -> phi k x = FdSpec.peval fadd fmul fopp (FdSpec.at_list F0 x) (e k)) ->
    (forall v o k, In v indep -> steps_by r p v o -> asked k ->
       FdSpec.pdeg (e k) <= FdSpec.deg_bound (t_form o) /\ (t_form o <> FdModel.Central -> nth k (FdModel.s_u s0) F0 = phi k (FdSpec.inputs F0 ins s0))) ->
    table F0 F1 p indep unknown (derivatives F0 F1 fadd fmul fopp ins e s0) X ->
    exists J, fd_array F0 F1 fadd fmul fsub fopp finv flt r p run indep unknown s0 dv cn = Ok J /\ jacobian fmul p indep unknown dv cn X J.
Proof.
  intros F F0 F1 fadd fmul fsub fopp fdiv finv flt Fth two r p run indep unknown s0 ins phi e X dv cn Hr Hm asked Hphi Hdeg HX.
  apply (fd_array_quotients F F0 F1 fadd fmul fsub fopp fdiv finv flt Fth two r p run indep unknown s0 ins phi X dv cn Hr Hm).
  exact (exact_table F0 F1 fadd fmul fsub fopp fdiv finv flt Fth r p run indep unknown s0 Hr ins phi Hm two e X Hphi Hdeg HX).
Qed.
Print Assumptions fd_total_exact.

(** a model whose equations are linear: finite differences and the linear solver, in
    both modes, give the same array, that of the chain rule (C74) *)
Theorem fd_agrees_with_solver : forall F (F0 F1 : F) fadd fmul fsub fopp fdiv finv flt, field_theory F0 F1 fadd fmul fsub fopp fdiv finv eq -> fadd F1 F1 <> F0 ->
    forall r p run indep unknown s0 ins U (s : sys (F:=F)) dv cn, fd_request F0 flt r p indep unknown -> fd_model F0 p run indep unknown ins (fun k x => U x k) s0 ->
    linear_model F0 F1 fadd fmul fsub fopp s ins U ->
    wf s -> plain p -> inside p s (p_poi p) indep -> inside p s (p_qoi p) unknown ->
    exact F0 F1 fadd fmul fopp p s true -> exact F0 F1 fadd fmul fopp p s false -> (forall n, In n indep -> ~ In n unknown) ->
    (forall v o u k, In v indep -> steps_by r p v o -> t_form o <> FdModel.Central -> In u unknown -> In k (wanted p (p_qoi p) u) ->
       nth k (FdModel.s_u s0) F0 = U (FdSpec.inputs F0 ins s0) k) ->
    exists X, total_derivatives F0 F1 fadd fmul fopp s X /\
    exists J, fd_array F0 F1 fadd fmul fsub fopp finv flt r p run indep unknown s0 dv cn = Ok J /\ jacobian fmul p indep unknown dv cn X J /\
    forall fwd, request_ok p fwd indep unknown -> exists K, gradient_array F0 F1 fmul fopp p fwd indep unknown dv cn = Ok K /\ same_array J K.
Proof.
  intros F F0 F1 fadd fmul fsub fopp fdiv finv flt Fth two r p run indep unknown s0 ins U s dv cn Hr Hm HL Hw Hp Hi Ho He He' Hd Hc.
  destruct (modes_give_total_derivatives F F0 F1 fadd fmul fsub fopp (F_R Fth) p s indep unknown dv cn Hw Hp Hi Ho He He' Hd) as (X & HX & _ & HG).
  exists X. split; [exact HX|].
  destruct (fd_array_quotients F F0 F1 fadd fmul fsub fopp fdiv finv flt Fth two r p run indep unknown s0 ins (fun k x => U x k) X dv cn Hr Hm
              (linear_table F0 F1 fadd fmul fsub fopp fdiv finv flt Fth r p run indep unknown s0 s ins U X two Hr Hm HL Hw He' HX Hi Ho Hd Hc)) as (J & E & HJ).
  exists J. split; [exact E|]. split; [exact HJ|]. intros fwd Hok. destruct (HG fwd Hok) as (K & EK & HK). exists K. split; [exact EK|].
  exact (jacobian_unique fmul p indep unknown dv cn X J K HJ HK).
Qed.
Print Assumptions fd_agrees_with_solver.

(** ** a problem: x (two entries) from p, c: y = (x0 x1 + 3, x1 x1 - x0).  The target
    c.x is not promoted and has settings of its own: central differences *)
Definition tq (a : Z) (b : positive) : Qc := Q2Qc (a # b).
Definition tlt (a b : Qc) : bool := match (this a ?= this b)%Q with Lt => true | _ => false end.
Notation tfd := (fd_array (tq 0 1) (tq 1 1) Qcplus Qcmult Qcminus Qcopp Qcinv tlt).
Notation tfdd := (fd_dict (tq 0 1) (tq 1 1) Qcplus Qcmult Qcminus Qcopp Qcinv tlt).
Definition tshow (J : arr (F:=Qc)) : list (list Q) := map (fun i => map (fun j => this (a_at J i j)) (seq 0 (a_cols J))) (seq 0 (a_rows J)).
Definition tout (x : res (arr (F:=Qc))) : res (list (list Q)) := let! J := x in Ok (tshow J).
Definition tdout (x : res (jdict (F:=Qc))) : res (list (string * list (string * option (list (list Q))))) :=
  let! J := x in Ok (map (fun row => (fst row, map (fun c => (fst c, option_map tshow (snd c))) (snd row))) J).
Definition t_none : string -> option Qc := fun _ => None.
Definition t_es : list (FdSpec.pexpr Qc nat) :=
  [FdSpec.PAdd (FdSpec.PMul (FdSpec.PV 0) (FdSpec.PV 1)) (FdSpec.PC (tq 3 1)); FdSpec.PAdd (FdSpec.PMul (FdSpec.PV 1) (FdSpec.PV 1)) (FdSpec.PNeg (FdSpec.PV 0))].
Definition t_run := FdModel.group_solve 2 (FdSpec.poly_out (tq 0 1) Qcplus Qcmult Qcopp t_es).
Definition t_s0 : FdModel.st (F:=Qc) := FdModel.mkSt [tq 2 1; tq 5 1] [tq 2 1; tq 5 1; tq 13 1; tq 23 1] [].
Definition t_root (own : own (F:=Qc)) (promoted : bool) : root (F:=Qc) :=
  mkRoot [("x", "p.x"); ("y", "c.y")] [("p.x", "x"); ("c.y", "y"); ("c.x", if promoted then "x" else "c.x")] [((if promoted then "x" else "c.x"), ["c.x"])]
    [("c.x", "p.x")] [("c.x", ("c.x", 0, 2))] (fun _ => own) (mkSet (tq 1 1) false FdModel.Forward).
Definition t_own : own (F:=Qc) := mkOwn (Some (tq 1 10)) (Some true) (Some FdModel.Central).
Definition t_p (qoi : list (string * list Z)) : prob (F:=Qc) :=
  mkProb 4 (sget [("x", (0, 2)); ("y", (2, 2))]) [] [] [] qoi false false (fun _ => true) (fun _ _ => true) (fun _ _ v => v).
Definition t_dv (n : string) : option Qc := if String.eqb n "x" then Some (tq 10 1) else None.
Definition t_cn (n : string) : option Qc := if String.eqb n "y" then Some (tq 1 2) else None.
Definition t_ins : list (FdModel.place * nat) := [(FdModel.InU, 0); (FdModel.InU, 1)].

Lemma t_two : Qcplus (tq 1 1) (tq 1 1) <> tq 0 1.
Proof. intros H. apply (f_equal this) in H. discriminate H. Qed.
Lemma t_resolved : forall own, resolved (t_root own false) (t_p [("x", [1; 0]%Z)]) "x" "p.x" "c.x".
Proof.
  intros own. constructor; try reflexivity.
  - exists [], []. split; [reflexivity|]. intros c [].
  - intros H. exfalso. apply H. reflexivity.
  - intros [H|[]]. discriminate H.
  - intros key q [E|[]] _. assert (key = "c.x" /\ q = ("c.x", 0, 2)) as [-> ->] by (split; congruence). reflexivity.
Qed.
Lemma t_request : fd_request (tq 0 1) tlt (t_root t_own false) (t_p [("x", [1; 0]%Z)]) ["x"] ["y"; "x"].
Proof.
  split; [repeat constructor; intros []|]. split; [repeat constructor; intros []|].
  split; [repeat constructor; simpl; intuition discriminate|]. split; [discriminate|]. split; [|split; [|split]].
  - intros v [<-|[]]. split; [exists 0, 2; split; [reflexivity|]; split; [simpl; lia|intros l H; discriminate H]|]. split; [discriminate|].
    exists (mkSet (tq 1 10) true FdModel.Central). split.
    + exists "p.x", "c.x". split; [apply t_resolved|]. exists "c.x", []. repeat split.
    + split; [intros H; apply (f_equal this) in H; discriminate H|]. intros _. reflexivity.
  - intros u [<-|[<-|[]]].
    + exists 2, 2. split; [reflexivity|]. split; [simpl; lia|]. intros l H. discriminate H.
    + exists 0, 2. split; [reflexivity|]. split; [simpl; lia|]. intros l H. assert (l = [1; 0]%Z) by (cbn in H; congruence). subst l.
      split; [discriminate|]. split; [simpl; lia|]. repeat apply Forall_cons; try apply Forall_nil; simpl; lia.
  - intros u [<-|[<-|[]]] H; [destruct H as [H|[]]; discriminate H|]. exists [1; 0]%Z. split; [reflexivity|]. repeat constructor; simpl; intuition discriminate.
  - intros u v k _ [<-|[]] [<-|[]] _ _. reflexivity.
Qed.
Lemma t_model : fd_model (tq 0 1) (t_p [("x", [1; 0]%Z)]) t_run ["x"] ["y"; "x"] t_ins
    (fun k x => FdSpec.peval Qcplus Qcmult Qcopp (FdSpec.at_list (tq 0 1) x) (nth (k - 2) t_es (FdSpec.PC (tq 0 1)))) t_s0.
Proof.
  assert (A : forall k, (exists u, In u ["y"; "x"] /\ ~ In u ["x"] /\ In k (wanted (t_p [("x", [1; 0]%Z)]) [("x", [1; 0]%Z)] u)) -> 2 <= k < 2 + length t_es).
  { intros k (u & [<-|[<-|[]]] & N & H); [|exfalso; apply N; left; reflexivity]. cbn in H |- *. lia. }
  assert (B : FdSpec.evaluates (tq 0 1) true t_run t_ins (fun k => 2 <= k < 2 + length t_es)
      (fun k x => FdSpec.peval Qcplus Qcmult Qcopp (FdSpec.at_list (tq 0 1) x) (nth (k - 2) t_es (FdSpec.PC (tq 0 1)))) t_s0).
  { exact (FdProofs.group_evaluates (tq 0 1) Qcplus Qcmult Qcopp 2 t_es t_s0 ltac:(repeat constructor) eq_refl eq_refl). }
  split; [|split; [|split; [|split]]].
  - destruct B as [B1 B2 B3]. constructor; [exact B1|exact B2|]. intros s k Hs Hk. apply B3; [exact Hs|apply A; exact Hk].
  - intros w i [H|[H|[]]]; assert (w = FdModel.InU) by congruence; subst w; assert (i <= 1) by (injection H; lia); cbn; lia.
  - intros k Hk. apply A in Hk. cbn in Hk |- *. split; [lia|]. intros _ [H|[H|[]]]; injection H; lia.
  - repeat constructor; simpl; intuition discriminate.
  - intros v q [<-|[]] [<-|[<-|[]]]; [left|right; left]; reflexivity.
Qed.
(** the derivatives at (2, 5) are (5, 2; -1, 10): times 10, times 1/2; then x in the
    order of its indices.  The settings of c.x are used. *)
Example fd_total_ex :
    fd_request (tq 0 1) tlt (t_root t_own false) (t_p [("x", [1; 0]%Z)]) ["x"] ["y"; "x"] /\
    fd_model (tq 0 1) (t_p [("x", [1; 0]%Z)]) t_run ["x"] ["y"; "x"] t_ins
      (fun k x => FdSpec.peval Qcplus Qcmult Qcopp (FdSpec.at_list (tq 0 1) x) (nth (k - 2) t_es (FdSpec.PC (tq 0 1)))) t_s0 /\
    tout (tfd (t_root t_own false) (t_p [("x", [1; 0]%Z)]) t_run ["x"] ["y"; "x"] t_s0 t_dv t_cn) = Ok [[25; 10]; [-5 # 1; 50]; [0; 10]; [10; 0]]%Q /\
    tdout (tfdd (t_root t_own false) (t_p [("x", [1; 0]%Z)]) t_run ["x"] ["y"; "x"] t_s0 t_dv t_cn (Some [("y", ["x"]); ("x", [])]))
      = Ok [("y", [("x", Some [[25; 10]; [-5 # 1; 50]]%Q)]); ("x", [])].
Proof. split; [exact t_request|]. split; [exact t_model|]. split; vm_compute; reflexivity. Qed.

(** a linear model: y = 3 x + 4 *)
Definition l_c : comp (F:=Qc) := mkC [mkP "x" 0 1 None] [mkU "y" 1 1 false None] false (Some [(("y", "x"), mkM 1 1 (fun _ _ => tq 3 1))]) None.
Definition l_sys : sys (F:=Qc) := Group ["x"; "y"] None [mkK 0 0 1 0] [Indep [mkU "x" 0 1 false None]; Comp l_c].
Definition l_p : prob (F:=Qc) :=
  mkProb 2 (sget [("x", (0, 1)); ("y", (1, 1))]) [["x"]] [["y"]] [] [] false false (fun _ => true) (fun _ _ => true)
    (fun fwd _ rhs k => if fwd then (if k =? 0 then Qcopp (rhs 0) else Qcminus (Qcopp (Qcmult (tq 3 1) (rhs 0))) (rhs 1))
                       else if k =? 1 then Qcopp (rhs 1) else Qcminus (Qcopp (Qcmult (tq 3 1) (rhs 1))) (rhs 0)).
Definition l_U (x : list Qc) (k : nat) : Qc := if k =? 0 then nth 0 x (tq 0 1) else Qcplus (Qcmult (tq 3 1) (nth 0 x (tq 0 1))) (tq 4 1).
Definition l_run := FdModel.group_solve 1 (fun x => [Qcplus (Qcmult (tq 3 1) (nth 0 x (tq 0 1))) (tq 4 1)]).
Definition l_s0 : FdModel.st (F:=Qc) := FdModel.mkSt [tq 5 1] [tq 5 1; tq 19 1] [].
Definition l_root : root (F:=Qc) :=
  mkRoot [("x", "p.x"); ("y", "c.y")] [("p.x", "x"); ("c.y", "y"); ("c.x", "c.x")] [("c.x", ["c.x"])] [("c.x", "p.x")] [("c.x", ("c.x", 0, 1))]
    (fun _ => mkOwn None None None) (mkSet (tq 1 10) false FdModel.Backward).
Lemma l_mat : forall (f : nat -> Qc) k, row_of (tq 0 1) Qcplus Qcmult (sys_mat (tq 1 1) Qcmult Qcopp None l_sys) (over f (fun _ => tq 0 1)) k
    = if k =? 0 then Qcopp (f 0) else if k =? 1 then Qcminus (Qcmult (tq 3 1) (f 0)) (f 1) else tq 0 1.
Proof.
  intros f k. cbn. destruct k as [|[|k]]; cbn; change (tq 0 1) with 0%Qc; change (tq 1 1) with 1%Qc; ring.
Qed.
Lemma l_mat_t : forall (f : nat -> Qc) k, k < 2 -> col_of (tq 0 1) Qcplus Qcmult (sys_mat (tq 1 1) Qcmult Qcopp None l_sys) f (CU k)
    = if k =? 0 then Qcminus (Qcmult (tq 3 1) (f 1)) (f 0) else Qcopp (f 1).
Proof. intros f k Hk. destruct k as [|[|k]]; [| |lia]; cbn; change (tq 0 1) with 0%Qc; change (tq 1 1) with 1%Qc; ring. Qed.
Example fd_agrees_ex :
    fd_request (tq 0 1) tlt l_root l_p ["x"] ["y"] /\ fd_model (tq 0 1) l_p l_run ["x"] ["y"] [(FdModel.InU, 0)] (fun k x => l_U x k) l_s0 /\
    linear_model (tq 0 1) (tq 1 1) Qcplus Qcmult Qcminus Qcopp l_sys [(FdModel.InU, 0)] l_U /\ wf l_sys /\ plain l_p /\
    inside l_p l_sys [] ["x"] /\ inside l_p l_sys [] ["y"] /\
    (forall fwd, exact (tq 0 1) (tq 1 1) Qcplus Qcmult Qcopp l_p l_sys fwd) /\ (forall fwd, request_ok l_p fwd ["x"] ["y"]) /\
    nth 1 (FdModel.s_u l_s0) (tq 0 1) = l_U (FdSpec.inputs (tq 0 1) [(FdModel.InU, 0)] l_s0) 1 /\
    tout (tfd l_root l_p l_run ["x"] ["y"] l_s0 t_dv t_cn) = Ok [[15]]%Q /\
    forall fwd, tout (gradient_array (tq 0 1) (tq 1 1) Qcmult Qcopp l_p fwd ["x"] ["y"] t_dv t_cn) = Ok [[15]]%Q.
Proof.
  assert (Hx : var_ok l_p [] "x") by (exists 0, 1; repeat split; [simpl; lia|discriminate|discriminate|discriminate]).
  assert (Hy : var_ok l_p [] "y") by (exists 1, 1; repeat split; [simpl; lia|discriminate|discriminate|discriminate]).
  split; [|split; [|split; [|split; [|split; [|split; [|split; [|split; [|split; [|split; [|split]]]]]]]]]].
  - split; [repeat constructor; intros []|]. split; [repeat constructor; intros []|]. split; [repeat constructor; intros []|]. split; [discriminate|]. split; [|split; [|split]].
    + intros v [<-|[]]. split; [exact Hx|]. split; [discriminate|]. exists (mkSet (tq 1 10) false FdModel.Backward). split.
      * exists "p.x", "c.x". split; [|exists "c.x", []; repeat split]. constructor; try reflexivity.
        -- exists [], []. split; [reflexivity|]. intros c [].
        -- intros H. exfalso. apply H. reflexivity.
        -- intros [H|[]]. discriminate H.
        -- intros key q [E|[]] _. assert (key = "c.x" /\ q = ("c.x", 0, 1)) as [-> ->] by (split; congruence). reflexivity.
      * split; [intros H; apply (f_equal this) in H; discriminate H|]. intros H. discriminate H.
    + intros u [<-|[]]. exact Hy.
    + intros u [<-|[]] [H|[]]. discriminate H.
    + intros u v k [<-|[]] [H|[]]. discriminate H.
  - split; [|split; [|split; [|split]]].
    + constructor.
      * intros s (H1 & H2 & H3). cbn in H1, H2, H3. destruct (FdModel.s_u s) as [|a [|b [|c l]]] eqn:E; try discriminate H2. unfold l_run, FdModel.group_solve. rewrite E. repeat split. cbn. exact H3.
      * intros s w i (H1 & H2 & H3) [H|[]]. assert (w = FdModel.InU /\ i = 0) as [-> ->] by (split; congruence). cbn in H2. destruct (FdModel.s_u s) as [|a l] eqn:E; [discriminate H2|].
        unfold l_run, FdModel.group_solve. cbn. rewrite E. reflexivity.
      * intros s k (H1 & H2 & H3) (u & [<-|[]] & _ & [<-|[]]). cbn in H2. destruct (FdModel.s_u s) as [|a l] eqn:E; [discriminate H2|].
        unfold l_run, FdModel.group_solve. cbn. rewrite E. reflexivity.
    + intros w i [H|[]]. assert (w = FdModel.InU /\ i = 0) as [-> ->] by (split; congruence). cbn. lia.
    + intros k (u & [<-|[]] & _ & [<-|[]]). cbn. split; [lia|]. intros _ [H|[]]. discriminate H.
    + repeat constructor. intros [].
    + intros v q [<-|[]] [<-|[]]. left. reflexivity.
  - intros x y k Hx' Hy' Hk. cbv zeta. rewrite l_mat. split.
    + intros [|j] Hj; [|destruct j; discriminate Hj]. assert (k = 0) by (cbn in Hj; congruence). subst k. reflexivity.
    + intros N. destruct Hk as [<-|[<-|[]]]; [exfalso; apply N; left; reflexivity|]. cbn. unfold l_U. cbn. change (tq 0 1) with 0%Qc. ring.
  - assert (wf_comp l_c).
    { split; [nodup|]. split; [nodup|]. eexists. split; [reflexivity|]. split; [|discriminate]. apply Forall_cons; [|apply Forall_nil].
      intros u Hu. assert (u = mkU "y" 1 1 false None) by (cbn in Hu; congruence). subst u. split; [discriminate|]. intros q _ Hq. assert (q = mkP "x" 0 1 None) by (cbn in Hq; congruence). subst q. split; reflexivity. }
    assert (wf (Indep [mkU "x" 0 1 false (None (A:=Qc))])) by (split; [nodup|repeat constructor]).
    split; [nodup|]. split; [nodup|]. split; [nodup|]. split; [intros k Hk; simpl in *; tauto|]. split; [intros k Hk; simpl in *; tauto|]. cbn; auto.
  - split; [|reflexivity]. intros v [H _]. discriminate H.
  - intros n k [<-|[]] H. simpl in *. intuition.
  - intros n k [<-|[]] H. simpl in *. intuition.
  - intros fwd rhs k Hk. assert (K : k < 2) by (cbn in Hk; lia). destruct fwd.
    + rewrite l_mat. destruct k as [|[|k]]; [| |lia]; cbn; ring.
    + rewrite l_mat_t by exact K. destruct k as [|[|k]]; [| |lia]; cbn; ring.
  - intros fwd. repeat split.
    + repeat constructor. intros [].
    + repeat constructor. intros [].
    + intros n [<-|[]]. exact Hx.
    + intros n [<-|[]]. exact Hy.
    + intros grp Hg. destruct fwd; simpl in Hg; destruct Hg as [<-|[]]; intros _; (split; [constructor; [intros []|constructor]|]); (split; [intros a [<-|[]]; left; reflexivity|]);
        (split; [left; simpl; lia|]); intros a b [<-|[]] [<-|[]]; reflexivity.
  - vm_compute. reflexivity.
  - vm_compute. reflexivity.
  - intros []; vm_compute; reflexivity.
Qed.

(** ** where it fails *)
(** a name listed twice: its block of the dictionary is scaled twice; the array is not *)
Theorem fd_dict_twice_refuted :
    tdout (tfdd (t_root t_own false) (t_p []) t_run ["x"] ["y"; "y"] t_s0 t_dv t_none None) = Ok [("y", [("x", Some [[500; 200]; [-100 # 1; 1000]]%Q)])] /\
    tout (tfd (t_root t_own false) (t_p []) t_run ["x"] ["y"; "y"] t_s0 t_dv t_none) = Ok [[50; 20]; [-10 # 1; 100]; [50; 20]; [-10 # 1; 100]]%Q.
Proof. split; vm_compute; reflexivity. Qed.
Print Assumptions fd_dict_twice_refuted.

(** an unknown that is also an independent variable, without indices: its block is a
    single 1.0, which falls short of its rows and columns: df/dx is at the wrong place
    and rows are missing (x, then y) *)
Theorem fd_array_shared_refuted :
    tout (tfd (t_root t_own false) (t_p []) t_run ["x"] ["x"; "y"] t_s0 t_none t_none) = Ok [[1; 0]; [5; 2]; [-1 # 1; 10]; [0; 0]]%Q /\
    forall J X, tfd (t_root t_own false) (t_p []) t_run ["x"] ["x"; "y"] t_s0 t_none t_none = Ok J ->
      X 1 1 = tq 1 1 -> ~ jacobian Qcmult (t_p []) ["x"] ["x"; "y"] t_none t_none X J.
Proof.
  split; [vm_compute; reflexivity|]. intros J X E HX (_ & _ & H). specialize (H 1 1 "x" 1 "x" 1 eq_refl eq_refl).
  assert (E' : tout (tfd (t_root t_own false) (t_p []) t_run ["x"] ["x"; "y"] t_s0 t_none t_none) = Ok [[1; 0]; [5; 2]; [-1 # 1; 10]; [0; 0]]%Q) by (vm_compute; reflexivity).
  rewrite E in E'. cbn [tout bind] in E'. assert (ES : tshow J = [[1; 0]; [5; 2]; [-1 # 1; 10]; [0; 0]]%Q) by congruence.
  assert (G : nth 1 (nth 1 (tshow J) []) (0#1) = 2%Q) by (rewrite ES; reflexivity).
  assert (ER : a_rows J = 4) by (apply (f_equal (@length _)) in ES; unfold tshow in ES; rewrite map_length, seq_length in ES; exact ES).
  assert (EC : a_cols J = 2).
  { assert (A : length (nth 1 (tshow J) []) = 2) by (rewrite ES; reflexivity). unfold tshow in A. rewrite ER in A. cbn in A. rewrite map_length, seq_length in A. exact A. }
  unfold tshow in G. rewrite ER, EC in G. cbn in G. cbn in H. rewrite H, HX in G. discriminate G.
Qed.
Print Assumptions fd_array_shared_refuted.

(** an independent variable that is connected to nothing *)
Definition t_loose : root (F:=Qc) := mkRoot [("x", "p.x"); ("y", "c.y")] [("p.x", "x"); ("c.y", "y")] [] [] [] (fun _ => t_own) (mkSet (tq 1 1) false FdModel.Forward).
Theorem fd_unconnected_refuted : tfd t_loose (t_p []) t_run ["x"] ["y"] t_s0 t_none t_none = Err KeyError.
Proof. vm_compute. reflexivity. Qed.
Print Assumptions fd_unconnected_refuted.

(** a promoted target: its own settings are not found under its absolute name, and the
    default forward differences with step 1 are taken; d(x1 x1)/dx1 = 11 *)
Theorem fd_own_settings_refuted :
    tout (tfd (t_root t_own true) (t_p []) t_run ["x"] ["y"] t_s0 t_none t_none) = Ok [[5; 2]; [-1 # 1; 11]]%Q /\
    tout (tfd (t_root t_own false) (t_p []) t_run ["x"] ["y"] t_s0 t_none t_none) = Ok [[5; 2]; [-1 # 1; 10]]%Q.
Proof. split; vm_compute; reflexivity. Qed.
Print Assumptions fd_own_settings_refuted.

(** no independent variable: rows is not bound in the array format, and the dictionary
    has empty rows *)
Theorem fd_array_empty_refuted : tfd (t_root t_own false) (t_p []) t_run [] ["y"] t_s0 t_none t_none = Err NameError /\
    tdout (tfdd (t_root t_own false) (t_p []) t_run [] ["y"] t_s0 t_none t_none None) = Ok [("y", [])].
Proof. split; vm_compute; reflexivity. Qed.
Print Assumptions fd_array_empty_refuted.

(** Property theorems for the check of total derivatives: C90. *)
From Coq Require Import Field_theory Field Qcanon Lqa.
From Verif Require Import Base BaseFacts GradModel LinModel LinSpec GradSpec GradProofs CheckModel CheckSpec TotModel TotSpec TotProofs2 TotProofs3 TotProps CtotModel CtotSpec CtotProofs.
From Verif Require FdModel FdSpec ReqModel.
Local Open Scope string_scope.
Local Open Scope nat_scope.
Local Open Scope list_scope.

(** C90: both modes and the differences, of tables Xf, Xr and Xd: a report for every pair,
    and an absolute error is zero exactly if the two tables agree on the pair.  r has
    the settings of the model, rc those of the check. *)
Theorem check_total_compares : forall F (F0 F1 : F) fadd fmul fsub fopp fdiv finv flt, field_theory F0 F1 fadd fmul fsub fopp fdiv finv eq -> fadd F1 F1 <> F0 ->
    forall norm minus, separates norm minus (same_array (F:=F)) ->
    forall c r rc p run s0 indep unknown ins phi Xf Xr Xd, let s := if ch_ran c then s0 else run s0 in
    ch_ran c = true \/ ch_out c = true -> ch_user c = true -> p_reduce p = false ->
    indep_list c r = Ok indep -> unknown_list c = Ok unknown -> (forall u, In u unknown -> wanted p (p_qoi p) u <> []) ->
    (forall fwd, request_ok p fwd indep unknown) -> finds F0 F1 fopp p true indep unknown Xf -> finds F0 F1 fopp p false indep unknown Xr ->
    fd_request F0 flt rc p indep unknown -> fd_model F0 p run indep unknown ins phi s ->
    table F0 F1 p indep unknown (quotients F0 F1 fadd fmul fsub fopp fdiv flt rc p ins phi s) Xd ->
    exists out, check_total F0 F1 fadd fmul fsub fopp finv flt norm minus c r rc p run s0 = Ok out /\ map fst out = pairs indep unknown /\
    forall u v d, In (u, v, d) out -> exists a b e, abs_error d = [a; b; e] /\
      (a == 0 <-> agree p u v Xf Xd)%Q /\ (b == 0 <-> agree p u v Xr Xd)%Q /\ (e == 0 <-> agree p u v Xf Xr)%Q.
Proof.
  intros F F0 F1 fadd fmul fsub fopp fdiv finv flt Fth two norm minus Hn c r rc p run s0 indep unknown ins phi Xf Xr Xd s Hs Huser Hred Hi Hu Hw Hok Hf Hr Hq Hm Hd.
  assert (ES : (if ch_ran c then Ok s0 else if ch_out c then Ok (run s0) else Err AttributeError) = Ok s).
  { unfold s. destruct (ch_ran c); [reflexivity|]. destruct Hs as [Hs|Hs]; [discriminate|]. rewrite Hs. reflexivity. }
  unfold check_total. rewrite ES. cbn [bind]. rewrite Hi, Hu. cbn [bind]. rewrite Hred. cbn [bind fst snd]. unfold analytic. rewrite Huser.
  destruct (dict_ok F0 F1 fadd fmul fsub fopp (F_R Fth) p true indep unknown (fun _ => None) (fun _ => None) None Xf (Hok true) (fun _ _ => I) Hf) as (Jf & Ef & HJf).
  destruct (dict_ok F0 F1 fadd fmul fsub fopp (F_R Fth) p false indep unknown (fun _ => None) (fun _ => None) None Xr (Hok false) (fun _ _ => I) Hr) as (Jr & Er & HJr).
  destruct (fd_dict_quotients F F0 F1 fadd fmul fsub fopp fdiv finv flt Fth two rc p run indep unknown s ins phi Xd (fun _ => None) (fun _ => None) None Hq Hm (fun _ _ => I) Hd) as (Jd & Ed & HJd).
  rewrite Ef, Er, Ed. cbn [bind].
  apply (assemble_all norm minus indep unknown (flat Jf) (flat Jr) (flat Jd)
           (fun u v d => exists a b e, abs_error d = [a; b; e] /\ (a == 0 <-> agree p u v Xf Xd)%Q /\ (b == 0 <-> agree p u v Xr Xd)%Q /\ (e == 0 <-> agree p u v Xf Xr)%Q)).
  intros u v Iu Iv. assert (Hv : wanted p (p_poi p) v <> []) by exact (proj1 (proj2 (proj1 (proj2 (proj2 (proj2 (proj2 Hq)))) v Iv))).
  destruct (dict_block fmul p indep unknown Xf Jf u v HJf Iu Iv (Hw u Iu) Hv) as (Kf & Gf & Bf).
  destruct (dict_block fmul p indep unknown Xr Jr u v HJr Iu Iv (Hw u Iu) Hv) as (Kr & Gr & Br).
  destruct (dict_block fmul p indep unknown Xd Jd u v HJd Iu Iv (Hw u Iu) Hv) as (Kd & Gd & Bd).
  exists Kd, (Some Kf), (Some Kr). split; [exact Gd|]. split; [exact (used_get _ u v Kf Gf)|]. split; [exact (used_get _ u v Kr Gr)|].
  exists (norm (minus Kf Kd)), (norm (minus Kr Kd)), (norm (minus Kf Kr)). split; [reflexivity|].
  rewrite <- (block_same p u v Xf Xd Kf Kd Bf Bd), <- (block_same p u v Xr Xd Kr Kd Br Bd), <- (block_same p u v Xf Xr Kf Kr Bf Br).
  split; [apply Hn|]. split; apply Hn.
Qed.
Print Assumptions check_total_compares.

(** with relevance reduction only the selected mode (C38) is compared *)
Theorem check_total_reduced : forall F (F0 F1 : F) fadd fmul fsub fopp fdiv finv flt, field_theory F0 F1 fadd fmul fsub fopp fdiv finv eq -> fadd F1 F1 <> F0 ->
    forall norm minus, separates norm minus (same_array (F:=F)) ->
    forall c r rc p run s0 indep unknown ins phi m X Xd, let s := if ch_ran c then s0 else run s0 in let fwd := match m with ReqModel.Fwd => true | ReqModel.Rev => false end in
    ch_ran c = true \/ ch_out c = true -> ch_user c = true -> p_reduce p = true ->
    indep_list c r = Ok indep -> unknown_list c = Ok unknown -> (forall u, In u unknown -> wanted p (p_qoi p) u <> []) ->
    ReqModel.mode None (ch_option c) (ch_sizes c) (map ReqModel.One indep) (map ReqModel.One unknown) = Ok m ->
    request_ok p fwd indep unknown -> finds F0 F1 fopp p fwd indep unknown X ->
    fd_request F0 flt rc p indep unknown -> fd_model F0 p run indep unknown ins phi s ->
    table F0 F1 p indep unknown (quotients F0 F1 fadd fmul fsub fopp fdiv flt rc p ins phi s) Xd ->
    exists out, check_total F0 F1 fadd fmul fsub fopp finv flt norm minus c r rc p run s0 = Ok out /\ map fst out = pairs indep unknown /\
    forall u v d, In (u, v, d) out -> exists a, abs_error d = [a] /\ (a == 0 <-> agree p u v X Xd)%Q.
Proof.
  intros F F0 F1 fadd fmul fsub fopp fdiv finv flt Fth two norm minus Hn c r rc p run s0 indep unknown ins phi m X Xd s fwd Hs Huser Hred Hi Hu Hw Hmode Hok Hf Hq Hm Hd.
  assert (ES : (if ch_ran c then Ok s0 else if ch_out c then Ok (run s0) else Err AttributeError) = Ok s).
  { unfold s. destruct (ch_ran c); [reflexivity|]. destruct Hs as [Hs|Hs]; [discriminate|]. rewrite Hs. reflexivity. }
  unfold check_total. rewrite ES. cbn [bind]. rewrite Hi, Hu. cbn [bind]. rewrite Hred, Hmode. cbn [bind]. unfold analytic. rewrite Huser.
  destruct (dict_ok F0 F1 fadd fmul fsub fopp (F_R Fth) p fwd indep unknown (fun _ => None) (fun _ => None) None X Hok (fun _ _ => I) Hf) as (Jf & Ef & HJf).
  destruct (fd_dict_quotients F F0 F1 fadd fmul fsub fopp fdiv finv flt Fth two rc p run indep unknown s ins phi Xd (fun _ => None) (fun _ => None) None Hq Hm (fun _ _ => I) Hd) as (Jd & Ed & HJd).
  assert (G : forall u v, In u unknown -> In v indep -> exists Kf Kd, jget (flat Jf) u v = Some Kf /\ jget (flat Jd) u v = Some Kd /\ (norm (minus Kf Kd) == 0 <-> agree p u v X Xd)%Q).
  { intros u v Iu Iv. assert (Hv : wanted p (p_poi p) v <> []) by exact (proj1 (proj2 (proj1 (proj2 (proj2 (proj2 (proj2 Hq)))) v Iv))).
    destruct (dict_block fmul p indep unknown X Jf u v HJf Iu Iv (Hw u Iu) Hv) as (Kf & Gf & Bf).
    destruct (dict_block fmul p indep unknown Xd Jd u v HJd Iu Iv (Hw u Iu) Hv) as (Kd & Gd & Bd).
    exists Kf, Kd. split; [exact Gf|]. split; [exact Gd|]. rewrite <- (block_same p u v X Xd Kf Kd Bf Bd). apply Hn. }
  unfold fwd in Ef. destruct m; cbn [fst snd]; rewrite Ef, Ed; cbn [bind].
  - apply (assemble_all norm minus indep unknown (flat Jf) [] (flat Jd) (fun u v d => exists a, abs_error d = [a] /\ (a == 0 <-> agree p u v X Xd)%Q)).
    intros u v Iu Iv. destruct (G u v Iu Iv) as (Kf & Kd & Gf & Gd & H). exists Kd, (Some Kf), None. split; [exact Gd|]. split; [exact (used_get _ u v Kf Gf)|]. split; [reflexivity|].
    exists (norm (minus Kf Kd)). split; [reflexivity|exact H].
  - apply (assemble_all norm minus indep unknown [] (flat Jf) (flat Jd) (fun u v d => exists a, abs_error d = [a] /\ (a == 0 <-> agree p u v X Xd)%Q)).
    intros u v Iu Iv. destruct (G u v Iu Iv) as (Kf & Kd & Gf & Gd & H). exists Kd, None, (Some Kf). split; [exact Gd|]. split; [reflexivity|]. split; [exact (used_get _ u v Kf Gf)|].
    exists (norm (minus Kf Kd)). split; [reflexivity|exact H].
Qed.
Print Assumptions check_total_reduced.

(** a model with linear equations and a solver of those equations: no errors *)
Theorem check_total_linear : forall F (F0 F1 : F) fadd fmul fsub fopp fdiv finv flt, field_theory F0 F1 fadd fmul fsub fopp fdiv finv eq -> fadd F1 F1 <> F0 ->
    forall norm minus, separates norm minus (same_array (F:=F)) ->
    forall c r rc p run s0 indep unknown ins U (sy : sys (F:=F)), let s := if ch_ran c then s0 else run s0 in
    ch_ran c = true \/ ch_out c = true -> ch_user c = true -> p_reduce p = false ->
    indep_list c r = Ok indep -> unknown_list c = Ok unknown -> (forall u, In u unknown -> wanted p (p_qoi p) u <> []) ->
    (forall fwd, request_ok p fwd indep unknown) -> fd_request F0 flt rc p indep unknown -> fd_model F0 p run indep unknown ins (fun k x => U x k) s ->
    linear_model F0 F1 fadd fmul fsub fopp sy ins U -> wf sy -> plain p -> inside p sy (p_poi p) indep -> inside p sy (p_qoi p) unknown ->
    exact F0 F1 fadd fmul fopp p sy true -> exact F0 F1 fadd fmul fopp p sy false -> (forall n, In n indep -> ~ In n unknown) ->
    (forall v o u k, In v indep -> steps_by rc p v o -> t_form o <> FdModel.Central -> In u unknown -> In k (wanted p (p_qoi p) u) ->
       nth k (FdModel.s_u s) F0 = U (FdSpec.inputs F0 ins s) k) ->
    exists out, check_total F0 F1 fadd fmul fsub fopp finv flt norm minus c r rc p run s0 = Ok out /\ map fst out = pairs indep unknown /\
    forall u v d, In (u, v, d) out -> length (abs_error d) = 3 /\ forall x, In x (abs_error d) -> (x == 0)%Q.
Proof.
  intros F F0 F1 fadd fmul fsub fopp fdiv finv flt Fth two norm minus Hn c r rc p run s0 indep unknown ins U sy s Hs Huser Hred Hi Hu Hw Hok Hq Hm HL Hwf Hp Hin Hout He He' Hd Hc.
  destruct (exact_finds F0 F1 fadd fmul fsub fopp (F_R Fth) p sy indep unknown Hwf Hp Hin Hout He He') as [HX HF].
  set (X := fun k q => p_solve p true None (minus_unit F0 F1 fopp q) k) in *.
  pose proof (linear_table F0 F1 fadd fmul fsub fopp fdiv finv flt Fth rc p run indep unknown s sy ins U X two Hq Hm HL Hwf He' HX Hin Hout Hd Hc) as HT.
  destruct (check_total_compares F F0 F1 fadd fmul fsub fopp fdiv finv flt Fth two norm minus Hn c r rc p run s0 indep unknown ins _ X X X Hs Huser Hred Hi Hu Hw Hok (HF true) (HF false) Hq Hm HT)
    as (out & E & Ep & H). exists out. split; [exact E|]. split; [exact Ep|]. intros u v d Hin'. destruct (H u v d Hin') as (a & b & e & -> & Ha & Hb & He2). split; [reflexivity|].
  assert (A : agree p u v X X) by (intros k q _ _; reflexivity).
  intros x [<-|[<-|[<-|[]]]]; [apply Ha; exact A|apply Hb; exact A|apply He2; exact A].
Qed.
Print Assumptions check_total_linear.

(** the variables: those of the driver, without objects passed by reference, or else the
    sources of all parameters connected to an IndepVarComp, and the other unknowns *)
Theorem check_total_variables : forall F (c : check) (r : root (F:=F)) indep unknown, indep_list c r = Ok indep -> unknown_list c = Ok unknown ->
    (ch_desvars c <> [] -> forall v, In v indep <-> In v (ch_desvars c) /\ ch_upbo c v = Some false) /\
    (ch_desvars c = [] -> forall v, In v indep <-> exists tgt src, In (tgt, src) (r_conns r) /\ ch_indep c src = true /\ ch_ppbo c tgt = false /\ sget (r_prom r) src = Some v) /\
    (ch_objs c ++ ch_cons c <> [] -> forall u, In u unknown <-> (In u (ch_objs c) \/ In u (ch_cons c)) /\ ch_upbo c u = Some false) /\
    (ch_objs c ++ ch_cons c = [] -> forall u, In u unknown <-> (exists path, In (u, path) (ch_unknowns c) /\ ch_indep c path = false) /\ ch_upbo c u = Some false).
Proof.
  intros F c r indep unknown Hi Hu.
  assert (G : forall l out, not_objects c l = Ok out -> forall n, In n out <-> In n l /\ ch_upbo c n = Some false).
  { intros l out H n. destruct (not_objects_spec c l out H) as [-> _]. rewrite filter_In. destruct (ch_upbo c n) as [[]|]; cbn; intuition congruence. }
  unfold indep_list in Hi. unfold unknown_list in Hu. split; [|split; [|split]].
  - intros Hne. destruct (ch_desvars c) as [|d l]; [congruence|]. exact (G _ _ Hi).
  - intros E. rewrite E in Hi. intros v.
    assert (M : forall l out, mapr (fun ts : string * string => get (r_prom r) (snd ts)) l = Ok out -> forall v, In v out <-> exists ts, In ts l /\ sget (r_prom r) (snd ts) = Some v).
    { induction l as [|ts l IH]; intros out H w; cbn [mapr] in H.
      - assert (out = []) by congruence. subst. split; [intros []|]. intros (ts & [] & _).
      - unfold get in H at 1. destruct (sget (r_prom r) (snd ts)) as [m|] eqn:Em; [|discriminate]. cbn [bind] in H.
        destruct (mapr (fun ts : string * string => get (r_prom r) (snd ts)) l) as [o|] eqn:Eo; [|discriminate]. cbn [bind] in H. assert (out = m :: o) by congruence. subst out.
        specialize (IH o eq_refl w). split.
        + intros [<-|H1]; [exists ts; split; [left; reflexivity|exact Em]|]. apply IH in H1. destruct H1 as (t2 & A & B). exists t2. split; [right; exact A|exact B].
        + intros (t2 & [<-|A] & B); [left; congruence|]. right. apply IH. exists t2. auto. }
    rewrite (M _ _ Hi v). split.
    + intros ([tgt src] & H1 & H2). apply filter_In in H1. destruct H1 as [H1 H3]. apply filter_In in H1. destruct H1 as [H1 H4]. cbn in H2, H3, H4.
      exists tgt, src. split; [exact H1|]. split; [exact H4|]. split; [destruct (ch_ppbo c tgt); [discriminate|reflexivity]|exact H2].
    + intros (tgt & src & H1 & H2 & H3 & H4). exists (tgt, src). split; [|exact H4]. apply filter_In. split; [apply filter_In; split; [exact H1|exact H2]|]. cbn. rewrite H3. reflexivity.
  - intros Hne u. destruct (ch_objs c ++ ch_cons c) as [|d l] eqn:E; [congruence|]. rewrite (G _ _ Hu u), <- E, in_app_iff. reflexivity.
  - intros E u. rewrite E in Hu. rewrite (G _ _ Hu u), in_map_iff. split.
    + intros [([n path] & <- & H1) H2]. apply filter_In in H1. destruct H1 as [H1 H3]. split; [|exact H2]. exists path. split; [exact H1|]. cbn in H3. destruct (ch_indep c path); [discriminate|reflexivity].
    + intros [(path & H1 & H3) H2]. split; [|exact H2]. exists (u, path). split; [reflexivity|]. apply filter_In. split; [exact H1|]. cbn. rewrite H3. reflexivity.
Qed.
Print Assumptions check_total_variables.

(** ** the problem of C89 with y = 3 x + 4 *)
Definition qabs (q : Q) : Q := if Qle_bool 0 q then q else Qopp q.
Definition q_minus (a b : arr (F:=Qc)) : arr (F:=Qc) :=
  if (a_rows a =? a_rows b) && (a_cols a =? a_cols b) then mkArr (a_rows a) (a_cols a) (fun i j => Qcminus (a_at a i j) (a_at b i j)) else mkArr 1 1 (fun _ _ => tq 1 1).
Definition q_norm (a : arr (F:=Qc)) : Q :=
  fold_right Qplus 0%Q (map (fun i => fold_right Qplus 0%Q (map (fun j => qabs (this (a_at a i j))) (seq 0 (a_cols a)))) (seq 0 (a_rows a))).
Lemma qabs_pos : forall q, (0 <= qabs q)%Q.
Proof.
  intros q. unfold qabs. destruct (Qle_bool 0 q) eqn:E; [apply Qle_bool_iff; exact E|]. assert (~ (0 <= q)%Q) by (rewrite <- Qle_bool_iff; congruence).
  apply Qnot_le_lt in H. setoid_replace 0%Q with (- 0)%Q by reflexivity. apply Qopp_le_compat. apply Qlt_le_weak. exact H.
Qed.
Lemma qabs_zero : forall q, (qabs q == 0 <-> q == 0)%Q.
Proof.
  intros q. unfold qabs. destruct (Qle_bool 0 q); [tauto|]. split; intros H.
  - rewrite <- (Qopp_involutive q), H. reflexivity.
  - rewrite H. reflexivity.
Qed.
Lemma sum_zero : forall A (f : A -> Q) l, (forall a, (0 <= f a)%Q) -> (0 <= fold_right Qplus 0 (map f l))%Q /\ (fold_right Qplus 0 (map f l) == 0 <-> forall a, In a l -> f a == 0)%Q.
Proof.
  intros A f l H. induction l as [|a l [I1 I2]]; cbn [map fold_right].
  - split; [apply Qle_refl|]. split; [intros _ a []|reflexivity].
  - pose proof (H a) as Ha. split; [lra|]. split.
    + intros E b [<-|Hb]; [lra|]. apply I2; [lra|exact Hb].
    + intros Hz. rewrite (Hz a (or_introl eq_refl)), Qplus_0_l. apply I2. intros b Hb. apply Hz. right. exact Hb.
Qed.
Lemma q_separates : separates q_norm q_minus (same_array (F:=Qc)).
Proof.
  intros a b. unfold q_norm.
  assert (P : forall (K : arr (F:=Qc)) i, (0 <= fold_right Qplus 0 (map (fun j => qabs (this (a_at K i j))) (seq 0 (a_cols K))))%Q) by (intros K i; apply sum_zero; intros j; apply qabs_pos).
  destruct (sum_zero _ (fun i => fold_right Qplus 0%Q (map (fun j => qabs (this (a_at (q_minus a b) i j))) (seq 0 (a_cols (q_minus a b))))) (seq 0 (a_rows (q_minus a b))) (P (q_minus a b))) as [S1 S2].
  split; [exact S1|]. rewrite S2. clear S1 S2. unfold q_minus. destruct (Nat.eqb_spec (a_rows a) (a_rows b)) as [Er|Nr]; [|split].
  2: { intros H. specialize (H 0 (or_introl eq_refl)). discriminate H. }
  2: { intros (H & _). contradiction. }
  destruct (Nat.eqb_spec (a_cols a) (a_cols b)) as [Ec|Nc]; [|split].
  2: { intros H. specialize (H 0 (or_introl eq_refl)). discriminate H. }
  2: { intros (_ & H & _). contradiction. }
  cbn [andb a_rows a_cols a_at]. split.
  - intros H. split; [exact Er|]. split; [exact Ec|]. intros i j Hi Hj. assert (Ii : In i (seq 0 (a_rows a))) by (apply in_seq; lia). specialize (H i Ii).
    apply (proj2 (sum_zero _ (fun j => qabs (this (Qcminus (a_at a i j) (a_at b i j)))) _ (fun j => qabs_pos _))) with (a := j) in H; [|apply in_seq; lia].
    assert (E : Qcminus (a_at a i j) (a_at b i j) = 0%Qc) by (apply Qc_is_canon; exact (proj1 (qabs_zero _) H)). transitivity (Qcplus (Qcminus (a_at a i j) (a_at b i j)) (a_at b i j)); [ring|]. rewrite E. ring.
  - intros (_ & _ & H) i Hi. apply (proj2 (sum_zero _ (fun j => qabs (this (Qcminus (a_at a i j) (a_at b i j)))) _ (fun j => qabs_pos _))). intros j Hj. apply in_seq in Hi. apply in_seq in Hj.
    rewrite H by lia. apply qabs_zero. assert (E : Qcminus (a_at b i j) (a_at b i j) = 0%Qc) by ring. rewrite E. reflexivity.
Qed.
Definition cq_cfg (ran out user : bool) (des objs : list string) : check :=
  mkCheck ran out des objs [] (fun n => if existsb (String.eqb n) ["x"; "y"] then Some false else None) (fun _ => false) (fun n => String.eqb n "p.x")
    [("x", "p.x"); ("y", "c.y")] user None [("x", 1); ("y", 1)].
Definition cq_show (x : res (list (string * string * ldata))) : res (list (string * string * list Q)) :=
  let! l := x in Ok (map (fun d => (fst d, map Qred (abs_error (snd d)))) l).
Notation cqcheck := (check_total (tq 0 1) (tq 1 1) Qcplus Qcmult Qcminus Qcopp Qcinv tlt q_norm q_minus).
(** a solver which takes dy/dx to be a *)
Definition cq_p (a : Z) : prob (F:=Qc) :=
  mkProb 2 (sget [("x", (0, 1)); ("y", (1, 1))]) [["x"]] [["y"]] [] [] false false (fun _ => true) (fun _ _ => true)
    (fun fwd _ rhs k => if fwd then (if k =? 0 then Qcopp (rhs 0) else Qcminus (Qcopp (Qcmult (tq a 1) (rhs 0))) (rhs 1))
                       else if k =? 1 then Qcopp (rhs 1) else Qcminus (Qcopp (Qcmult (tq a 1) (rhs 1))) (rhs 0)).
(** the hypotheses of check_total_linear are those of fd_agrees_ex; no errors with a = 3,
    an error of 2 in both modes with a = 5 *)
Example check_total_ex : cq_p 3 = l_p /\ separates q_norm q_minus (same_array (F:=Qc)) /\
    (forall des objs, indep_list (cq_cfg false true true des objs) l_root = Ok ["x"] \/ des <> [] /\ des <> ["x"]) /\
    unknown_list (cq_cfg false true true [] []) = Ok ["y"] /\
    cq_show (cqcheck (cq_cfg false true true [] []) l_root l_root (cq_p 3) l_run (FdModel.mkSt [tq 0 1] [tq 5 1; tq 0 1] [])) = Ok [("y", "x", [0; 0; 0]%Q)] /\
    cq_show (cqcheck (cq_cfg true false true ["x"] ["y"]) l_root l_root (cq_p 5) l_run l_s0) = Ok [("y", "x", [2; 2; 0]%Q)].
Proof.
  split; [reflexivity|]. split; [exact q_separates|]. split.
  - intros [|d des] objs; [left; vm_compute; reflexivity|]. destruct des as [|e des]; [|right; split; discriminate].
    destruct (string_dec d "x") as [->|N]; [left; vm_compute; reflexivity|right; split; [discriminate|congruence]].
  - repeat match goal with |- _ /\ _ => split; [vm_compute; reflexivity|] end. vm_compute; reflexivity.
Qed.

(** ** where it fails *)
(** without output, before the model was run *)
Theorem check_total_silent_refuted : forall F (F0 F1 : F) fadd fmul fsub fopp finv flt norm minus c r rc p run s0, ch_ran c = false -> ch_out c = false ->
    check_total F0 F1 fadd fmul fsub fopp finv flt norm minus c r rc p run s0 = Err AttributeError.
Proof. intros. unfold check_total. rewrite H, H0. reflexivity. Qed.
Print Assumptions check_total_silent_refuted.

(** a root group with derivatives by differences: the solver is not looked at, whatever it
    computes; differences are compared with differences *)
Theorem check_total_fd_root_refuted : forall F (F0 F1 : F) fadd fmul fsub fopp finv flt norm minus c r rc p run s0 solve, ch_user c = false ->
    let p' := mkProb (p_len p) (p_var p) (p_pois p) (p_qois p) (p_poi p) (p_qoi p) (p_lgs p) (p_reduce p) (p_keys p) (p_rel p) solve in
    check_total F0 F1 fadd fmul fsub fopp finv flt norm minus c r rc p' run s0 = check_total F0 F1 fadd fmul fsub fopp finv flt norm minus c r rc p run s0.
Proof. intros F F0 F1 fadd fmul fsub fopp finv flt norm minus c r rc p run s0 solve H p'. destruct p. unfold check_total, analytic. rewrite H. reflexivity. Qed.
Print Assumptions check_total_fd_root_refuted.
Example check_total_fd_root_ex :
    cq_show (cqcheck (cq_cfg true true false [] []) l_root l_root (cq_p 5) l_run l_s0) = Ok [("y", "x", [0; 0; 0]%Q)].
Proof. vm_compute. reflexivity. Qed.

(** an independent variable with two targets is listed twice *)
Theorem check_total_repeated_refuted : exists (c : check) (r : root (F:=Qc)), ch_desvars c = [] /\ NoDup (map fst (r_conns r)) /\ indep_list c r = Ok ["x"; "x"].
Proof.
  exists (cq_cfg true true true [] []), (mkRoot [("x", "p.x"); ("y", "c.y")] [("p.x", "x"); ("c.y", "y")] [] [("c.x", "p.x"); ("d.x", "p.x")] [] (fun _ => mkOwn None None None) (mkSet (tq 1 1) false FdModel.Forward)).
  split; [reflexivity|]. split; [repeat constructor; simpl; intuition discriminate|]. vm_compute. reflexivity.
Qed.
Print Assumptions check_total_repeated_refuted.

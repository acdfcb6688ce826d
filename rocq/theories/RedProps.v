(** Property theorems for total derivatives with vectors of the relevant variables only: C86. *)
From Coq Require Import Ring_theory.
From Verif Require Import Base BaseFacts LinModel LinSpec LinProofs LinProofs2 GradModel GradSpec GradProofs GradProps RedModel RedSpec RedProofs RedChecks.
From Verif Require GraphSpec OrderModel OrderSpec OrderProofs OrderProofs2 RelModel RelSpec RelProofs RelProps RedProofs2.
Local Open Scope string_scope.
Local Open Scope nat_scope.
Local Open Scope list_scope.

(** A component applied to vectors without some of its variables does what it would do
    with a Jacobian without their entries. *)
Theorem reduced_keys : forall F (F0 F1 : F) fadd fmul fsub fopp, ring_theory F0 F1 fadd fmul fsub fopp eq ->
    forall keep_u keep_p (c : comp (F:=F)), whole_comp keep_u keep_p c -> forall g st,
    comp_fwd F0 fadd fmul fsub g (view keep_u keep_p c) st = comp_fwd F0 fadd fmul fsub g (reduce_comp keep_u keep_p c) st /\
    comp_rev F0 fadd fmul fsub g (view keep_u keep_p c) st = comp_rev F0 fadd fmul fsub g (reduce_comp keep_u keep_p c) st.
Proof.
  intros F F0 F1 fadd fmul fsub fopp Fth ku kp c W g st.
  assert (D : do_apply (view ku kp c) = do_apply (reduce_comp ku kp c)) by reflexivity.
  split; [unfold comp_fwd|unfold comp_rev]; rewrite D; destruct (do_apply (reduce_comp ku kp c)); try reflexivity;
    rewrite !(reduced_jac F0 fadd fmul ku kp _ c _ W); reflexivity.
Qed.
Print Assumptions reduced_keys.

(** The equations seen through the vectors are those of the kept unknowns, without the
    terms of the others. *)
Theorem reduced_matrix : forall F (F0 F1 : F) fadd fmul fsub fopp, ring_theory F0 F1 fadd fmul fsub fopp eq ->
    forall keep_u keep_p (s : sys (F:=F)), wf s -> whole F1 fmul fopp keep_u keep_p s ->
    rows (reduce keep_u keep_p s) = filter keep_u (rows s) /\
    forall e, In e (sys_mat F1 fmul fopp None (reduce keep_u keep_p s)) <->
      In e (sys_mat F1 fmul fopp None s) /\ keep_u (e_row e) = true /\ match e_col e with CU c => keep_u c | CP t => keep_p t end = true.
Proof.
  intros F F0 F1 fadd fmul fsub fopp Fth ku kp s Hw W. split; [exact (rows_reduce F1 fmul fopp ku kp s W)|].
  intros e. rewrite (mat_reduce F1 fmul fopp ku kp s Hw W), filter_In. unfold kept, kept_col. rewrite andb_true_iff. destruct (e_col e); tauto.
Qed.
Print Assumptions reduced_matrix.

(** C86: variables with vectors of their own change nothing: in both modes, and in both
    formats, the result is the unique solution of the chain rule. *)
Theorem reduced_total_derivatives_partial : forall F (F0 F1 : F) fadd fmul fsub fopp, ring_theory F0 F1 fadd fmul fsub fopp eq ->
    forall p (s : sys (F:=F)) indep unknown dv cn, wf s -> (forall u, p_rel p None u = true) ->
    inside p s (p_poi p) indep -> inside p s (p_qoi p) unknown ->
    exact F0 F1 fadd fmul fopp p s true -> exact F0 F1 fadd fmul fopp p s false ->
    exists X, total_derivatives F0 F1 fadd fmul fopp s X /\
      (forall Y, total_derivatives F0 F1 fadd fmul fopp s Y -> forall q k, In q (rows s) -> In k (rows s) -> Y k q = X k q) /\
      forall fwd, request_ok p fwd indep unknown -> reduced F0 F1 fadd fmul fopp p s fwd indep unknown ->
        ((forall n, In n indep -> ~ In n unknown) ->
         exists J, gradient_array F0 F1 fmul fopp p fwd indep unknown dv cn = Ok J /\ jacobian fmul p indep unknown dv cn X J) /\
        forall sp, (forall u, In u unknown -> match sp with None => True | Some d => exists l, sget d u = Some l end) ->
         exists J, gradient_dict F0 F1 fmul fopp p fwd indep unknown dv cn sp = Ok J /\ jacobian_dict fmul p indep unknown dv cn sp X J.
Proof.
  intros F F0 F1 fadd fmul fsub fopp Fth p s indep unknown dv cn Hw Hp Hi Ho Hf Hr.
  destruct (reduced_finds _ _ _ _ _ _ Fth p s indep unknown Hw Hi Ho Hp Hf Hr) as [HT HF].
  eexists. split; [exact HT|]. split.
  - intros Y HY q k Hq Hk. exact (derivatives_unique _ _ _ _ _ _ Fth p s _ _ Hw Hr HY HT q k Hq Hk).
  - intros fwd Hok HR. split.
    + intros Hd. exact (array_ok _ _ _ _ _ _ Fth p fwd indep unknown dv cn _ Hok Hd (HF fwd HR)).
    + intros sp Hs. exact (dict_ok _ _ _ _ _ _ Fth p fwd indep unknown dv cn sp _ Hok Hs (HF fwd HR)).
Qed.
Print Assumptions reduced_total_derivatives_partial.

(** C74: a problem without such variables, dictionary format *)
Theorem modes_give_total_derivatives_dict : forall F (F0 F1 : F) fadd fmul fsub fopp, ring_theory F0 F1 fadd fmul fsub fopp eq ->
    forall p (s : sys (F:=F)) indep unknown dv cn, wf s -> plain p -> inside p s (p_poi p) indep -> inside p s (p_qoi p) unknown ->
    exact F0 F1 fadd fmul fopp p s true -> exact F0 F1 fadd fmul fopp p s false ->
    exists X, total_derivatives F0 F1 fadd fmul fopp s X /\
      (forall Y, total_derivatives F0 F1 fadd fmul fopp s Y -> forall q k, In q (rows s) -> In k (rows s) -> Y k q = X k q) /\
      forall fwd sp, request_ok p fwd indep unknown ->
      (forall u, In u unknown -> match sp with None => True | Some d => exists l, sget d u = Some l end) ->
      exists J, gradient_dict F0 F1 fmul fopp p fwd indep unknown dv cn sp = Ok J /\ jacobian_dict fmul p indep unknown dv cn sp X J.
Proof.
  intros F F0 F1 fadd fmul fsub fopp Fth p s indep unknown dv cn Hw [Hk Hp] Hi Ho Hf Hr.
  destruct (reduced_total_derivatives_partial _ F0 F1 fadd fmul fsub fopp Fth p s indep unknown dv cn Hw Hp Hi Ho Hf Hr) as [X [H1 [H2 H3]]].
  exists X. split; [exact H1|]. split; [exact H2|]. intros fwd sp Hok Hs. apply (H3 fwd Hok); [|exact Hs]. intros n _ Hn. destruct (Hk n Hn).
Qed.
Print Assumptions modes_give_total_derivatives_dict.

(** in particular with LinearGaussSeidel on groups without feedback *)
Theorem reduced_sweep_total_derivatives : forall F (F0 F1 : F) fadd fmul fsub fopp, ring_theory F0 F1 fadd fmul fsub fopp eq ->
    forall tiny, (forall v, tiny v = true -> Forall (fun x => x = F0) v) ->
    forall p ns ks subs indep unknown dv cn, let s : sys (F:=F) := Group ns None ks subs in
    wf s -> (forall fwd, feed_forward F0 F1 fadd fmul fopp fwd s) -> unscaled s -> swept F0 fadd fmul fopp fsub tiny p ns ks subs ->
    (forall u, p_rel p None u = true) -> inside p s (p_poi p) indep -> inside p s (p_qoi p) unknown ->
    exists X, total_derivatives F0 F1 fadd fmul fopp s X /\
      forall fwd, request_ok p fwd indep unknown -> reduced_sweep F0 F1 fadd fmul fopp fsub tiny p fwd indep unknown ns ks subs ->
        ((forall n, In n indep -> ~ In n unknown) ->
         exists J, gradient_array F0 F1 fmul fopp p fwd indep unknown dv cn = Ok J /\ jacobian fmul p indep unknown dv cn X J) /\
        forall sp, (forall u, In u unknown -> match sp with None => True | Some d => exists l, sget d u = Some l end) ->
         exists J, gradient_dict F0 F1 fmul fopp p fwd indep unknown dv cn sp = Ok J /\ jacobian_dict fmul p indep unknown dv cn sp X J.
Proof.
  intros F F0 F1 fadd fmul fsub fopp Fth tiny Ht p ns ks subs indep unknown dv cn s Hw Hff Hun Hs Hp Hi Ho.
  destruct (reduced_total_derivatives_partial _ F0 F1 fadd fmul fsub fopp Fth p s indep unknown dv cn Hw Hp Hi Ho) as [X [H1 [_ H2]]].
  - exact (swept_exact _ _ _ _ _ _ Fth tiny Ht p ns ks subs true Hw (Hff true) Hun Hs).
  - exact (swept_exact _ _ _ _ _ _ Fth tiny Ht p ns ks subs false Hw (Hff false) Hun Hs).
  - exists X. split; [exact H1|]. intros fwd Hok HR. apply (H2 fwd Hok). intros n Hn Hk.
    destruct (HR n Hn Hk) as (ku & kp & A & B & C & D & E & G & H). exists ku, kp. split; [exact A|]. split; [exact B|]. split; [exact C|].
    exact (swept_for_exact _ _ _ _ _ _ Fth tiny Ht p (Some n) ns _ _ fwd D E G H).
Qed.
Print Assumptions reduced_sweep_total_derivatives.

(** What relevance.py keeps suffices, if the unknowns of a component do not depend on
    each other, or the ones that do are kept or dropped together. *)
Theorem relevance_suffices_partial : forall F (F0 F1 : F) fadd fmul fsub fopp, ring_theory F0 F1 fadd fmul fsub fopp eq ->
    forall dfs abs prom t conns ins outs r, RelProps.setting dfs abs prom t conns ins outs r ->
    forall owner (s : sys (F:=F)), wf s -> names_fit prom abs conns (ins ++ outs) owner s ->
    forall n, let keep := fun k => RelModel.is_relevant abs prom conns r n (prom (owner k)) in
    through F1 fmul fopp conns owner keep s -> forall froms asked, (forall q, In q froms -> owner q = abs n) ->
    (In n ins -> ~ In n outs -> (forall k, In k asked -> exists o, In o outs /\ owner k = abs o) -> relevant F1 fmul fopp keep true s froms asked) /\
    (In n outs -> ~ In n ins -> (forall k, In k asked -> exists i, In i ins /\ owner k = abs i) -> relevant F1 fmul fopp keep false s froms asked).
Proof.
  intros F F0 F1 fadd fmul fsub fopp Fth dfs abs prom t conns ins outs r ST owner s Hw NF n keep T froms asked Hf.
  assert (D : forall a b, depends F1 fmul fopp s a b -> In a (rows s) /\ In b (rows s)).
  { intros a b (e & He & Ea & Eb). destruct (sys_mat_in F1 fmul fopp None s Hw e He) as [A B]. rewrite Eb in B. rewrite <- Ea. auto. }
  split; intros Hn No Ha.
  - exact (RedProofs2.suffices_fwd F1 fmul fopp dfs abs prom t conns ins outs r ST owner s NF n Hn No T froms asked Hf Ha (fun a b H => proj1 (D a b H))).
  - exact (RedProofs2.suffices_rev F1 fmul fopp dfs abs prom t conns ins outs r ST owner s NF n Hn No T froms asked Hf Ha (fun a b H => proj2 (D a b H))).
Qed.
Print Assumptions relevance_suffices_partial.

(** ** concrete problems over the integers *)
(** y1 = 3 x1, y2 = 5 x2 + 7 y1 *)
Definition r_c1 : comp := mkC [par "x1" 0 1] [out "y1" 2 1] false (Some [(("y1", "x1"), zmat 1 1 [3]%Z)]) None.
Definition r_c2 : comp := mkC [par "x2" 1 1; par "y1" 2 1] [out "y2" 3 1] false (Some [(("y2", "x2"), zmat 1 1 [5]%Z); (("y2", "y1"), zmat 1 1 [7]%Z)]) None.
Definition r_names : list string := ["p1.x1"; "p2.x2"; "c1.y1"; "c2.y2"].
Definition r_ks : list conn := [mkK 0 0 2 0; mkK 1 1 3 1; mkK 2 2 3 2].
Definition r_subs : list (sys (F:=Z)) := [Indep [out "x1" 0 1]; Indep [out "x2" 1 1]; Comp r_c1; Comp r_c2].
Definition r_vars : list (string * (nat * nat)) := [("x1", (0, 1)); ("x2", (1, 1)); ("y1", (2, 1)); ("y2", (3, 1))].
(** what is relevant to a variable, by position *)
Definition r_keep_u (n : string) (k : nat) : bool := existsb (Nat.eqb k) (match sget [("x1", [0; 2; 3]); ("x2", [1; 3]); ("y1", [0; 2]); ("y2", [0; 1; 2; 3])] n with Some l => l | None => [] end).
Definition r_keep_p (n : string) (k : nat) : bool := existsb (Nat.eqb k) (match sget [("x1", [0; 2]); ("x2", [1]); ("y1", [0]); ("y2", [0; 1; 2])] n with Some l => l | None => [] end).
Definition swept_by (ns : list string) (ks : list conn) (subs : list (sys (F:=Z))) (ku kp : string -> nat -> bool) (fwd : bool) (key : option string) (rhs : nat -> Z) : nat -> Z :=
  match (match key with
         | None => zsweep fwd ns ks subs rhs (z_st [] [] [])
         | Some n => zsweep fwd ns (reduce_conns (ku n) (kp n) ks) (map (reduce (ku n) (kp n)) subs) rhs (z_st [] [] [])
         end) with
  | Ok st => if fwd then du st else dr st
  | Err _ => fun _ => 0%Z
  end.
Definition r_p : prob :=
  mkProb 4 (sget r_vars) [["x1"]; ["x2"]] [["y1"]; ["y2"]] [] [] true true (fun _ => true)
    (fun key u => match key, sget r_vars u with Some n, Some (k, _) => r_keep_u n k | _, _ => true end) (swept_by r_names r_ks r_subs r_keep_u r_keep_p).


Lemma r_fits : let s := Group r_names None r_ks r_subs in wf s /\ (forall fwd, feed_forward 0%Z 1%Z Z.add Z.mul Z.opp fwd s) /\ unscaled s.
Proof. split; [apply sysb_ok; vm_compute; reflexivity|apply plainb_ok; vm_compute; reflexivity]. Qed.
Lemma z_swept : forall ns ks subs ku kp fwd n rhs, let s := Group ns None ks subs in let s' := reduce (ku n) (kp n) s in
    (wf s -> (forall fwd, feed_forward 0%Z 1%Z Z.add Z.mul Z.opp fwd s) -> unscaled s ->
     exists st', zsweep fwd ns ks subs rhs (z_st [] [] []) = Ok st' /\ forall k, swept_by ns ks subs ku kp fwd None rhs k = if fwd then du st' k else dr st' k) /\
    (wf s' -> (forall fwd, feed_forward 0%Z 1%Z Z.add Z.mul Z.opp fwd s') -> unscaled s' ->
     exists st', zsweep fwd ns (reduce_conns (ku n) (kp n) ks) (map (reduce (ku n) (kp n)) subs) rhs (z_st [] [] []) = Ok st' /\
       forall k, swept_by ns ks subs ku kp fwd (Some n) rhs k = if fwd then du st' k else dr st' k).
Proof.
  assert (G : forall fwd ns ks subs rhs, wf (Group ns None ks subs) -> (forall fwd, feed_forward 0%Z 1%Z Z.add Z.mul Z.opp fwd (Group ns None ks subs)) ->
      unscaled (Group ns None ks subs) -> exists st', zsweep fwd ns ks subs rhs (z_st [] [] []) = Ok st').
  { intros [] ns ks subs rhs W FF UN.
    - destruct (sweep_fwd _ _ _ _ _ _ Zth zrest zrest_zero ns ks subs rhs (z_st [] [] []) W (FF true)) as [st [E _]]; [intros; apply z_st_zero|intros; apply z_st_zero|eauto].
    - destruct (sweep_rev _ _ _ _ _ _ Zth zrest zrest_zero ns ks subs rhs (z_st [] [] []) W (FF false) UN) as [st [E _]]. eauto. }
  intros ns ks subs ku kp fwd n rhs s s'. split; intros W FF UN.
  - destruct (G fwd ns ks subs rhs W FF UN) as [st E]. exists st. split; [exact E|]. intros k. unfold swept_by. rewrite E. destruct fwd; reflexivity.
  - destruct (G fwd ns (reduce_conns (ku n) (kp n) ks) (map (reduce (ku n) (kp n)) subs) rhs W FF UN) as [st E]. exists st. split; [exact E|]. intros k. unfold swept_by. rewrite E. destruct fwd; reflexivity.
Qed.
Definition reach_of (l : list (string * list nat)) (n : string) (k : nat) : bool := memb k (match sget l n with Some l => l | None => [] end).
Example reduced_ex : let s := Group r_names None r_ks r_subs in
    wf s /\ (forall fwd, feed_forward 0%Z 1%Z Z.add Z.mul Z.opp fwd s) /\ unscaled s /\
    swept 0%Z Z.add Z.mul Z.opp Z.sub zrest r_p r_names r_ks r_subs /\ (forall u, p_rel r_p None u = true) /\
    inside r_p s [] ["x1"; "x2"] /\ inside r_p s [] ["y1"; "y2"] /\ keyed r_p "x1" /\
    forall fwd, request_ok r_p fwd ["x1"; "x2"] ["y1"; "y2"] /\
      reduced_sweep 0%Z 1%Z Z.add Z.mul Z.opp Z.sub zrest r_p fwd ["x1"; "x2"] ["y1"; "y2"] r_names r_ks r_subs /\
      out_of (zgrad r_p fwd ["x1"; "x2"] ["y1"; "y2"] noscale noscale) = Ok [[3; 0]; [21; 5]]%Z /\
      p_rel r_p (Some (if fwd then "x2" else "y1")) (if fwd then "y1" else "x2") = false.
Proof.
  destruct r_fits as (W & FF & UN). split; [exact W|]. split; [exact FF|]. split; [exact UN|]. split; [|split; [|split; [|split; [|split]]]].
  - intros fwd rhs. destruct (z_swept r_names r_ks r_subs r_keep_u r_keep_p fwd "" rhs) as [Z _]. destruct (Z W FF UN) as (st & E & R).
    exists (z_st [] [] []), st. split; [intros; apply z_st_zero|]. split; [intros; apply z_st_zero|]. split; [exact E|]. intros k _. apply R.
  - intros u. reflexivity.
  - intros n k [<-|[<-|[]]] H; vm_compute in H |- *; intuition.
  - intros n k [<-|[<-|[]]] H; vm_compute in H |- *; intuition.
  - split; [reflexivity|]. split; [left; cbn; auto|]. left. reflexivity.
  - intros fwd. split; [|split; [|split; [destruct fwd; vm_compute; reflexivity|destruct fwd; reflexivity]]].
    + assert (V : forall n, In n ["x1"; "x2"; "y1"; "y2"] -> var_ok r_p [] n).
      { intros n [<-|[<-|[<-|[<-|[]]]]]; [exists 0, 1|exists 1, 1|exists 2, 1|exists 3, 1]; repeat split; try discriminate; cbn; lia. }
      repeat split; try (repeat constructor; cbn; intuition discriminate).
      * intros n Hn. apply V. cbn in *. tauto.
      * intros n Hn. apply V. cbn in *. tauto.
      * intros grp Hg. destruct fwd; cbn in Hg; destruct Hg as [<-|[<-|[]]]; apply one_group; cbn; auto.
    + intros n Hn _. exists (r_keep_u n), (r_keep_p n).
      set (reach := if fwd then reach_of [("x1", [0; 2; 3]); ("x2", [1; 3])] n else reach_of [("y1", [2; 0]); ("y2", [0; 1; 2; 3])] n).
      assert (C : wholeb (r_keep_u n) (r_keep_p n) (Group r_names None r_ks r_subs) = true /\
        relevantb (r_keep_u n) fwd (Group r_names None r_ks r_subs) (wanted r_p [] n) (flat_map (wanted r_p []) (if fwd then ["y1"; "y2"] else ["x1"; "x2"])) reach = true /\
        sysb (reduce (r_keep_u n) (r_keep_p n) (Group r_names None r_ks r_subs)) = true /\ plainb (reduce (r_keep_u n) (r_keep_p n) (Group r_names None r_ks r_subs)) = true).
      { destruct fwd; destruct Hn as [<-|[<-|[]]]; vm_compute; auto. }
      destruct C as (C1 & C2 & C3 & C4). apply sysb_ok in C3. apply plainb_ok in C4. destruct C4 as [C4 C5].
      split; [apply wholeb_ok; exact C1|]. split; [destruct fwd; exact (relevantb_ok _ _ _ _ _ _ C2)|]. split; [|split; [exact C3|split; [apply C4|split; [exact C5|]]]].
      * intros o k Ho Hk. destruct fwd; destruct Ho as [<-|[<-|[]]]; vm_compute in Hk; destruct Hk as [<-|[]]; reflexivity.
      * intros rhs. destruct (z_swept r_names r_ks r_subs r_keep_u r_keep_p fwd n rhs) as [_ Z]. destruct (Z C3 C4 C5) as (st & E & R).
        exists (z_st [] [] []), st. split; [intros; apply z_st_zero|]. split; [intros; apply z_st_zero|]. split; [exact E|]. intros k _. apply R.
Qed.

(** the same model in the terms of relevance.py *)
Definition r_tree : OrderModel.tree := OrderModel.Node [("p1", OrderModel.Leaf); ("p2", OrderModel.Leaf); ("c1", OrderModel.Leaf); ("c2", OrderModel.Leaf)].
Definition r_paths : list (list string * list string * nat) := [(["p1"; "x1"], ["c1"; "x1"], 1); (["p2"; "x2"], ["c2"; "x2"], 1); (["c1"; "y1"], ["c2"; "y1"], 1)].
Definition r_abs (n : string) : list string := match sget [("x1", ["p1"; "x1"]); ("x2", ["p2"; "x2"]); ("y1", ["c1"; "y1"]); ("y2", ["c2"; "y2"])] n with Some p => p | None => [] end.
Definition r_prom (p : list string) : string :=
  match find (fun n => if list_eq_dec string_dec (r_abs n) p then true else false) ["x1"; "x2"; "y1"; "y2"] with Some n => n | None => String.concat "." p end.
Definition r_owner (k : nat) : list string := r_abs (nth k ["x1"; "x2"; "y1"; "y2"] "").
Example relevance_ex : forall dfs, GraphSpec.dfs_spec dfs ->
    let r := RelModel.relevant0 dfs r_abs (OrderModel.sys_graph (OrderModel.subsystems [] r_tree) r_paths) ["x1"; "x2"] ["y1"; "y2"] in
    let s := Group r_names None r_ks r_subs in
    RelProps.setting dfs r_abs r_prom r_tree r_paths ["x1"; "x2"] ["y1"; "y2"] r /\ wf s /\ names_fit r_prom r_abs r_paths (["x1"; "x2"] ++ ["y1"; "y2"]) r_owner s /\
    (forall n, through 1%Z Z.mul Z.opp r_paths r_owner (fun k => RelModel.is_relevant r_abs r_prom r_paths r n (r_prom (r_owner k))) s) /\
    RelModel.is_relevant r_abs r_prom r_paths r "x1" "y2" = true /\ RelModel.is_relevant r_abs r_prom r_paths r "x1" "x2" = false.
Proof.
  intros dfs D r s.
  assert (ST : RelProps.setting dfs r_abs r_prom r_tree r_paths ["x1"; "x2"] ["y1"; "y2"] r).
  { split; [exact D|]. split; [|split; [|reflexivity]].
    - constructor; [repeat constructor; cbn; intuition discriminate|]. intros n c [E|[E|[E|[E|[]]]]]; injection E as <- <-; constructor.
    - intros n [[<-|[<-|[]]]|[<-|[<-|[]]]]; vm_compute; repeat split; discriminate. }
  split; [exact ST|]. split; [apply sysb_ok; vm_compute; reflexivity|]. split; [|split; [|split]].
  - intros k Hk. vm_compute in Hk. destruct Hk as [<-|[<-|[<-|[<-|[]]]]].
    all: split; [intros a b w [E|[E|[E|[]]]]; injection E as <- <- <-; vm_compute; intros [H|H]; (reflexivity || discriminate H)
                |intros n [<-|[<-|[<-|[<-|[]]]]] H; vm_compute in H |- *; (reflexivity || discriminate H)].
  - intros n a b (e & He & Ea & Eb). vm_compute in He. destruct He as [<-|[<-|[<-|[<-|[<-|[<-|[<-|[]]]]]]]]; cbn in Ea, Eb; subst a; injection Eb as <-.
    all: try (left; reflexivity).
    all: right; left; (exists ["c1"; "x1"], 1; split; [cbn; tauto|reflexivity]) || (exists ["c2"; "x2"], 1; split; [cbn; tauto|reflexivity]) || (exists ["c2"; "y1"], 1; split; [cbn; tauto|reflexivity]).
  - change "y2" with (r_prom (r_abs "y2")). apply (RelProps.vars_relevant_to_input dfs r_abs r_prom r_tree r_paths _ _ r ST "x1" "y2" ["y1"] []); [cbn; auto|reflexivity|intros []|].
    left. split; [right; reflexivity|].
    apply (RelSpec.flow_step r_paths ["p1"; "x1"] ["c1"; "x1"] 1); [cbn; auto|]. apply (RelSpec.flow_step r_paths ["c1"; "y1"] ["c2"; "y1"] 1); [cbn; auto|]. apply RelSpec.flow_refl.
  - destruct (RelModel.is_relevant r_abs r_prom r_paths r "x1" "x2") eqn:E; [|reflexivity]. exfalso.
    destruct (RelProps.relevant_only_on_paths dfs r_abs r_prom r_tree r_paths _ _ r ST "x1") as [_ V]; [cbn; auto|].
    assert (B : forall a b, RelSpec.flow r_paths a b -> b = ["p2"] -> a = ["p2"]).
    { intros a b F. induction F as [|a b w e HIn F IH]; [auto|]. intros Eb. specialize (IH Eb). destruct HIn as [X|[X|[X|[]]]]; injection X as <- <- _; cbn in IH; discriminate. }
    assert (N : forall c, c = ["p2"] -> ~ ((In "x1" ["x1"; "x2"] /\ exists o, In o ["y1"; "y2"] /\ RelSpec.on_path r_paths (r_abs "x1") (r_abs o) c) \/
       (In "x1" ["y1"; "y2"] /\ exists i, In i ["x1"; "x2"] /\ RelSpec.on_path r_paths (r_abs i) (r_abs "x1") c))).
    { intros c -> [[_ (o & _ & [F _])]|[H _]]; [|cbn in H; intuition discriminate]. specialize (B _ _ F eq_refl). cbn in B. discriminate. }
    destruct (V "x2" E) as [[_ K]|(a & b & w & Hc & Hv & K & _)]; [exact (N _ eq_refl K)|].
    destruct Hc as [X|[X|[X|[]]]]; injection X as <- <- _; vm_compute in Hv; destruct Hv as [Hv|Hv]; try discriminate Hv. exact (N _ eq_refl K).
Qed.

(** ** where it fails *)
(** An implicit component with an unconnected state: 0 = z2 - z1, 0 = x - z2, and f = z1.
    The state z2 lies between x and f, but is not relevant to either: *)
Definition st_tree : OrderModel.tree := OrderModel.Node [("p", OrderModel.Leaf); ("c", OrderModel.Leaf); ("d", OrderModel.Leaf)].
Definition st_paths : list (list string * list string * nat) := [(["p"; "x"], ["c"; "x"], 1); (["c"; "z1"], ["d"; "z1"], 1)].
Definition st_abs (n : string) : list string := if String.eqb n "x" then ["p"; "x"] else ["d"; "f"].
Definition st_prom (p : list string) : string := if list_eq_dec string_dec p ["p"; "x"] then "x" else if list_eq_dec string_dec p ["d"; "f"] then "f" else String.concat "." p.
Lemma st_setting : forall dfs, GraphSpec.dfs_spec dfs ->
    RelProps.setting dfs st_abs st_prom st_tree st_paths ["x"] ["f"] (RelModel.relevant0 dfs st_abs (OrderModel.sys_graph (OrderModel.subsystems [] st_tree) st_paths) ["x"] ["f"]).
Proof.
  intros dfs D. split; [exact D|]. split; [|split; [|reflexivity]].
  - constructor; [repeat constructor; cbn; intuition discriminate|]. intros n c [E|[E|[E|[]]]]; injection E as <- <-; constructor.
  - intros n [[<-|[]]|[<-|[]]]; vm_compute; repeat split; discriminate.
Qed.
Lemma st_flow : RelSpec.flow st_paths ["p"] ["c"] /\ RelSpec.flow st_paths ["c"] ["d"].
Proof.
  split; [apply (RelSpec.flow_step st_paths ["p"; "x"] ["c"; "x"] 1)|apply (RelSpec.flow_step st_paths ["c"; "z1"] ["d"; "z1"] 1)]; try (cbn; tauto); apply RelSpec.flow_refl.
Qed.
Definition st_relevant (u : string) : bool := existsb (String.eqb u) ["x"; "c.x"; "c.z1"; "d.z1"; "f"].
Lemma st_is_relevant : forall dfs, GraphSpec.dfs_spec dfs ->
    let r := RelModel.relevant0 dfs st_abs (OrderModel.sys_graph (OrderModel.subsystems [] st_tree) st_paths) ["x"] ["f"] in
    forall n u, In n ["x"; "f"] -> RelModel.is_relevant st_abs st_prom st_paths r n u = st_relevant u.
Proof.
  intros dfs D r n u Hn. pose proof (st_setting dfs D : RelProps.setting dfs st_abs st_prom st_tree st_paths ["x"] ["f"] r) as ST. destruct st_flow as [F1 F2].
  assert (F3 : RelSpec.flow st_paths ["p"] ["d"]) by exact (RelProofs.flow_trans st_paths _ _ _ F1 F2).
  assert (P : forall v, RelSpec.var_on_path st_paths ["p"; "x"] ["d"; "f"] v -> RelModel.is_relevant st_abs st_prom st_paths r n (st_prom v) = true).
  { intros v Hv. destruct Hn as [<-|[<-|[]]].
    - apply (RelProps.vars_relevant_to_input dfs st_abs st_prom st_tree st_paths _ _ r ST "x" "f" [] []); [cbn; auto|reflexivity|intros []|exact Hv].
    - apply (RelProps.vars_relevant_to_output dfs st_abs st_prom st_tree st_paths _ _ r ST "x" "f"); [cbn; auto|cbn; auto|exact Hv]. }
  destruct (st_relevant u) eqn:E.
  - unfold st_relevant in E. apply existsb_exists in E. destruct E as (w & Hw & E). apply String.eqb_eq in E. subst w.
    destruct Hw as [<-|[<-|[<-|[<-|[<-|[]]]]]].
    + apply (P ["p"; "x"]). left. split; [left; reflexivity|exact F3].
    + apply (P ["c"; "x"]). right. exists ["p"; "x"], ["c"; "x"], 1. split; [cbn; auto|]. split; [auto|]. split; [apply RelSpec.flow_refl|exact F2].
    + apply (P ["c"; "z1"]). right. exists ["c"; "z1"], ["d"; "z1"], 1. split; [cbn; auto|]. split; [auto|]. split; [exact F1|apply RelSpec.flow_refl].
    + apply (P ["d"; "z1"]). right. exists ["c"; "z1"], ["d"; "z1"], 1. split; [cbn; auto|]. split; [auto|]. split; [exact F1|apply RelSpec.flow_refl].
    + apply (P ["d"; "f"]). left. split; [right; reflexivity|exact F3].
  - destruct (RelModel.is_relevant st_abs st_prom st_paths r n u) eqn:R; [|reflexivity]. exfalso.
    destruct (RelProps.relevant_only_on_paths dfs st_abs st_prom st_tree st_paths _ _ r ST n) as [_ V]; [destruct Hn as [<-|[<-|[]]]; cbn; auto|].
    destruct (V u R) as [[[[<-|[]]|[<-|[]]] _]|(a & b & w & [X|[X|[]]] & [->| ->] & _)]; try discriminate E; injection X as <- <- _; discriminate E.
Qed.
Theorem relevant_state_refuted : forall dfs, GraphSpec.dfs_spec dfs ->
    let r := RelModel.relevant0 dfs st_abs (OrderModel.sys_graph (OrderModel.subsystems [] st_tree) st_paths) ["x"] ["f"] in
    RelProps.setting dfs st_abs st_prom st_tree st_paths ["x"] ["f"] r /\
    RelSpec.on_path st_paths (st_abs "x") (st_abs "f") (removelast ["c"; "z2"]) /\
    forall n, In n ["x"; "f"] -> RelModel.is_relevant_system r (Some n) ["c"] = Ok true /\
      RelModel.is_relevant st_abs st_prom st_paths r n (st_prom ["c"; "z1"]) = true /\ RelModel.is_relevant st_abs st_prom st_paths r n (st_prom ["c"; "z2"]) = false.
Proof.
  intros dfs D r. pose proof (st_setting dfs D : RelProps.setting dfs st_abs st_prom st_tree st_paths ["x"] ["f"] r) as ST. destruct st_flow as [F1 F2].
  split; [exact ST|]. split; [split; [exact F1|exact F2]|]. intros n Hn. unfold r. rewrite !st_is_relevant by assumption. split; [|split; reflexivity].
  destruct Hn as [<-|[<-|[]]].
  - apply (RelProps.systems_relevant_to_input dfs st_abs st_prom st_tree st_paths _ _ r ST "x" "f" [] [] ["c"]); [cbn; auto|reflexivity|intros []|split; [exact F1|exact F2]|left; reflexivity].
  - apply (RelProps.systems_relevant_to_output dfs st_abs st_prom st_tree st_paths _ _ r ST "x" "f" ["c"]); [cbn; auto|cbn; auto|split; [exact F1|exact F2]|left; reflexivity].
Qed.
Print Assumptions relevant_state_refuted.

(** so it is missing from the vectors of x and of f, and df/dx = 1 is returned as 0 *)
Definition st_c : comp := mkC [par "x" 0 1] [sta "z1" 1 1; sta "z2" 2 1] false
  (Some [(("z1", "z1"), zmat 1 1 [-1]%Z); (("z1", "z2"), zmat 1 1 [1]%Z); (("z2", "z2"), zmat 1 1 [-1]%Z); (("z2", "x"), zmat 1 1 [1]%Z)]) None.
Definition st_d : comp := mkC [par "z1" 1 1] [out "f" 3 1] false (Some [(("f", "z1"), zmat 1 1 [1]%Z)]) None.
Definition st_sys : sys := Group ["x"; "c.z1"; "c.z2"; "f"] None [mkK 0 0 1 0; mkK 1 1 2 1] [Indep [out "x" 0 1]; Comp st_c; Comp st_d].
Definition st_vars : list (string * (nat * nat)) := [("x", (0, 1)); ("c.z1", (1, 1)); ("c.z2", (2, 1)); ("f", (3, 1))].
Definition st_keep_u (k : nat) : bool := st_relevant (nth k ["x"; "c.z1"; "c.z2"; "f"] "").
Definition st_keep_p (k : nat) : bool := st_relevant (nth k ["c.x"; "d.z1"] "").
Definition st_X : list (list Z) := [[1; 0; 0; 0]; [1; 1; 1; 0]; [1; 0; 1; 0]; [1; 1; 1; 1]]%Z.
Definition st_R : list (list Z) := [[1; 0; 0; 0]; [0; 1; 0; 0]; [0; 0; 0; 0]; [0; 1; 0; 1]]%Z.
Definition st_p (reduce : bool) : prob :=
  mkProb 4 (sget st_vars) [["x"]] [["f"]] [] [] true reduce (fun _ => true) (fun key u => match key with None => true | Some _ => st_relevant u end)
    (fun fwd key rhs k => let X := match key with None => st_X | Some _ => st_R end in (- zsum 4 (fun q => (if fwd then zat X k q else zat X q k) * rhs q))%Z).
Theorem reduced_state_refuted : wf st_sys /\ whole 1%Z Z.mul Z.opp st_keep_u st_keep_p st_sys /\
    (forall reduce fwd, request_ok (st_p reduce) fwd ["x"] ["f"] /\ exact 0%Z 1%Z Z.add Z.mul Z.opp (st_p reduce) st_sys fwd /\
      exact_for 0%Z 1%Z Z.add Z.mul Z.opp (st_p reduce) (Some (if fwd then "x" else "f")) (RedModel.reduce st_keep_u st_keep_p st_sys) fwd) /\
    (forall X, total_derivatives 0%Z 1%Z Z.add Z.mul Z.opp st_sys X -> X 3 0 = 1%Z) /\
    forall fwd, out_of (zgrad (st_p false) fwd ["x"] ["f"] noscale noscale) = Ok [[1]]%Z /\
      out_of (zgrad (st_p true) fwd ["x"] ["f"] noscale noscale) = Ok [[0]]%Z.
Proof.
  assert (W : wf st_sys) by (apply sysb_ok; vm_compute; reflexivity).
  assert (EX : forall reduce fwd, exact 0%Z 1%Z Z.add Z.mul Z.opp (st_p reduce) st_sys fwd).
  { intros reduce fwd rhs k Hk. vm_compute in Hk. destruct fwd; destruct Hk as [<-|[<-|[<-|[<-|[]]]]]; cbn -[Z.mul]; lia. }
  split; [exact W|]. split; [apply wholeb_ok; vm_compute; reflexivity|]. split; [|split].
  - intros reduce fwd. split; [|split; [apply EX|]].
    + repeat split; try (repeat constructor; cbn; intuition discriminate).
      * intros n [<-|[]]. exists 0, 1. repeat split; try discriminate; cbn; lia.
      * intros n [<-|[]]. exists 3, 1. repeat split; try discriminate; cbn; lia.
      * intros grp Hg. destruct fwd; cbn in Hg; destruct Hg as [<-|[]]; apply one_group; cbn; auto.
    + intros rhs k Hk. vm_compute in Hk. destruct fwd; destruct Hk as [<-|[<-|[<-|[]]]]; cbn -[Z.mul]; lia.
  - intros X HX. rewrite (derivatives_unique _ _ _ _ _ _ Zth (st_p false) st_sys X (zat st_X) W (EX false false) HX); [reflexivity| |cbn; auto|cbn; auto].
    intros q k Hq Hk. vm_compute in Hq, Hk. destruct Hq as [<-|[<-|[<-|[<-|[]]]]]; destruct Hk as [<-|[<-|[<-|[<-|[]]]]]; reflexivity.
  - intros []; split; vm_compute; reflexivity.
Qed.
Print Assumptions reduced_state_refuted.

(** With relevance reduction the derivatives of an unknown that is neither of interest to
    the driver nor connected are returned as zeros: y = 3 x is connected to d, g = 5 x is
    not connected. *)
Definition ot_X : list (list Z) := [[1; 0; 0]; [3; 1; 0]; [5; 0; 1]]%Z.
Definition ot_p (reduce : bool) : prob :=
  mkProb 3 (sget [("x", (0, 1)); ("c.z1", (1, 1)); ("c.g", (2, 1))]) [["x"]] [["f"]] [] [] true reduce (fun _ => true)
    (fun key u => match key with None => true | Some _ => st_relevant u end)
    (fun fwd _ rhs k => (- zsum 3 (fun q => (if fwd then zat ot_X k q else zat ot_X q k) * rhs q))%Z).
Theorem reduced_other_unknown_refuted :
    (forall dfs, GraphSpec.dfs_spec dfs ->
      let r := RelModel.relevant0 dfs st_abs (OrderModel.sys_graph (OrderModel.subsystems [] st_tree) st_paths) ["x"] ["f"] in
      forall u, RelModel.is_relevant st_abs st_prom st_paths r "x" u = p_rel (ot_p true) (Some "x") u) /\
    request_ok (ot_p true) true ["x"] ["c.z1"; "c.g"] /\
    out_of (zgrad (ot_p false) true ["x"] ["c.z1"; "c.g"] noscale noscale) = Ok [[3]; [5]]%Z /\
    out_of (zgrad (ot_p true) true ["x"] ["c.z1"; "c.g"] noscale noscale) = Ok [[3]; [0]]%Z.
Proof.
  split; [|split; [|split; vm_compute; reflexivity]].
  - intros dfs D r u. apply st_is_relevant; [exact D|cbn; auto].
  - split; [repeat constructor; cbn; intuition discriminate|]. split; [repeat constructor; cbn; intuition discriminate|]. split; [|split; [|split; [reflexivity|split; [reflexivity|]]]].
    + intros n [<-|[]]. exists 0, 1. repeat split; try discriminate; cbn; lia.
    + intros n [<-|[<-|[]]]; [exists 1, 1|exists 2, 1]; repeat split; try discriminate; cbn; lia.
    + intros grp [<-|[]]. apply one_group; cbn; auto.
Qed.
Print Assumptions reduced_other_unknown_refuted.

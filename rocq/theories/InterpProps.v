(** C82, C83: interpolants reproduce the data, and their gradients are derivatives.

    Numbers are the elements of an ordered field; the rational numbers Qc are used in the
    examples.  query is the k-d tree, null_vector the last row of V in the singular
    value decomposition, spsolve the sparse solver, fexp the exponential function. *)
From Coq Require Import Ring Field Qcanon.
From Verif Require Import Base InterpModel InterpSpec InterpProofs InterpProofs2 InterpProofs3 InterpProofs4 InterpProofs5 InterpProofs6 InterpProofs7.
Local Open Scope nat_scope.
Local Open Scope list_scope.

Section Props.
  Context {F : Type} (F0 F1 : F) (fadd fmul fsub : F -> F -> F) (fopp : F -> F) (fdiv : F -> F -> F) (finv : F -> F).
  Variable feqb : F -> F -> bool.
  Variable fltb : F -> F -> bool.
  Hypothesis Fth : field_theory F0 F1 fadd fmul fsub fopp fdiv finv (@eq F).
  Hypothesis EQ : forall a b, feqb a b = true <-> a = b.
  Notation flt := (fun a b => fltb a b = true).
  Notation le := (le flt).
  Notation entry := (entry F0). Notation along := (along F0 fadd fmul).
  Notation normalize := (normalize fsub fdiv).
  Notation nn_base := (nn_base F0 F1 fsub fdiv feqb fltb).
  Notation dadd := (dadd fadd). Notation dmul := (dmul fadd fmul). Notation dconst := (dconst F0).
  Notation shifted := (shifted fsub fdiv). Notation fixed := (fixed F0).
  Variable query : list (list F) -> list F -> nat -> list (F * nat).
  Notation weighted := (weighted F0 F1 fadd fmul fsub fdiv feqb query).
  Notation weighted_gradient := (weighted_gradient F0 F1 fadd fmul fsub fopp fdiv feqb query).
  Variables (m d k : nat) (tp tv : list (list F)).
  (** m training points with d inputs and k outputs *)
  Definition data : Prop := rect m d tp /\ rect m k tv /\ m <> 0.
  Hypothesis DA : data.
  Let b := nn_base tp tv.
  (** the neighbours of a point found by the k-d tree *)
  Definition found (n : nat) (x : list F) : list (F * nat) := query (b_tp (nn_base tp tv)) (normalize (b_tpm (nn_base tp tv)) (b_tpr (nn_base tp tv)) x) n.
  Definition found_nearest (dist : list F -> list F -> F) (n : nat) (x : list F) : Prop :=
    nearest flt dist (b_tp (nn_base tp tv)) (normalize (b_tpm (nn_base tp tv)) (b_tpr (nn_base tp tv)) x) n (found n x).
  Lemma found_index : forall dist n x, found_nearest dist n x -> forall e, In e (found n x) -> snd e < m.
  Proof. intros dist n x (_ & _ & Q3 & _) [e i] He. cbn. destruct DA as (RP & _). rewrite <- (proj1 RP). replace (length tp) with (length (b_tp (nn_base tp tv))) by (cbn; apply map_length). exact (proj1 (Q3 e i He)). Qed.

  (** ** the weighted interpolant *)
  Theorem weighted_exact_at_data : forall dist n de j y, ordered F0 fadd fmul flt -> distance F0 flt dist -> distinct tp -> j < m -> n <> 0 -> found_nearest dist n (row tp j) ->
      weighted b (row tp j) n de = Ok y -> y = row tv j.
  Proof.
    intros dist n de j y ORD DI DT Hj Hn NQ H. destruct DA as (RP & RV & M). assert (IX := found_index dist n (row tp j) NQ).
    assert (Nm : n <= m). { unfold InterpModel.weighted in H. destruct (length (b_tp b) <? n) eqn:E; [discriminate|]. apply Nat.ltb_ge in E. cbn in E. rewrite map_length, (proj1 RP) in E. exact E. }
    exact (weighted_exact F0 F1 fadd fmul fsub fopp fdiv finv feqb fltb Fth EQ m d k tp tv RP RV M query (row tp j) n de IX dist ORD DI NQ Nm Hn j Hj DT eq_refl y H).
  Qed.
  Theorem weighted_within : forall dist n de x y c lo hi, ordered F0 fadd fmul flt -> distance F0 flt dist -> n <> 0 -> found_nearest dist n x ->
      weighted b x n de = Ok y -> c < k -> (forall e, In e (found n x) -> le lo (entry (row tv (snd e)) c) /\ le (entry (row tv (snd e)) c) hi) -> le lo (entry y c) /\ le (entry y c) hi.
  Proof.
    intros dist n de x y c lo hi ORD DI Hn NQ H Hc B. destruct DA as (RP & RV & M). assert (IX := found_index dist n x NQ).
    assert (Nm : n <= m). { unfold InterpModel.weighted in H. destruct (length (b_tp b) <? n) eqn:E; [discriminate|]. apply Nat.ltb_ge in E. cbn in E. rewrite map_length, (proj1 RP) in E. exact E. }
    assert (P : eff d de <> 0) by (unfold eff; destruct de; lia). destruct NQ as (Q1 & Q2 & Q3 & Q4 & Q5).
    assert (NN : forall e, In e (found n x) -> le F0 (fst e)) by (intros [e i] He; destruct (Q3 e i He) as [_ ->]; apply (proj1 DI)).
    assert (NE : found n x <> []) by (intros K; rewrite K in Q1; cbn in Q1; congruence).
    assert (WP := weights_pos F0 F1 fadd fmul fsub fopp fdiv finv feqb fltb Fth EQ ORD (eff d de) (found n x) P NE NN).
    destruct (weighted_value F0 F1 fadd fmul fsub fopp fdiv finv feqb fltb Fth EQ m d k tp tv RP RV M query x n de IX y Nm H (pos_nz F0 fadd fmul fltb ORD _ WP)) as [_ V].
    apply (average F0 F1 fadd fmul fsub fopp fdiv finv fltb Fth ORD _ (found n x) (fun e => wf F0 F1 fmul fdiv feqb (eff d de) (hits F0 F1 fmul feqb (eff d de) (found n x)) (fst e)) (fun e => entry (row tv (snd e)) c)).
    - intros e He. split; [|exact (B e He)]. exact (weights_nn F0 F1 fadd fmul fsub fopp fdiv finv feqb fltb Fth EQ ORD (eff d de) (found n x) P NN e He).
    - exact WP.
    - exact (V c Hc).
  Qed.
  Theorem weighted_too_many : forall n de x, m < n -> weighted b x n de = Err ValueError /\ weighted_gradient b x n de = Err ValueError.
  Proof. intros n de x H. destruct DA as (RP & _). unfold InterpModel.weighted, InterpModel.weighted_gradient. replace (length (b_tp b)) with m by (cbn; rewrite map_length; symmetry; apply RP). apply Nat.ltb_lt in H. rewrite H. auto. Qed.
  (** the gradient is the derivative: dual numbers D (distances), W (weights) and Z (the
      average of the values) that satisfy the equations of inverse distance weighting have
      Z = prediction + gradient eps, and such dual numbers exist *)
  Theorem weighted_gradient_derivative : forall n de x y G dx c, length x = d -> length dx = d -> fadd F1 F1 <> F0 -> (forall e, In e (found n x) -> snd e < m) ->
      weighted b x n de = Ok y -> weighted_gradient b x n de = Ok G -> c < k -> sum F0 fadd (map (fun e => fdiv F1 (pow F1 fmul (fst e) (eff d de))) (found n x)) <> F0 ->
      forall D W Z, (forall e, In e (found n x) -> fst (D e) = fst e) ->
        inverse_distance F0 F1 fadd fmul fopp (eff d de) (found n x) (shifted (b_tpm b) (b_tpr b) x dx) (fun e => fixed (row (b_tp b) (snd e))) (fun e => dconst (entry (row tv (snd e)) c)) D W Z ->
        Z = (entry y c, along (row G c) dx).
  Proof.
    intros n de x y G dx c LX LD TWO IX HY HG Hc NZ D W Z HD ID. destruct DA as (RP & RV & M).
    assert (Nm : n <= m). { unfold InterpModel.weighted in HY. destruct (length (b_tp b) <? n) eqn:E; [discriminate|]. apply Nat.ltb_ge in E. cbn in E. rewrite map_length, (proj1 RP) in E. exact E. }
    exact (weighted_derivative F0 F1 fadd fmul fsub fopp fdiv finv feqb fltb Fth EQ m d k tp tv RP RV M query x n de LX IX TWO y G dx c Nm HY HG LD Hc NZ D W Z HD ID).
  Qed.
  Theorem weighted_gradient_duals : forall n de x dx c, length dx = d -> fadd F1 F1 <> F0 -> (forall e, In e (found n x) -> fst e <> F0) ->
      sum F0 fadd (map (fun e => fdiv F1 (pow F1 fmul (fst e) (eff d de))) (found n x)) <> F0 ->
      (forall e, In e (found n x) -> fmul (fst e) (fst e) = fst (dist2 F0 fadd fmul fopp (shifted (b_tpm b) (b_tpr b) x dx) (fixed (row (b_tp b) (snd e))))) ->
      exists D W Z, (forall e, In e (found n x) -> fst (D e) = fst e) /\
        inverse_distance F0 F1 fadd fmul fopp (eff d de) (found n x) (shifted (b_tpm b) (b_tpr b) x dx) (fun e => fixed (row (b_tp b) (snd e))) (fun e => dconst (entry (row tv (snd e)) c)) D W Z.
  Proof. intros n de x dx c LD TWO NE NZ H. exact (weighted_duals F0 F1 fadd fmul fsub fopp fdiv finv feqb fltb Fth d tp tv query x n de TWO dx c LD NE NZ H). Qed.
  (** at a training point the gradient is nan *)
  Theorem weighted_gradient_at_data : forall dist n de j, ordered F0 fadd fmul flt -> distance F0 flt dist -> distinct tp -> j < m -> n <> 0 -> n <= m -> found_nearest dist n (row tp j) ->
      weighted_gradient b (row tp j) n de = Err ZeroDivisionError.
  Proof.
    intros dist n de j ORD DI DT Hj Hn Nm NQ. destruct DA as (RP & RV & M). assert (IX := found_index dist n (row tp j) NQ).
    destruct (hit_j F0 F1 fadd fmul fsub fopp fdiv finv feqb fltb Fth EQ m d k tp tv RP RV M query (row tp j) n IX dist ORD DI NQ Hn j Hj DT eq_refl) as [H1 _].
    unfold InterpModel.weighted_gradient. replace (length (b_tp b)) with m by (cbn; rewrite map_length; symmetry; apply RP). destruct (m <? n) eqn:E; [apply Nat.ltb_lt in E; lia|].
    assert (Z : existsb (fun e => feqb e F0) (map fst (query (b_tp b) (normalize (b_tpm b) (b_tpr b) (row tp j)) n)) = true) by (apply existsb_exists; exists F0; split; [exact (in_map fst _ _ H1)|apply EQ; reflexivity]).
    rewrite Z. reflexivity.
  Qed.

  (** ** the linear interpolant *)
  Variable null_vector : list (list F) -> list F.
  Notation linear := (linear F0 fadd fmul fsub fopp fdiv feqb query null_vector).
  Notation linear_gradient := (linear_gradient F0 fadd fmul fsub fopp fdiv feqb query null_vector).
  Definition nlocs (x : list F) : list nat := map snd (found (d + 1) x).
  (** the rows whose null space is taken for output c, and the vector found *)
  Definition edges (x : list F) (c : nat) : list (list F) := diffs fsub (augmented F0 (nn_base tp tv) (nlocs x) c).
  Definition normals (x : list F) : Prop := forall c, c < k -> orthogonal F0 fadd fmul d (edges x c) (null_vector (edges x c)).
  (** an output whose plane is vertical *)
  Definition flat (x : list F) (c : nat) : Prop := entry (null_vector (edges x c)) d = F0.
  Theorem linear_exact_at_data : forall dist j, ordered F0 fadd fmul flt -> distance F0 flt dist -> distinct tp -> j < m -> d + 1 <= m -> found_nearest dist (d + 1) (row tp j) -> normals (row tp j) ->
      k = 1 \/ (forall c, c < k -> ~ flat (row tp j) c) -> linear b (row tp j) = Ok (row tv j).
  Proof.
    intros dist j ORD DI DT Hj Hm NQ NV H. destruct DA as (RP & RV & M).
    exact (linear_exact F0 F1 fadd fmul fsub fopp fdiv finv feqb fltb Fth EQ m d k tp tv RP RV M query null_vector dist ORD DI Hm j Hj DT NQ NV H).
  Qed.
  Theorem linear_exact_on_affine : forall a b0 x, k <> 0 -> length b0 = k -> (forall c, c < k -> length (row a c) = d) -> affine F0 fadd fmul a b0 tp tv -> length x = d ->
      length (nlocs x) = S d -> (forall i, In i (nlocs x) -> i < m) -> normals x -> general_position F0 fadd fmul d (map (row tp) (nlocs x)) ->
      (exists y, linear b x = Ok y /\ length y = k /\ forall c, c < k -> entry y c = fadd (along (row a c) x) (entry b0 c)) /\
      exists G, linear_gradient b x = Ok G /\ length G = k /\ forall c, c < k -> row G c = row a c.
  Proof.
    intros a b0 x K0 LB LA AF LX LL IX NV GP. destruct DA as (RP & RV & M).
    exact (linear_affine F0 F1 fadd fmul fsub fopp fdiv finv feqb fltb Fth EQ m d k tp tv RP RV M query null_vector a b0 LB LA AF x LX LL IX NV GP K0).
  Qed.
  (** the gradient is the slope between points with the same neighbours *)
  Theorem linear_gradient_slope : forall x x' y y' G, k <> 0 -> length x = d -> length x' = d -> length (nlocs x) = S d -> (forall i, In i (nlocs x) -> i < m) -> nlocs x' = nlocs x -> normals x ->
      linear b x = Ok y -> linear b x' = Ok y' -> linear_gradient b x = Ok G -> forall c, c < k -> fsub (entry y' c) (entry y c) = along (row G c) (vsub fsub x' x).
  Proof.
    intros x x' y y' G K0 LX LX' LL IX E NV HY HY' HG. destruct DA as (RP & RV & M).
    exact (linear_slope F0 F1 fadd fmul fsub fopp fdiv finv feqb fltb Fth EQ m d k tp tv RP RV M query null_vector x x' y y' G K0 LX LX' LL IX E NV HY HY' HG).
  Qed.
  (** a vertical plane for an output other than the first *)
  Theorem linear_flat_index : forall x c, 1 <= c -> c < k -> flat x c -> linear b x = Err IndexError.
  Proof. intros x c H1 Hc H. destruct DA as (RP & RV & M). exact (flat_index F0 F1 fadd fmul fsub fopp fdiv feqb fltb EQ m d k tp tv RP RV M query null_vector x c H1 Hc H). Qed.
  Theorem linear_flat_gradient : forall x c c', c < k -> c' < k -> flat x c -> ~ flat x c' -> linear_gradient b x = Err ZeroDivisionError.
  Proof. intros x c c' Hc Hc' H H'. destruct DA as (RP & RV & M). exact (flat_gradient F0 F1 fadd fmul fsub fopp fdiv feqb fltb EQ m d k tp tv RP RV M query null_vector x c c' Hc Hc' H H'). Qed.

  (** ** radial basis functions *)
  Variable kern dkern : F -> F.
  Notation rbf_train := (rbf_train F0 fdiv feqb query kern).
  Notation rbf_predict := (rbf_predict F0 fadd fmul fsub fdiv feqb query kern).
  Notation rbf_gradient := (rbf_gradient F0 fadd fmul fsub fdiv feqb query dkern).
  (** the weights solve the equations of the training points *)
  Definition solved (n : nat) (W : list (list F)) : Prop :=
    forall i c, i < m -> c < k -> along (row (map (fun t => find_R F0 fdiv kern m (query (b_tp (nn_base tp tv)) t n)) (b_tp (nn_base tp tv))) i) (map (fun v => entry v c) W) = entry (row (b_tv (nn_base tp tv)) i) c.
  Theorem rbf_exact_at_data : forall spsolve n W j, rbf_train spsolve b n = Ok W -> solved n W -> j < m -> rbf_predict b n W (row tp j) = Ok (row tv j).
  Proof. intros spsolve n W j T SP Hj. destruct DA as (RP & RV & M). exact (rbf_exact F0 F1 fadd fmul fsub fopp fdiv finv feqb fltb Fth EQ m d k tp tv RP RV M query kern spsolve n W j SP T Hj). Qed.
  Theorem rbf_gradient_derivative : forall eps n x W y G dx c, length x = d -> length dx = d -> length W = m -> fadd F1 F1 <> F0 -> found n x <> [] -> NoDup (map snd (found n x)) -> (forall e, In e (found n x) -> snd e < m) ->
      rbf_predict b n W x = Ok y -> rbf_gradient eps b n W x = Ok G -> c < k -> (forall e, In e (removelast (found n x)) -> fst e <> F0) ->
      forall kd D T Z, (forall t t', kd (t, t') = (kern t, fmul (dkern t) t')) -> (forall e, In e (found n x) -> fst (D e) = fst e) ->
        radial F0 fadd fmul fopp (removelast (found n x)) (last (found n x) (F0, 0)) kd (shifted (b_tpm b) (b_tpr b) x dx) (fun e => fixed (row (b_tp b) (snd e))) (fun e => dconst (entry (row W (snd e)) c)) D T Z ->
        dadd (dmul Z (dconst (entry (b_tvr b) c))) (dconst (entry (b_tvm b) c)) = (entry y c, along (row G c) dx).
  Proof.
    intros eps n x W y G dx c LX LD LW TWO NN ND IX HY HG Hc NE kd D T Z KD HD R. destruct DA as (RP & RV & M).
    exact (rbf_derivative F0 F1 fadd fmul fsub fopp fdiv finv feqb fltb Fth EQ m d k tp tv RP RV M query kern dkern x n LX IX ND NN W LW TWO eps y G dx c HY HG LD Hc NE kd D T Z KD HD R).
  Qed.

  Theorem rbf_gradient_duals : forall n x W kd dx c, fadd F1 F1 <> F0 -> found n x <> [] -> (forall e, In e (found n x) -> fst e <> F0) ->
      (forall e, In e (found n x) -> fmul (fst e) (fst e) = fst (dist2 F0 fadd fmul fopp (shifted (b_tpm b) (b_tpr b) x dx) (fixed (row (b_tp b) (snd e))))) ->
      exists D T Z, (forall e, In e (found n x) -> fst (D e) = fst e) /\
        radial F0 fadd fmul fopp (removelast (found n x)) (last (found n x) (F0, 0)) kd (shifted (b_tpm b) (b_tpr b) x dx) (fun e => fixed (row (b_tp b) (snd e))) (fun e => dconst (entry (row W (snd e)) c)) D T Z.
  Proof. intros n x W kd dx c TWO NN NE H. exact (rbf_duals F0 F1 fadd fmul fsub fopp fdiv finv feqb fltb Fth tp tv query x n NN W TWO kd dx c NE H). Qed.

  (** ** kriging *)
  Theorem kriging_gradient_derivative : forall (fexp : F -> F) dexp (kr : krig (F := F)) n x dx c, (forall a a', dexp (a, a') = (fexp a, fmul (fexp a) a')) ->
      length (k_xmean kr) = d -> length (k_xstd kr) = d -> length (k_ymean kr) = k -> length (k_ystd kr) = k -> rect n d (k_X kr) -> length (k_thetas kr) = d -> length (k_alpha kr) = n -> (forall i, i < d -> entry (k_xstd kr) i <> F0) ->
      length x = d -> length dx = d -> c < k ->
      dadd (dconst (entry (k_ymean kr) c)) (dmul (dconst (entry (k_ystd kr) c)) (gaussian F0 fadd fmul fopp (seq 0 n) dexp (shifted (k_xmean kr) (k_xstd kr) x dx) (fixed (k_thetas kr)) (fun i => fixed (row (k_X kr) i)) (fun i => dconst (entry (row (k_alpha kr) i) c)))) =
      (entry (krig_predict F0 fadd fmul fsub fopp fdiv fexp kr x) c, along (row (krig_linearize F0 F1 fadd fmul fsub fopp fdiv fexp kr x) c) dx).
  Proof.
    intros fexp dexp kr n x dx c DE XM XS YM YS RX LT RA NS LX LD Hc. exact (krig_derivative F0 F1 fadd fmul fsub fopp fdiv finv Fth fexp dexp DE kr n d k XM XS YM YS RX LT RA NS x LX dx c LD Hc).
  Qed.
End Props.

(** ** the kernels: for every number of inputs and every comp but two, dRp is the
    derivative of R, and R is 0 at the last neighbour *)
Theorem rbf_kernel_derivatives : forall qsqrt dims comp, comp <> (-3)%Z -> ~ ((dims <= 2) /\ comp = 1%Z) ->
  (forall t, kernel qsqrt dims comp t = Err NameError /\ dkernel qsqrt dims comp t = Err NameError) \/
  exists f g, (forall t, kernel qsqrt dims comp t = Ok (f t)) /\ (forall t, dkernel qsqrt dims comp t = Ok (g t)) /\ poly_derivative f g /\ (f 1 == 0)%Q.
Proof.
  intros qsqrt dims comp N3 N. destruct (in_dec Z.eq_dec comp [-1; -2; 0; 1; 2; 3; 4]%Z) as [I|I].
  - right. destruct (tables_some dims comp I N) as (s & s' & E & E' & P & O). exists (shape s), (shape s'). split; [|split; [|split]].
    + intros t. unfold kernel. rewrite E. repeat (destruct I as [<-|I]; [reflexivity|]). destruct I.
    + intros t. unfold dkernel. rewrite E'. repeat (destruct I as [<-|I]; [reflexivity|]). destruct I.
    + apply table_derivative. exact P.
    + rewrite shape_expand. apply Qeq_bool_iff. exact O.
  - left. intros t. destruct (tables_none dims comp) as [E E']; [intros c Hc K; apply I; rewrite K; exact Hc|]. unfold kernel, dkernel. rewrite E, E'. destruct comp as [|p|[[p|p|]|p|]]; auto. congruence.
Qed.
(** one input, comp = 1: dRp has the wrong sign *)
Theorem rbf_kernel_one_refuted : forall qsqrt dims, dims <= 2 -> exists f g, (forall t, kernel qsqrt dims 1 t = Ok (f t)) /\ (forall t, dkernel qsqrt dims 1 t = Ok (g t)) /\ poly_derivative f (fun t => - g t)%Q /\ forall t, (0 < t -> t < 1 -> 0 < g t)%Q.
Proof.
  intros qsqrt dims H. apply Nat.leb_le in H. exists (shape (3, 12%Z, [3; 1]%Z)), (shape (0, 1%Z, [1; -2; 1; 0]%Z)). split; [|split; [|split]].
  - intros t. unfold kernel, kernel_table. rewrite H. reflexivity.
  - intros t. unfold dkernel, dkernel_table. rewrite H. reflexivity.
  - exists (expand (3, 12%Z, [3; 1]%Z)). split; [intros t; apply shape_expand|]. intros t. rewrite shape_expand, <- peval_scale_opp. apply peq_eval. vm_compute. reflexivity.
  - intros t T0 T1. assert (E : (shape (0%nat, 1%Z, [1; -2; 1; 0]%Z) t == t * ((1 - t) * (1 - t)))%Q) by (unfold shape, polyval; cbn [fold_left qpow]; unfold inject_Z; field). rewrite E.
    assert (P : (0 < 1 - t)%Q) by (apply (Qplus_lt_l _ _ t); ring_simplify; exact T1). assert (PP : forall a b : Q, (0 < a -> 0 < b -> 0 < a * b)%Q) by (intros a c A B; rewrite <- (Qmult_0_l c); apply Qmult_lt_compat_r; assumption). apply PP; [exact T0|apply PP; exact P].
Qed.
(** comp = -3: the derivative of s(t) = sqrt(t*t + 1) is t / s(t), the code gives 1 for
    positive t *)
Theorem rbf_kernel_sqrt_refuted : forall qsqrt dims t, (0 < t)%Q -> (qsqrt (t * t * 1) == t)%Q -> (0 < qsqrt (t * t + 1))%Q -> (qsqrt (t * t + 1) * qsqrt (t * t + 1) == t * t + 1)%Q ->
  exists s g, kernel qsqrt dims (-3) t = Ok s /\ dkernel qsqrt dims (-3) t = Ok g /\ (g == 1)%Q /\ (s * s == t * t + 1)%Q /\ forall s', (s * s' + s' * s == t * 1 + 1 * t)%Q -> ~ (s' == g)%Q.
Proof.
  intros qsqrt dims t T S P H. do 2 eexists. split; [reflexivity|]. split; [reflexivity|]. cbn [polyval fold_left]. set (s := qsqrt (t * t + 1)%Q) in *. set (r := qsqrt (t * t * 1)%Q) in *.
  assert (T0 : ~ (t == 0)%Q) by (intros K; rewrite K in T; discriminate). assert (G1 : (t / r * (0 * t + inject_Z 1) == 1)%Q) by (rewrite S; unfold inject_Z; field; exact T0).
  split; [exact G1|]. split; [rewrite <- H; unfold inject_Z; ring|]. intros s' D K. rewrite G1 in K. rewrite K in D.
  assert (ST : (s == t)%Q). { assert (D' : (2 * s == 2 * t)%Q) by (unfold inject_Z in D; transitivity (s * (0 * t + 1) * 1 + 1 * (s * (0 * t + 1)))%Q; [ring|]; rewrite D; ring). apply (Qmult_inj_l s t 2); [discriminate|exact D']. }
  rewrite ST in H. assert (Z : (0 == 1)%Q) by (transitivity (t * t - t * t)%Q; [ring|]; rewrite H at 1; ring). discriminate.
Qed.

(** ** the rational numbers as a concrete field *)
Section Rationals.
  Definition qeq (a b : Qc) : bool := Qeq_bool a b.
  Definition qlt (a b : Qc) : bool := negb (Qle_bool b a).
  Lemma qeq_iff : forall a b, qeq a b = true <-> a = b.
  Proof. intros a b. unfold qeq. rewrite Qeq_bool_iff. split; [apply Qc_is_canon|intros ->; reflexivity]. Qed.
  Lemma qlt_iff : forall a b : Qc, qlt a b = true <-> (a < b)%Q.
  Proof. intros a b. unfold qlt. rewrite negb_true_iff. split; intros H; [apply Qnot_le_lt; intros K; apply Qle_bool_iff in K; congruence|]. destruct (Qle_bool b a) eqn:E; [|reflexivity]. apply Qle_bool_iff in E. exfalso. exact (Qlt_not_le _ _ H E). Qed.
  Lemma q_ordered : ordered (Q2Qc 0) Qcplus Qcmult (fun a b => qlt a b = true).
  Proof.
    split.
    - intros a H. apply qlt_iff in H. exact (Qlt_irrefl _ H).
    - intros a b c. rewrite !qlt_iff. apply Qlt_trans.
    - intros a b. rewrite !qlt_iff. destruct (Q_dec a b) as [[H|H]|H]; [left; exact H|right; right; exact H|right; left; apply Qc_is_canon; exact H].
    - intros a b c. rewrite !qlt_iff. unfold Qcplus, Q2Qc. cbn [this]. rewrite !Qred_correct. intros H. apply Qplus_lt_l. exact H.
    - intros a b. rewrite !qlt_iff. unfold Qcmult, Q2Qc. cbn [this]. rewrite !Qred_correct. intros A B. change (0 < a)%Q in A. change (0 < b)%Q in B. change (0 < a * b)%Q. rewrite <- (Qmult_0_l b). apply Qmult_lt_compat_r; assumption.
  Qed.
  Definition qabs (a : Qc) : Qc := if qlt a (Q2Qc 0) then Qcopp a else a.
  Lemma qabs_nn : forall a, ~ (qlt (qabs a) (Q2Qc 0) = true).
  Proof. intros a. unfold qabs. destruct (qlt a (Q2Qc 0)) eqn:E; [|congruence]. rewrite qlt_iff in *. unfold Qcopp, Q2Qc in *. cbn [this] in *. rewrite Qred_correct in *. intros K. apply Qlt_not_le in K. apply K. apply Qlt_le_weak in E. change (0 <= - a)%Q. rewrite <- (Qplus_opp_r a) at 1. rewrite <- (Qplus_0_l (- a)) at 2. apply Qplus_le_compat; [exact E|apply Qle_refl]. Qed.
  Lemma qabs_zero : forall a, qabs a = Q2Qc 0 -> a = Q2Qc 0.
  Proof. intros a. unfold qabs. destruct (qlt a (Q2Qc 0)); intros H; [|exact H]. rewrite <- (Qcopp_involutive a), H. reflexivity. Qed.
  (** the sum of the distances of the coordinates *)
  Fixpoint qdist (x y : list Qc) : Qc := match x, y with a :: x', c :: y' => (qabs (a - c) + qdist x' y')%Qc | _, _ => Q2Qc 0 end.
  Lemma q_distance : distance (Q2Qc 0) (fun a b => qlt a b = true) qdist.
  Proof.
    assert (NN : forall x y, (0 <= qdist x y)%Q).
    { induction x as [|a x IH]; intros [|c y]; try (cbn; discriminate). cbn [qdist]. unfold Qcplus, Q2Qc. cbn [this]. rewrite Qred_correct. rewrite <- (Qplus_0_l 0). apply Qplus_le_compat; [|apply IH]. apply Qnot_lt_le. intros K. apply (qabs_nn (a - c)%Qc). apply qlt_iff. exact K. }
    split; [intros x y H; apply qlt_iff in H; exact (Qlt_not_le _ _ H (NN x y))|].
    induction x as [|a x IH]; intros [|c y] L; try discriminate; [tauto|]. cbn in L. split.
    - intros H. cbn [qdist] in H. assert (Z : (qabs (a - c) + qdist x y == 0)%Q) by (pose proof (f_equal this H) as K; change (Qred (qabs (a - c) + qdist x y) = 0)%Q in K; rewrite <- (Qred_correct (qabs (a - c) + qdist x y)), K; reflexivity).
      assert (A : (0 <= qabs (a - c))%Q) by (apply Qnot_lt_le; intros K; apply (qabs_nn (a - c)%Qc); apply qlt_iff; exact K). assert (B := NN x y).
      assert (A0 : (qabs (a - c) == 0)%Q) by (apply Qle_antisym; [|exact A]; rewrite <- Z; rewrite <- (Qplus_0_r (qabs (a - c))) at 1; apply Qplus_le_compat; [apply Qle_refl|exact B]).
      assert (B0 : (qdist x y == 0)%Q) by (rewrite A0, Qplus_0_l in Z; exact Z).
      f_equal; [|apply IH; [lia|apply Qc_is_canon; exact B0]]. assert (E : (a - c)%Qc = Q2Qc 0) by (apply qabs_zero; apply Qc_is_canon; exact A0). transitivity ((a - c) + c)%Qc; [ring|]. rewrite E. ring.
    - intros H. injection H as -> ->. cbn. rewrite (proj2 (IH y ltac:(lia)) eq_refl). replace (c - c)%Qc with (Q2Qc 0) by ring. reflexivity.
  Qed.
  (** sorting by distance *)
  Fixpoint qins (e : Qc * nat) (l : list (Qc * nat)) : list (Qc * nat) := match l with [] => [e] | e' :: r => if qlt (fst e') (fst e) then e' :: qins e r else e :: l end.
  Definition qquery (tp : list (list Qc)) (x : list Qc) (n : nat) : list (Qc * nat) :=
    firstn n (fold_right qins [] (map (fun i => (qdist x (nth i tp []), i)) (seq 0 (length tp)))).
End Rationals.

Notation q0 := (Q2Qc 0). Notation q1 := (Q2Qc 1).
Definition qz (z : Z) : Qc := Q2Qc (inject_Z z).
Notation qweighted := (weighted q0 q1 Qcplus Qcmult Qcminus Qcdiv qeq qquery).
Notation qweighted_gradient := (weighted_gradient q0 q1 Qcplus Qcmult Qcminus Qcopp Qcdiv qeq qquery).
Notation qbase := (nn_base q0 q1 Qcminus Qcdiv qeq qlt).
Definition show (r : res (list Qc)) : res (list Q) := match r with Ok l => Ok (map this l) | Err e => Err e end.
Definition show2 (r : res (list (list Qc))) : res (list (list Q)) := match r with Ok l => Ok (map (map this) l) | Err e => Err e end.
Ltac qdecide := repeat (match goal with |- _ /\ _ => split end); try reflexivity; try (apply Qc_is_canon; reflexivity).

Definition ex_tp : list (list Qc) := [[qz 0]; [qz 1]; [qz 3]].
Definition ex_tv : list (list Qc) := [[qz 5; qz 0]; [qz 7; qz 2]; [qz 1; qz 6]].
Example ex_data : data 3 1 2 ex_tp ex_tv /\ distinct ex_tp.
Proof.
  split; [split; [|split; [|discriminate]]; (split; [reflexivity|]; intros r H; cbn in H; repeat (destruct H as [<-|H]; [reflexivity|]); destruct H)|].
  unfold distinct, ex_tp. repeat constructor; cbn; intros H; repeat (destruct H as [H|H]; [apply (f_equal (map this)) in H; vm_compute in H; discriminate|]); destruct H.
Qed.
(** a test of nearness *)
Definition near_ok (tp : list (list Qc)) (x : list Qc) (n : nat) (nb : list (Qc * nat)) : bool :=
  (length nb =? n) && (if list_eq_dec Nat.eq_dec (nodup Nat.eq_dec (map snd nb)) (map snd nb) then true else false) &&
  forallb (fun e => (snd e <? length tp) && qeq (fst e) (qdist x (nth (snd e) tp []))) nb &&
  forallb (fun e => forallb (fun j => existsb (Nat.eqb j) (map snd nb) || negb (qlt (qdist x (nth j tp [])) (fst e))) (seq 0 (length tp))) nb &&
  match nb with [] => true | e :: r => forallb (fun e' => negb (qlt (fst e') (fst e))) r end.
Lemma near_ok_spec : forall tp x n nb, near_ok tp x n nb = true -> nearest (fun a b => qlt a b = true) qdist tp x n nb.
Proof.
  intros tp x n nb H. unfold near_ok in H. repeat (apply andb_true_iff in H; destruct H as [H ?]). destruct (list_eq_dec _ _ _) as [ND|]; [|discriminate].
  rewrite forallb_forall in H1, H2. split; [apply Nat.eqb_eq; exact H|]. split; [rewrite <- ND; apply NoDup_nodup|]. split; [|split].
  - intros d i Hi. specialize (H2 _ Hi). apply andb_true_iff in H2. destruct H2 as [L E]. split; [apply Nat.ltb_lt; exact L|apply qeq_iff; exact E].
  - intros d i j Hi Hj N K. specialize (H1 _ Hi). rewrite forallb_forall in H1. specialize (H1 j (proj2 (in_seq _ _ _) (conj (Nat.le_0_l j) Hj))). cbn [fst] in H1. rewrite K, orb_false_r in H1. apply existsb_exists in H1. destruct H1 as (z & Hz & E). apply Nat.eqb_eq in E. subst z. exact (N Hz).
  - intros e r -> e' He K. rewrite forallb_forall in H0. specialize (H0 e' He). cbn beta in K. rewrite K in H0. discriminate.
Qed.
Example ex_found : found_nearest q0 q1 Qcminus Qcdiv qeq qlt qquery ex_tp ex_tv qdist 2 (row ex_tp 1).
Proof. apply near_ok_spec. vm_compute. reflexivity. Qed.
Example weighted_exact_example : show (qweighted (qbase ex_tp ex_tv) (row ex_tp 1) 2 0) = Ok [7; 2]%Q /\ show (qweighted (qbase ex_tp ex_tv) [qz 2] 3 0) = Ok [37 # 9; 32 # 9]%Q.
Proof. split; vm_compute; reflexivity. Qed.
(** all values of three neighbours lie between 1 and 7 *)
Lemma two_nz : (q1 + q1)%Qc <> q0. Proof. intros H. apply (f_equal this) in H. vm_compute in H. discriminate. Qed.
Definition sq_ok (tp tv : list (list Qc)) (n : nat) (x dx : list Qc) : bool :=
  forallb (fun e : Qc * nat => qeq (fst e * fst e)%Qc (fst (dist2 q0 Qcplus Qcmult Qcopp (shifted Qcminus Qcdiv (b_tpm (qbase tp tv)) (b_tpr (qbase tp tv)) x dx) (fixed q0 (row (b_tp (qbase tp tv)) (snd e))))) && negb (qeq (fst e) q0))
    (found q0 q1 Qcminus Qcdiv qeq qlt qquery tp tv n x).
Lemma sq_ok_spec : forall tp tv n x dx, sq_ok tp tv n x dx = true -> forall e, In e (found q0 q1 Qcminus Qcdiv qeq qlt qquery tp tv n x) ->
  (fst e * fst e)%Qc = fst (dist2 q0 Qcplus Qcmult Qcopp (shifted Qcminus Qcdiv (b_tpm (qbase tp tv)) (b_tpr (qbase tp tv)) x dx) (fixed q0 (row (b_tp (qbase tp tv)) (snd e)))) /\ fst e <> q0.
Proof.
  intros tp tv n x dx H e He. unfold sq_ok in H. rewrite forallb_forall in H. specialize (H e He). apply andb_true_iff in H. destruct H as [H1 H2]. split; [apply qeq_iff; exact H1|]. intros K. apply negb_true_iff in H2. apply qeq_iff in K. congruence.
Qed.
Lemma shifted_fst : forall m r x dx dx', length dx = length dx' -> map fst (shifted Qcminus Qcdiv m r x dx) = map fst (shifted Qcminus Qcdiv m r x dx').
Proof. induction m as [|a m IH]; intros [|b r] [|c x] [|z dx] [|z' dx'] L; try discriminate; try reflexivity. cbn in L. cbn [shifted map fst]. f_equal. apply IH. lia. Qed.
Lemma dist2_fst : forall X X' Y, map fst X = map fst X' -> fst (dist2 q0 Qcplus Qcmult Qcopp X Y) = fst (dist2 q0 Qcplus Qcmult Qcopp X' Y).
Proof.
  unfold dist2. induction X as [|a X IH]; intros [|a' X'] [|c Y] E; try discriminate; try reflexivity. cbn [map] in E. injection E as E1 E2. cbn [combine map dsum fold_right]. unfold dsum in IH. specialize (IH X' Y E2). cbn [fst snd dadd dmul dsub dopp]. cbn [fst snd] in IH |- *. rewrite E1. f_equal. exact IH.
Qed.
Lemma sq_ok_dir : forall tp tv n x dx dx', length dx = length dx' -> sq_ok tp tv n x dx' = true -> sq_ok tp tv n x dx = true.
Proof.
  intros tp tv n x dx dx' L H. unfold sq_ok in *. rewrite forallb_forall in *. intros e He. rewrite <- (H e He). f_equal. f_equal. apply dist2_fst. apply shifted_fst. exact L.
Qed.
Lemma index_ok : forall (l : list (Qc * nat)) m, forallb (fun e => snd e <? m) l = true -> forall e, In e l -> snd e < m.
Proof. intros l m H e He. rewrite forallb_forall in H. apply Nat.ltb_lt. exact (H e He). Qed.

(** the prediction 37/9, 32/9 at 2 lies between the values 1, 7 and 0, 6; the gradient
    there is -440/81, 320/81, and it is the derivative *)
Example weighted_gradient_example : forall dx, length dx = 1 -> exists y G, show (Ok y) = Ok [37 # 9; 32 # 9]%Q /\ show2 (Ok G) = Ok [[-440 # 81]; [320 # 81]]%Q /\
  forall c, c < 2 -> exists D W Z, inverse_distance q0 q1 Qcplus Qcmult Qcopp 2 (found q0 q1 Qcminus Qcdiv qeq qlt qquery ex_tp ex_tv 3 [qz 2]) (shifted Qcminus Qcdiv (b_tpm (qbase ex_tp ex_tv)) (b_tpr (qbase ex_tp ex_tv)) [qz 2] dx)
      (fun e => fixed q0 (row (b_tp (qbase ex_tp ex_tv)) (snd e))) (fun e => dconst q0 (entry q0 (row ex_tv (snd e)) c)) D W Z /\ Z = (entry q0 y c, along q0 Qcplus Qcmult (row G c) dx).
Proof.
  intros dx LD. destruct (qweighted (qbase ex_tp ex_tv) [qz 2] 3 0) as [y|] eqn:Y; [|vm_compute in Y; discriminate]. destruct (qweighted_gradient (qbase ex_tp ex_tv) [qz 2] 3 0) as [G|] eqn:GE; [|vm_compute in GE; discriminate]. exists y, G.
  split; [rewrite <- Y; vm_compute; reflexivity|]. split; [rewrite <- GE; vm_compute; reflexivity|]. intros c Hc.
  assert (NZ : sum q0 Qcplus (map (fun e : Qc * nat => Qcdiv q1 (pow q1 Qcmult (fst e) (eff 1 0))) (found q0 q1 Qcminus Qcdiv qeq qlt qquery ex_tp ex_tv 3 [qz 2])) <> q0) by (intros H; apply (f_equal this) in H; vm_compute in H; discriminate).
  assert (OK := sq_ok_spec ex_tp ex_tv 3 [qz 2] dx). assert (OKC : sq_ok ex_tp ex_tv 3 [qz 2] dx = true) by (apply (sq_ok_dir _ _ _ _ _ [q0]); [exact LD|vm_compute; reflexivity]). specialize (OK OKC).
  destruct (weighted_gradient_duals q0 q1 Qcplus Qcmult Qcminus Qcopp Qcdiv Qcinv qeq qlt Qcft qquery 1 ex_tp ex_tv 3 0 [qz 2] dx c LD two_nz (fun e He => proj2 (OK e He)) NZ (fun e He => proj1 (OK e He))) as (D & W & Z & HD & ID).
  exists D, W, Z. split; [exact ID|].
  assert (IX : forall e, In e (found q0 q1 Qcminus Qcdiv qeq qlt qquery ex_tp ex_tv 3 [qz 2]) -> snd e < 3) by (apply index_ok; vm_compute; reflexivity).
  exact (weighted_gradient_derivative q0 q1 Qcplus Qcmult Qcminus Qcopp Qcdiv Qcinv qeq qlt Qcft qeq_iff qquery 3 1 2 ex_tp ex_tv (proj1 ex_data) 3 0 [qz 2] y G dx c eq_refl LD two_nz IX Y GE Hc NZ D W Z HD ID).
Qed.

(** one input: the vector orthogonal to one row *)
Definition qnull (rows : list (list Qc)) : list Qc := match rows with [[a; c]] => if qeq a q0 && qeq c q0 then [q1; q0] else [c; Qcopp a] | _ => [] end.
Notation qlinear := (linear q0 Qcplus Qcmult Qcminus Qcopp Qcdiv qeq qquery).
Notation qlinear_gradient := (linear_gradient q0 Qcplus Qcmult Qcminus Qcopp Qcdiv qeq qquery).
Lemma orth_ok : forall rows v d, (length v =? S d) && forallb (fun r => qeq (along q0 Qcplus Qcmult r v) q0) rows && negb (forallb (fun z => qeq z q0) v) = true -> orthogonal q0 Qcplus Qcmult d rows v.
Proof.
  intros rows v d H. apply andb_true_iff in H. destruct H as [H H3]. apply andb_true_iff in H. destruct H as [H1 H2]. split; [apply Nat.eqb_eq; exact H1|]. split; [intros r Hr; rewrite forallb_forall in H2; apply qeq_iff; exact (H2 r Hr)|].
  intros K. rewrite K in H3. apply negb_true_iff in H3. assert (Z : forall n, forallb (fun z => qeq z q0) (repeat q0 n) = true) by (induction n as [|n IH]; [reflexivity|exact IH]). rewrite Z in H3. discriminate.
Qed.
Example linear_example : normals q0 q1 Qcplus Qcmult Qcminus Qcdiv qeq qlt qquery 1 2 ex_tp ex_tv qnull (row ex_tp 1) /\ (forall c, c < 2 -> ~ flat q0 q1 Qcminus Qcdiv qeq qlt qquery 1 ex_tp ex_tv qnull (row ex_tp 1) c) /\
  show (qlinear qnull (qbase ex_tp ex_tv) (row ex_tp 1)) = Ok [7; 2]%Q /\ show (qlinear qnull (qbase ex_tp ex_tv) [qz 2]) = Ok [4; 4]%Q /\ show2 (qlinear_gradient qnull (qbase ex_tp ex_tv) [qz 2]) = Ok [[-3]; [2]]%Q.
Proof.
  split; [|split; [|split; [|split]; vm_compute; reflexivity]].
  - intros c Hc. destruct c as [|[|c]]; [| |lia]; apply orth_ok; vm_compute; reflexivity.
  - intros c Hc H. destruct c as [|[|c]]; [| |lia]; unfold flat in H; apply (f_equal this) in H; vm_compute in H; discriminate.
Qed.

(** three points on a line: the plane of output 0 is vertical, that of output 1 is not *)
Definition qnull2 (rows : list (list Qc)) : list Qc :=
  match rows with
  | [[a; c; e]; [a'; c'; e']] => let v := [c * e' - e * c'; e * a' - a * e'; a * c' - c * a']%Qc in if forallb (fun z => qeq z q0) v then [q1; q1; qz (-2)] else v
  | _ => []
  end.
Definition l3_tp : list (list Qc) := [[qz 0; qz 0]; [qz 1; qz 1]; [qz 2; qz 2]].
Definition l3_tv : list (list Qc) := [[qz 0; qz 0]; [qz 3; qz 1]; [qz 0; qz 2]].
Lemma l3_found : found_nearest q0 q1 Qcminus Qcdiv qeq qlt qquery l3_tp l3_tv qdist 3 (row l3_tp 2).
Proof. apply near_ok_spec. vm_compute. reflexivity. Qed.
(** with two outputs a training point is not reproduced: output 1 is divided again *)
Theorem linear_outputs_refuted : exists tp tv nv y, data 3 2 2 tp tv /\ distinct tp /\ found_nearest q0 q1 Qcminus Qcdiv qeq qlt qquery tp tv qdist 3 (row tp 2) /\
  normals q0 q1 Qcplus Qcmult Qcminus Qcdiv qeq qlt qquery 2 2 tp tv nv (row tp 2) /\ qlinear nv (qbase tp tv) (row tp 2) = Ok y /\ map this (row tv 2) = [0; 2]%Q /\ map this y = [0; 1]%Q.
Proof.
  destruct (qlinear qnull2 (qbase l3_tp l3_tv) (row l3_tp 2)) as [y|] eqn:Y; [|vm_compute in Y; discriminate]. exists l3_tp, l3_tv, qnull2, y. split; [|split; [|split; [exact l3_found|split; [|split; [exact Y|split]]]]].
  - split; [|split; [|discriminate]]; (split; [reflexivity|]; intros r H; cbn in H; repeat (destruct H as [<-|H]; [reflexivity|]); destruct H).
  - unfold distinct, l3_tp. repeat constructor; cbn; intros H; repeat (destruct H as [H|H]; [apply (f_equal (map this)) in H; vm_compute in H; discriminate|]); destruct H.
  - intros c Hc. destruct c as [|[|c]]; [| |lia]; apply orth_ok; vm_compute; reflexivity.
  - vm_compute. reflexivity.
  - apply (f_equal show) in Y. vm_compute in Y. cbn in Y. apply ok_inj in Y. symmetry. exact Y.
Qed.
(** the same data with the outputs exchanged: output 1 is flat *)
Example linear_flat_example : flat q0 q1 Qcminus Qcdiv qeq qlt qquery 2 l3_tp (map (@rev Qc) l3_tv) qnull2 (row l3_tp 2) 1 /\ qlinear qnull2 (qbase l3_tp (map (@rev Qc) l3_tv)) (row l3_tp 2) = Err IndexError /\
  qlinear_gradient qnull2 (qbase l3_tp (map (@rev Qc) l3_tv)) (row l3_tp 2) = Err ZeroDivisionError.
Proof. split; [apply Qc_is_canon; vm_compute; reflexivity|split; vm_compute; reflexivity]. Qed.

(** affine data in general position *)
Definition af_tp : list (list Qc) := [[qz 0; qz 0]; [qz 2; qz 0]; [qz 0; qz 1]; [qz 3; qz 4]].
Definition af_tv : list (list Qc) := [[qz 5]; [qz 9]; [qz 2]; [qz (-1)]].
Example linear_affine_example : affine q0 Qcplus Qcmult [[qz 2; qz (-3)]] [qz 5] af_tp af_tv /\ normals q0 q1 Qcplus Qcmult Qcminus Qcdiv qeq qlt qquery 2 1 af_tp af_tv qnull2 [qz 1; q1] /\
  nlocs q0 q1 Qcminus Qcdiv qeq qlt qquery 2 af_tp af_tv [qz 1; q1] = [2; 0; 1] /\ general_position q0 Qcplus Qcmult 2 (map (row af_tp) [2; 0; 1]) /\
  show (qlinear qnull2 (qbase af_tp af_tv) [qz 1; q1]) = Ok [4]%Q /\ show2 (qlinear_gradient qnull2 (qbase af_tp af_tv) [qz 1; q1]) = Ok [[2; -3]]%Q.
Proof.
  split; [|split; [|split; [|split; [|split]]]].
  - intros i c Hi Hc. cbn in Hi, Hc. destruct c; [|lia]. do 4 (destruct i as [|i]; [apply Qc_is_canon; vm_compute; reflexivity|]). lia.
  - intros c Hc. destruct c as [|c]; [|lia]. apply orth_ok. vm_compute. reflexivity.
  - vm_compute. reflexivity.
  - intros v LV H. destruct v as [|a [|c [|? ?]]]; try discriminate. assert (H1 := H _ _ (or_intror (or_introl eq_refl)) (or_introl eq_refl)). assert (H2 := H _ _ (or_intror (or_introl eq_refl)) (or_intror (or_intror (or_introl eq_refl)))). cbn in H1, H2.
    assert (A : (qz 2 * a = q0)%Qc) by (transitivity (a * qz 2 + (c * qz 0 + q0))%Qc; [change (qz 0) with q0; ring|]; unfold af_tp, row in *; cbn in *; rewrite <- H2; change (qz 0) with q0; ring).
    assert (C : c = q0) by (transitivity (a * qz 0 + (c * qz 1 + q0))%Qc; [change (qz 0) with q0; change (qz 1) with q1; ring|]; rewrite <- H1; change (qz 0) with q0; ring).
    assert (A0 : a = q0) by (apply Qcmult_integral in A; destruct A as [A|A]; [apply (f_equal this) in A; vm_compute in A; discriminate|exact A]). subst. reflexivity.
  - vm_compute. reflexivity.
  - vm_compute. reflexivity.
Qed.

(** radial basis functions with the kernel 1 - t, all three neighbours *)
Definition rb_kern (t : Qc) : Qc := (q1 - t)%Qc.
Definition rb_dkern (t : Qc) : Qc := qz (-1).
Definition rb_W : list (list Qc) := [[q0; Q2Qc (-1 # 3)]; [q1; Q2Qc (1 # 2)]; [Q2Qc (-1 # 3); Q2Qc (5 # 6)]].
Notation qrbf_predict := (rbf_predict q0 Qcplus Qcmult Qcminus Qcdiv qeq qquery rb_kern).
Notation qrbf_gradient := (rbf_gradient q0 Qcplus Qcmult Qcminus Qcdiv qeq qquery rb_dkern (Q2Qc (1 # 100000000000))).
Example rbf_example : rbf_train q0 Qcdiv qeq qquery rb_kern (fun _ _ => rb_W) (qbase ex_tp ex_tv) 3 = Ok rb_W /\ solved q0 q1 Qcplus Qcmult Qcminus Qcdiv qeq qlt qquery 3 2 ex_tp ex_tv rb_kern 3 rb_W /\
  show (qrbf_predict (qbase ex_tp ex_tv) 3 rb_W (row ex_tp 2)) = Ok [1; 6]%Q /\ show (qrbf_predict (qbase ex_tp ex_tv) 3 rb_W [Q2Qc (5 # 2)]) = Ok [9 # 5; 26 # 5]%Q.
Proof.
  split; [vm_compute; reflexivity|]. split; [|split; vm_compute; reflexivity]. intros i c Hi Hc. destruct c as [|[|c]]; [| |lia]; do 3 (destruct i as [|i]; [apply Qc_is_canon; vm_compute; reflexivity|]); lia.
Qed.
Notation ex_x := [Q2Qc (5 # 2)].
Definition rb_dual (t : Qc * Qc) : Qc * Qc := (rb_kern (fst t), rb_dkern (fst t) * snd t)%Qc.
Notation ex_found3 := (found q0 q1 Qcminus Qcdiv qeq qlt qquery ex_tp ex_tv 3 ex_x).
Example rbf_gradient_example : forall dx, length dx = 1 -> exists y G, show (Ok y) = Ok [9 # 5; 26 # 5]%Q /\ show2 (Ok G) = Ok [[-48 # 25]; [48 # 25]]%Q /\
  forall c, c < 2 -> exists D T Z, radial q0 Qcplus Qcmult Qcopp (removelast ex_found3) (last ex_found3 (q0, 0)) rb_dual (shifted Qcminus Qcdiv (b_tpm (qbase ex_tp ex_tv)) (b_tpr (qbase ex_tp ex_tv)) ex_x dx)
      (fun e => fixed q0 (row (b_tp (qbase ex_tp ex_tv)) (snd e))) (fun e => dconst q0 (entry q0 (row rb_W (snd e)) c)) D T Z /\
    dadd Qcplus (dmul Qcplus Qcmult Z (dconst q0 (entry q0 (b_tvr (qbase ex_tp ex_tv)) c))) (dconst q0 (entry q0 (b_tvm (qbase ex_tp ex_tv)) c)) = (entry q0 y c, along q0 Qcplus Qcmult (row G c) dx).
Proof.
  intros dx LD. destruct (qrbf_predict (qbase ex_tp ex_tv) 3 rb_W ex_x) as [y|] eqn:Y; [|vm_compute in Y; discriminate]. destruct (qrbf_gradient (qbase ex_tp ex_tv) 3 rb_W ex_x) as [G|] eqn:GE; [|vm_compute in GE; discriminate]. exists y, G.
  split; [rewrite <- Y; vm_compute; reflexivity|]. split; [rewrite <- GE; vm_compute; reflexivity|]. intros c Hc.
  assert (OK := sq_ok_spec ex_tp ex_tv 3 ex_x dx). assert (OKC : sq_ok ex_tp ex_tv 3 ex_x dx = true) by (apply (sq_ok_dir _ _ _ _ _ [q0]); [exact LD|vm_compute; reflexivity]). specialize (OK OKC).
  assert (NE : ex_found3 <> []) by (intros K; apply (f_equal (@length _)) in K; vm_compute in K; discriminate).
  destruct (rbf_gradient_duals q0 q1 Qcplus Qcmult Qcminus Qcopp Qcdiv Qcinv qeq qlt Qcft qquery ex_tp ex_tv 3 ex_x rb_W rb_dual dx c two_nz NE (fun e He => proj2 (OK e He)) (fun e He => proj1 (OK e He))) as (D & T & Z & HD & RD).
  exists D, T, Z. split; [exact RD|].
  assert (IX : forall e, In e ex_found3 -> snd e < 3) by (apply index_ok; vm_compute; reflexivity).
  assert (ND : NoDup (map snd ex_found3)) by (replace (map snd ex_found3) with [2; 1; 0] by (vm_compute; reflexivity); repeat constructor; cbn; lia).
  assert (RL : forall e, In e (removelast ex_found3) -> fst e <> q0) by (intros e He; apply (proj2 (OK e (removelast_in _ _ _ He)))).
  exact (rbf_gradient_derivative q0 q1 Qcplus Qcmult Qcminus Qcopp Qcdiv Qcinv qeq qlt Qcft qeq_iff qquery 3 1 2 ex_tp ex_tv (proj1 ex_data) rb_kern rb_dkern _ 3 ex_x rb_W y G dx c eq_refl LD eq_refl two_nz NE ND IX Y GE Hc RL rb_dual D T Z (fun t t' => eq_refl) HD RD).
Qed.

(** the weighted average of three neighbours lies between 1 and 7 *)
Lemma ex_found3_nearest : found_nearest q0 q1 Qcminus Qcdiv qeq qlt qquery ex_tp ex_tv qdist 3 ex_x.
Proof. apply near_ok_spec. vm_compute. reflexivity. Qed.
Example weighted_within_example : exists y, qweighted (qbase ex_tp ex_tv) ex_x 3 0 = Ok y /\ le (fun a b => qlt a b = true) q1 (entry q0 y 0) /\ le (fun a b => qlt a b = true) (entry q0 y 0) (qz 7).
Proof.
  destruct (qweighted (qbase ex_tp ex_tv) ex_x 3 0) as [y|] eqn:Y; [|vm_compute in Y; discriminate]. exists y. split; [reflexivity|].
  refine (weighted_within q0 q1 Qcplus Qcmult Qcminus Qcopp Qcdiv Qcinv qeq qlt Qcft qeq_iff qquery 3 1 2 ex_tp ex_tv (proj1 ex_data) qdist 3 0 ex_x y 0 q1 (qz 7) q_ordered q_distance ltac:(discriminate) ex_found3_nearest Y ltac:(lia) _).
  intros e He. assert (IX : snd e < 3) by (revert e He; apply index_ok; vm_compute; reflexivity). destruct (snd e) as [|[|[|i]]]; [| | |lia]; split; unfold le; vm_compute; discriminate.
Qed.
Example weighted_too_many_example : qweighted (qbase ex_tp ex_tv) ex_x 4 0 = Err ValueError /\ qweighted_gradient (qbase ex_tp ex_tv) (row ex_tp 1) 2 0 = Err ZeroDivisionError.
Proof. split; vm_compute; reflexivity. Qed.

(** kriging with two samples; 1 + a stands for the exponential, whose dual extension only
    needs the derivative at the points used *)
Definition kr_ex : krig (F := Qc) := mkK [q1] [qz 2] [qz 10] [qz 3] [[qz 0]; [qz 1]] [Q2Qc (1 # 2)] [[qz 2]; [qz (-1)]].
Example kriging_example : forall fexp dx, length dx = 1 -> (forall c, c < 1 ->
  dadd Qcplus (dconst q0 (entry q0 (k_ymean kr_ex) c)) (dmul Qcplus Qcmult (dconst q0 (entry q0 (k_ystd kr_ex) c)) (gaussian q0 Qcplus Qcmult Qcopp (seq 0 2) (fun a => (fexp (fst a), fexp (fst a) * snd a)%Qc) (shifted Qcminus Qcdiv (k_xmean kr_ex) (k_xstd kr_ex) [qz 4] dx) (fixed q0 (k_thetas kr_ex)) (fun i => fixed q0 (row (k_X kr_ex) i)) (fun i => dconst q0 (entry q0 (row (k_alpha kr_ex) i) c)))) =
  (entry q0 (krig_predict q0 Qcplus Qcmult Qcminus Qcopp Qcdiv fexp kr_ex [qz 4]) c, along q0 Qcplus Qcmult (row (krig_linearize q0 q1 Qcplus Qcmult Qcminus Qcopp Qcdiv fexp kr_ex [qz 4]) c) dx)) /\
  map this (krig_predict q0 Qcplus Qcmult Qcminus Qcopp Qcdiv (fun a => q1 + a)%Qc kr_ex [qz 4]) = [53 # 8]%Q.
Proof.
  intros fexp dx LD. split; [|vm_compute; reflexivity]. intros c Hc.
  refine (kriging_gradient_derivative q0 q1 Qcplus Qcmult Qcminus Qcopp Qcdiv Qcinv Qcft 1 1 fexp _ kr_ex 2 [qz 4] dx c _ eq_refl eq_refl eq_refl eq_refl _ eq_refl eq_refl _ eq_refl LD Hc); [reflexivity| |].
  - split; [reflexivity|]. intros r [<-|[<-|[]]]; reflexivity.
  - intros i Hi K. destruct i; [|lia]. apply (f_equal this) in K. vm_compute in K. discriminate.
Qed.
(** the kernel for three inputs and comp = 2 *)
Example kernel_example : exists v v', kernel (fun t => t) 3 2 (1 # 2) = Ok v /\ dkernel (fun t => t) 3 2 (1 # 2) = Ok v' /\ (0 < v)%Q /\ (v' < 0)%Q.
Proof. do 2 eexists. split; [reflexivity|]. split; [reflexivity|]. split; vm_compute; reflexivity. Qed.

Print Assumptions weighted_exact_at_data.
Print Assumptions weighted_within.
Print Assumptions weighted_too_many.
Print Assumptions weighted_gradient_derivative.
Print Assumptions weighted_gradient_duals.
Print Assumptions weighted_gradient_at_data.
Print Assumptions linear_exact_at_data.
Print Assumptions linear_exact_on_affine.
Print Assumptions linear_gradient_slope.
Print Assumptions linear_flat_index.
Print Assumptions linear_flat_gradient.
Print Assumptions rbf_exact_at_data.
Print Assumptions rbf_gradient_derivative.
Print Assumptions rbf_gradient_duals.
Print Assumptions kriging_gradient_derivative.
Print Assumptions rbf_kernel_derivatives.
Print Assumptions rbf_kernel_one_refuted.
Print Assumptions rbf_kernel_sqrt_refuted.
Print Assumptions linear_outputs_refuted.

(** C119: the Jacobian of a component is read as one block for each pair of variables, and a
    block of a wrong shape is reported. *)
From Verif Require Import Base BaseFacts LinModel JsModel JsSpec.
Local Open Scope nat_scope.

Section Props.
  Context {F : Type} (F0 : F) (fadd fmul : F -> F -> F).
  Notation jt := (jac_term F0 fadd fmul).

  (** A number becomes a block of one entry, an array of one axis a column; other arrays stay. *)
  Theorem C119_normalise : forall v : jval F, match v with
    | Num x => exists a, normalise v = Ok (Arr [1; 1] a) /\ forall i, a i = x
    | Arr [n] b => exists a, normalise v = Ok (Arr [n; 1] a) /\ forall i, a [i; 0] = b [i]
    | Arr (n :: m :: r) b => normalise v = Ok v
    | Arr [] _ => True
    end.
  Proof.
    intros [x|[|n [|m r]] b]; cbn.
    - exists (fun _ => x). split; reflexivity.
    - exact I.
    - exists (fun i => b (firstn 1 i)). split; reflexivity.
    - reflexivity.
  Qed.
  (** An array without axes makes linearize fail. *)
  Theorem C119_no_axes_refuted : forall (b : list nat -> F) k r, normalise_all ((k, Arr [] b) :: r) = Err IndexError.
  Proof. reflexivity. Qed.
  (** Without such arrays all items are kept, in order, with at least two axes. *)
  Theorem C119_items : forall d : jdict F, (forall k v, In (k, v) d -> forall a, v <> Arr [] a) ->
    exists e, normalise_all d = Ok e /\ map fst e = map fst d /\ Forall2 (fun x y => normalise (snd x) = Ok (snd y)) d e
      /\ (forall k v, In (k, v) e -> exists n m r a, v = Arr (n :: m :: r) a).
  Proof.
    induction d as [|[k v] d IH]; intros H; [exists []; repeat split; [constructor|intros ? ? []]|]. destruct IH as (e & E1 & E2 & E3 & E4); [intros k' v' I; apply (H k' v'); right; exact I|].
    assert (N : exists w, normalise v = Ok w /\ exists n m r a, w = Arr (n :: m :: r) a).
    { specialize (H k v (or_introl eq_refl)). destruct v as [x|[|n [|m r]] b]; cbn; [eexists; split; [reflexivity|repeat eexists]|exfalso; apply (H b); reflexivity|eexists; split; [reflexivity|repeat eexists]|eexists; split; [reflexivity|repeat eexists]]. }
    destruct N as (w & N & W). exists ((k, w) :: e). cbn [normalise_all bind]. rewrite N. cbn [bind]. rewrite E1. cbn [bind]. repeat split.
    - cbn. rewrite E2. reflexivity.
    - constructor; [exact N|exact E3].
    - intros k' v' [E|I]; [injection E as <- <-; exact W|exact (E4 k' v' I)].
  Qed.

  (** ** Blocks of a wrong shape *)
  Lemma iadd_err : forall (v : @vec F) off size a, iadd fadd v off size a = Err ValueError <-> (fst a <> size /\ fst a <> 1).
  Proof.
    intros v off size a. unfold iadd. destruct (Nat.eqb_spec (fst a) size) as [E|E]; [split; [discriminate|tauto]|]. destruct (Nat.eqb_spec (fst a) 1) as [E'|E']; [split; [discriminate|tauto]|tauto].
  Qed.
  Lemma iadd_bind : forall (v : @vec F) off size a (k : @vec F -> res (@state F)), (forall w, exists s, k w = Ok s) -> (bind (iadd fadd v off size a) k = Err ValueError <-> (fst a <> size /\ fst a <> 1)).
  Proof.
    intros v off size a k K. rewrite <- (iadd_err v off size a). destruct (iadd fadd v off size a) as [w|e]; cbn [bind]; [|split; intros E; injection E as ->; reflexivity]. destruct (K w) as (s & ->). split; discriminate.
  Qed.
  Lemma jdot_bind : forall J (v : @vec F) off size (k : nat * (nat -> F) -> res (@state F)), bind (jdot F0 fadd fmul J v off size) k = if m_cols J =? size then k (m_rows J, fun i => sumto F0 fadd (m_cols J) (fun j => fmul (m_at J i j) (v (off + j)))) else Err ValueError.
  Proof. intros. unfold jdot. destruct (m_cols J =? size); reflexivity. Qed.
  Lemma jtdot_bind : forall J (v : @vec F) off size (k : nat * (nat -> F) -> res (@state F)), bind (jtdot F0 fadd fmul J v off size) k = if m_rows J =? size then k (m_cols J, fun j => sumto F0 fadd (m_rows J) (fun i => fmul (m_at J i j) (v (off + i)))) else Err ValueError.
  Proof. intros. unfold jtdot. destruct (m_rows J =? size); reflexivity. Qed.
  (** Forward, a block is refused exactly if it has a wrong number of columns, or a wrong number
      of rows other than one; in reverse with rows and columns exchanged. *)
  Theorem C119_forward : forall c s un pn J u n, find_u c un = Some u -> argument c pn n ->
    (jt true c s un pn J = Err ValueError <-> (m_cols J <> n \/ (m_rows J <> u_size u /\ m_rows J <> 1))).
  Proof.
    intros c s un pn J u n U A. unfold jac_term. rewrite U. destruct A as [x X|p X P]; rewrite X; [|rewrite P]; rewrite jdot_bind.
    - destruct (Nat.eqb_spec (m_cols J) (u_size x)) as [E|E]; [|tauto]. rewrite iadd_bind by (intros w; eexists; reflexivity). cbn [fst]. tauto.
    - destruct (Nat.eqb_spec (m_cols J) (p_size p)) as [E|E]; [|tauto]. rewrite iadd_bind by (intros w; eexists; reflexivity). cbn [fst]. tauto.
  Qed.
  Theorem C119_reverse : forall c s un pn J u n, find_u c un = Some u -> argument c pn n ->
    (jt false c s un pn J = Err ValueError <-> (m_rows J <> u_size u \/ (m_cols J <> n /\ m_cols J <> 1))).
  Proof.
    intros c s un pn J u n U A. unfold jac_term. rewrite U. destruct A as [x X|p X P]; rewrite X; [|rewrite P]; rewrite jtdot_bind.
    - destruct (Nat.eqb_spec (m_rows J) (u_size u)) as [E|E]; [|tauto]. rewrite iadd_bind by (intros w; eexists; reflexivity). cbn [fst]. tauto.
    - destruct (Nat.eqb_spec (m_rows J) (u_size u)) as [E|E]; [|tauto]. rewrite iadd_bind by (intros w; eexists; reflexivity). cbn [fst]. tauto.
  Qed.
  (** A block of a wrong shape is refused in at least one of the two modes. *)
  Theorem C119_one_mode : forall c s s' un pn J u n, find_u c un = Some u -> argument c pn n ->
    (m_rows J <> u_size u \/ m_cols J <> n) -> jt true c s un pn J = Err ValueError \/ jt false c s' un pn J = Err ValueError.
  Proof.
    intros c s s' un pn J u n U A H. rewrite (C119_forward c s un pn J u n U A), (C119_reverse c s' un pn J u n U A). destruct (Nat.eq_dec (m_cols J) n) as [E|E]; [|left; left; exact E]. right. left. destruct H as [H|H]; [exact H|congruence].
  Qed.
  (** But forward a single row is added to every entry of the unknown, without a message. *)
  Theorem C119_broadcast_refuted : forall c s un pn J u p,
    find_u c un = Some u -> find (fun v => (u_name v =? pn)%string && u_state v) (c_unks c) = None -> find_p c pn = Some p ->
    m_rows J = 1 -> u_size u <> 1 -> m_cols J = p_size p ->
    exists s', jt true c s un pn J = Ok s' /\ du s' = du s /\ dp s' = dp s
      /\ forall i, i < u_size u -> dr s' (u_off u + i) = fadd (dr s (u_off u + i)) (sumto F0 fadd (p_size p) (fun j => fmul (m_at J 0 j) (dp s (p_off p + j)))).
  Proof.
    intros c s un pn J u p U X P R N C. unfold jac_term. rewrite U, X, P, jdot_bind, C, Nat.eqb_refl. unfold iadd. cbn [fst snd]. rewrite R. destruct (Nat.eqb_spec 1 (u_size u)) as [E|_]; [congruence|]. cbn [Nat.eqb bind]. eexists. split; [reflexivity|]. cbn [du dp dr]. repeat split. intros i Hi. unfold at_range, inr.
    assert (G : (u_off u <=? u_off u + i) && (u_off u + i <? u_off u + u_size u) = true) by (apply andb_true_iff; split; [apply Nat.leb_le|apply Nat.ltb_lt]; lia). rewrite G. reflexivity.
  Qed.
  (** With right shapes nothing is refused, in either mode. *)
  Lemma right_ok : forall fwd c s un pn J, right_shape c un pn J -> exists s', jt fwd c s un pn J = Ok s'.
  Proof.
    intros fwd c s un pn J R. unfold jac_term. destruct (find_u c un) as [u|] eqn:U; [|eexists; reflexivity]. destruct (find (fun v => (u_name v =? pn)%string && u_state v) (c_unks c)) as [x|] eqn:X; [|destruct (find_p c pn) as [p|] eqn:P; [|eexists; reflexivity]].
    - destruct (R u _ U (arg_state c pn x X)) as [R1 R2]. destruct fwd; [rewrite jdot_bind, R2|rewrite jtdot_bind, R1]; rewrite Nat.eqb_refl; unfold iadd; cbn [fst]; [rewrite R1|rewrite R2]; rewrite Nat.eqb_refl; cbn [bind]; eexists; reflexivity.
    - destruct (R u _ U (arg_param c pn p X P)) as [R1 R2]. destruct fwd; [rewrite jdot_bind, R2|rewrite jtdot_bind, R1]; rewrite Nat.eqb_refl; unfold iadd; cbn [fst]; [rewrite R1|rewrite R2]; rewrite Nat.eqb_refl; cbn [bind]; eexists; reflexivity.
  Qed.
  Theorem C119_right : forall fwd c s l, c_jac c = Some l -> (forall un pn J, In (un, pn, J) l -> right_shape c un pn J) -> exists s', apply_jac F0 fadd fmul fwd c s = Ok s'.
  Proof.
    intros fwd c s l E. unfold apply_jac. rewrite E. clear E. revert s. induction l as [|[[un pn] J] l IH]; intros s H; [eexists; reflexivity|]. cbn [jac_terms]. destruct (right_ok fwd c s un pn J (H un pn J (or_introl eq_refl))) as (s' & ->). cbn [bind]. apply IH. intros un' pn' J' I. apply H. right. exact I.
  Qed.

  (** ** Allocation *)
  Lemma local_iff : forall v, local v = true <-> differentiable v.
  Proof. intros v. unfold local, differentiable. rewrite andb_true_iff, !negb_true_iff. tauto. Qed.
  (** A new Jacobian has a block of zeros of the right shape for each unknown with each param and
      each state, of those that can be differentiated here, and nothing else ... *)
  Theorem C119_alloc : forall params unknowns cache un pn v, cache = None \/ cache = Some [] ->
    (In (un, pn, v) (alloc_jacobian F0 cache params unknowns) <->
     exists u p, block_for params unknowns u p /\ un = v_name u /\ pn = v_name p /\ v = Arr [v_size u; v_size p] (fun _ => F0)).
  Proof.
    intros params unknowns cache un pn v C.
    assert (E : alloc_jacobian F0 cache params unknowns = flat_map (fun u => map (zeros F0 u) (filter local params) ++ map (zeros F0 u) (filter v_state (filter local unknowns))) (filter local unknowns)) by (destruct C as [-> | ->]; reflexivity).
    rewrite E. rewrite in_flat_map. unfold block_for. split.
    - intros (u & Hu & H). apply filter_In in Hu. destruct Hu as [Hu Lu]. apply local_iff in Lu. apply in_app_or in H. destruct H as [H|H]; apply in_map_iff in H; destruct H as (p & Z & Hp); unfold zeros in Z; injection Z as <- <- <-; exists u, p.
      + apply filter_In in Hp. destruct Hp as [Hp Lp]. apply local_iff in Lp. split; [split; [exact Hu|split; [exact Lu|split; [exact Lp|left; exact Hp]]]|]. repeat split.
      + apply filter_In in Hp. destruct Hp as [Hp Sp]. apply filter_In in Hp. destruct Hp as [Hp Lp]. apply local_iff in Lp. split; [split; [exact Hu|split; [exact Lu|split; [exact Lp|right; split; assumption]]]|]. repeat split.
    - intros (u & p & (Hu & Lu & Lp & Hp) & -> & -> & ->). apply local_iff in Lu. apply local_iff in Lp. exists u. split; [apply filter_In; split; assumption|]. apply in_or_app. destruct Hp as [Hp|[Hp Sp]]; [left|right]; apply in_map_iff; exists p; (split; [reflexivity|]); [apply filter_In; split; assumption|]. apply filter_In. split; [apply filter_In; split; assumption|exact Sp].
  Qed.
  (** ... each once. *)
  Lemma nodup_filter_names : forall (q : var -> bool) l, NoDup (map v_name l) -> NoDup (map v_name (filter q l)).
  Proof.
    intros q l. induction l as [|v l IH]; intros H; [constructor|]. cbn [map] in H. inversion H as [|? ? N H']. subst. cbn [filter]. destruct (q v); [|apply IH; exact H']. cbn [map]. constructor; [|apply IH; exact H']. intros I. apply N. apply in_map_iff in I. destruct I as (w & E & Hw). apply filter_In in Hw. apply in_map_iff. exists w. split; [exact E|apply Hw].
  Qed.
  Theorem C119_keys : forall params unknowns cache, cache = None \/ cache = Some [] -> NoDup (map v_name params) -> NoDup (map v_name unknowns) ->
    (forall p u, In p params -> In u unknowns -> v_name p <> v_name u) ->
    NoDup (map fst (alloc_jacobian F0 cache params unknowns)).
  Proof.
    intros params unknowns cache C Np Nu X.
    assert (E : alloc_jacobian F0 cache params unknowns = flat_map (fun u => map (zeros F0 u) (filter local params ++ filter v_state (filter local unknowns))) (filter local unknowns)) by (destruct C as [-> | ->]; cbn [alloc_jacobian]; apply flat_map_ext; intros u; rewrite map_app; reflexivity).
    rewrite E. clear E C.
    assert (A : NoDup (map v_name (filter local params ++ filter v_state (filter local unknowns)))).
    { rewrite map_app. pose proof (nodup_filter_names local params Np) as A1. pose proof (nodup_filter_names v_state _ (nodup_filter_names local unknowns Nu)) as A2.
      assert (D : forall p u, In p (filter local params) -> In u (filter v_state (filter local unknowns)) -> v_name p <> v_name u) by (intros p u Hp Hu; apply filter_In in Hp; apply filter_In in Hu; destruct Hu as [Hu _]; apply filter_In in Hu; apply X; [apply Hp|apply Hu]).
      revert A1 D. generalize (filter local params). intros l. induction l as [|p l IH]; intros A1 D; [exact A2|]. cbn [map app]. cbn [map] in A1. inversion A1 as [|? ? N A1']. subst. constructor; [|apply IH; [exact A1'|intros q u Hq; apply D; right; exact Hq]].
      intros I. apply in_app_or in I. destruct I as [I|I]; [tauto|]. apply in_map_iff in I. destruct I as (u & E & Hu). apply (D p u (or_introl eq_refl) Hu). symmetry. exact E. }
    revert A. generalize (filter local params ++ filter v_state (filter local unknowns)). intros args A. pose proof (nodup_filter_names local unknowns Nu) as U. revert U. generalize (filter local unknowns). intros us. induction us as [|u us IH]; intros U; [constructor|]. cbn [flat_map]. rewrite map_app. cbn [map] in U. inversion U as [|? ? N U']. subst. specialize (IH U').
    assert (B : NoDup (map fst (map (zeros F0 u) args))).
    { clear - A. induction args as [|p args IHa]; [constructor|]. cbn [map] in A |- *. inversion A as [|? ? N A']. subst. constructor; [|apply IHa; exact A']. intros I. apply N. rewrite map_map in I. apply in_map_iff in I. destruct I as (q & E & Hq). cbn in E. injection E as E. apply in_map_iff. exists q. split; [exact E|exact Hq]. }
    assert (D : forall k, In k (map fst (map (zeros F0 u) args)) -> ~ In k (map fst (flat_map (fun u => map (zeros F0 u) args) us))).
    { intros k Hk Hk'. rewrite map_map in Hk. apply in_map_iff in Hk. destruct Hk as (p & <- & _). apply in_map_iff in Hk'. destruct Hk' as (z & E & Hz). apply in_flat_map in Hz. destruct Hz as (u' & Hu' & Hz). apply in_map_iff in Hz. destruct Hz as (p' & <- & _). cbn in E. injection E as E _. apply N. apply in_map_iff. exists u'. split; [exact E|exact Hu']. }
    revert B D. generalize (map fst (map (zeros F0 u) args)). intros l. induction l as [|k l IHl]; intros B D; [exact IH|]. cbn [app]. inversion B as [|? ? N' B']. subst. constructor; [|apply IHl; [exact B'|intros k' Hk'; apply D; right; exact Hk']]. intros I. apply in_app_or in I. destruct I as [I|I]; [tauto|]. exact (D k (or_introl eq_refl) I).
  Qed.
  (** A Jacobian allocated once is kept whatever happens to the variables: no call gives another
      shape. *)
  Theorem C119_cache_refuted : forall params unknowns params' unknowns' cache, cache = None \/ cache = Some [] ->
    alloc_jacobian F0 cache params unknowns <> [] ->
    alloc_jacobian F0 (Some (alloc_jacobian F0 cache params unknowns)) params' unknowns' = alloc_jacobian F0 cache params unknowns.
  Proof. intros params unknowns params' unknowns' cache _ N. destruct (alloc_jacobian F0 cache params unknowns) as [|e r]; [congruence|reflexivity]. Qed.
End Props.

Print Assumptions C119_normalise.
Print Assumptions C119_no_axes_refuted.
Print Assumptions C119_items.
Print Assumptions C119_forward.
Print Assumptions C119_reverse.
Print Assumptions C119_one_mode.
Print Assumptions C119_broadcast_refuted.
Print Assumptions C119_right.
Print Assumptions C119_alloc.
Print Assumptions C119_keys.
Print Assumptions C119_cache_refuted.

(** a component with a param of two entries and an unknown of three *)
Definition js_comp (J : @mat Z) : @comp Z := mkC [mkP "x" 0 2 None] [mkU "y" 0 3 false None] false (Some [("y"%string, "x"%string, J)]) None.
Definition js_state : @state Z := mkS (fun _ => 0%Z) (fun _ => 0%Z) (fun k => if (k =? 0)%nat then 5%Z else 7%Z).
Definition js_dr (r : res (@state Z)) : res (list Z) := match r with Ok s => Ok (map (dr s) (seq 0 3)) | Err e => Err e end.
(** a block of the right shape; a single row, which is broadcast; a block with a wrong number of
    columns, which is refused; and the single row in reverse, also refused *)
Example C119_ex : js_dr (apply_jac 0%Z Z.add Z.mul true (js_comp (mkM 3 2 (fun i j => Z.of_nat (i + 1)))) js_state) = Ok [12; 24; 36]%Z
  /\ js_dr (apply_jac 0%Z Z.add Z.mul true (js_comp (mkM 1 2 (fun i j => 1%Z))) js_state) = Ok [12; 12; 12]%Z
  /\ js_dr (apply_jac 0%Z Z.add Z.mul true (js_comp (mkM 3 3 (fun i j => 1%Z))) js_state) = Err ValueError
  /\ js_dr (apply_jac 0%Z Z.add Z.mul false (js_comp (mkM 1 2 (fun i j => 1%Z))) js_state) = Err ValueError.
Proof. vm_compute. repeat split. Qed.
(** allocation for an output and a state with a param, and again after the param has grown *)
Example C119_ex_alloc :
  let shapes d := map (fun e : string * string * jval Z => (fst e, match snd e with Arr s _ => s | Num _ => [] end)) d in
  let p n := mkV "x" n false false false in let us := [mkV "y" 3 false false false; mkV "z" 1 true false false; mkV "o" 1 false true false] in
  shapes (alloc_jacobian 0%Z None [p 2] us) = [("y", "x", [3; 2]); ("y", "z", [3; 1]); ("z", "x", [1; 2]); ("z", "z", [1; 1])]%string
  /\ shapes (alloc_jacobian 0%Z (Some (alloc_jacobian 0%Z None [p 2] us)) [p 4] us) = shapes (alloc_jacobian 0%Z None [p 2] us).
Proof. vm_compute. split; reflexivity. Qed.

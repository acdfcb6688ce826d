(** C93: the comparison of inputs without a source. *)
From Coq Require Import Permutation.
From Verif Require Import Base BaseFacts OrderModel PathModel NameModel NameSpec NameProofs ConnModel ConnSpec ConnProofs3 ConnProofs4 ConnProps AccessSpec AccessProofs2 InModel InSpec InProofs.
Local Open Scope nat_scope.
Local Open Scope list_scope.
Local Open Scope string_scope.

Section Props.
  Context {V T St : Type} (veq : V -> V -> bool) (teqb : T -> T -> bool) (seqb : St -> St -> bool) (eqv : V -> V -> Prop).
  Variable pd : path -> @meta V T St.
  (** the equality that == computes is symmetric and transitive; NaN is not equal to
      itself *)
  Definition python_equality : Prop := (forall a b, veq a b = true <-> eqv a b) /\ (forall a b, eqv a b -> eqv b a) /\ forall a b c, eqv a b -> eqv b c -> eqv a c.
  Definition labels : Prop := (forall a b, teqb a b = true <-> a = b) /\ forall a b, seqb a b = true <-> a = b.
  (** arrays of one shape have one size *)
  Definition sized : Prop := forall p q sh a b, i_val (pd p) = Array sh a -> i_val (pd q) = Array sh b -> List.length a = List.length b.

  Lemma equal_sym : python_equality -> forall a b : @value V T, equal_values eqv a b -> equal_values eqv b a.
  Proof.
    intros (_ & SY & _) [sh a|t a] [sh' b|t' b]; cbn [equal_values]; try tauto; intros [-> H]; (split; [reflexivity|]); [|auto]. intros i x y X Y. apply SY. exact (H i y x Y X).
  Qed.
  Lemma equal_trans : python_equality -> sized -> forall p q r, equal_values eqv (i_val (pd p)) (i_val (pd q)) -> equal_values eqv (i_val (pd q)) (i_val (pd r)) -> equal_values eqv (i_val (pd p)) (i_val (pd r)).
  Proof.
    intros (_ & _ & TR) SZ p q r. pose proof (SZ p q) as L. destruct (i_val (pd p)) as [sh a|t a], (i_val (pd q)) as [sh1 b|t1 b], (i_val (pd r)) as [sh2 c|t2 c]; cbn [equal_values]; try tauto; intros [-> H] [-> H'].
    - split; [reflexivity|]. intros i x y X Y. specialize (L sh2 a b eq_refl eq_refl). assert (I : i < List.length b) by (rewrite <- L; apply nth_error_Some; congruence). apply nth_error_Some in I. destruct (nth_error b i) as [z|] eqn:Z; [|congruence]. exact (TR x z y (H i x z X Z) (H' i z y Z Y)).
    - split; [reflexivity|]. exact (TR _ _ _ H H').
  Qed.

  (** If setup reports no difference, then for every input that nothing is connected to and
      that gets no source, all inputs that it feeds start with equal values, and their units
      are those of that input or missing; and inputs of one name that give a step size, a
      step calculation or a form give the same one. *)
  Theorem inputs_agree : forall dfs order s r d, python_equality -> labels -> sized -> dfs_tree_spec dfs -> (forall l, Permutation (order l) l) -> wf_sys s -> setup_connections dfs order s = Ok r -> setup_variables [] s = Ok d ->
      check_input_diffs veq teqb seqb pd r d = [] ->
      (forall n x y, start s r n -> feeds s n x -> feeds s n y -> equal_values eqv (i_val (pd x)) (i_val (pd y)) /\ (i_units (pd x) = i_units (pd n) \/ i_units (pd x) = None)) /\
      one_setting i_size pd s /\ one_setting i_calc pd s /\ one_setting i_form pd s.
  Proof.
    intros dfs order s r d VE [TE SE] SZ DF OR W K E C. destruct (setup_inputs dfs order s r DF OR W K) as (d' & E' & G0 & G1 & G2). apply (check_none veq teqb seqb eqv (proj1 VE) TE SE) in C. destruct C as [C1 C2].
    split; [|exact (proj1 (settings_tree pd s d W E) C2)]. intros n x y ST X Y.
    destruct (unconnected_reported dfs order s r DF OR W K n (proj1 (proj1 ST)) (proj2 (proj1 ST))) as [[(z & Z) _]|(_ & (l & L & LI) & _)]; [exfalso; exact (proj2 ST z Z)|].
    destruct (C1 n l (pget_in _ _ _ _ L)) as [CU CV]. split.
    - apply (equal_trans VE SZ x n y); [apply CV; apply LI; exact X|apply (equal_sym VE); apply CV; apply LI; exact Y].
    - destruct (i_units (pd x)) as [u|] eqn:U; [|auto]. left. symmetry. apply (CU x u); [apply LI; exact X|exact U].
  Qed.

  (** Where no input has two links, setup reports a difference exactly if two inputs fed by one
      input without a source start with different values or have different units (a missing
      unit differs from a unit), or if two inputs of one name give different settings. *)
  Theorem inputs_reported : forall dfs order s r d, python_equality -> labels -> sized -> dfs_tree_spec dfs -> (forall l, Permutation (order l) l) -> wf_sys s -> setup_connections dfs order s = Ok r -> setup_variables [] s = Ok d -> one_link s ->
      (check_input_diffs veq teqb seqb pd r d = [] <->
       (forall n x y, start s r n -> feeds s n x -> feeds s n y -> equal_values eqv (i_val (pd x)) (i_val (pd y)) /\ i_units (pd x) = i_units (pd y)) /\
       one_setting i_size pd s /\ one_setting i_calc pd s /\ one_setting i_form pd s).
  Proof.
    intros dfs order s r d VE LB SZ DF OR W K E OL. destruct (setup_inputs dfs order s r DF OR W K) as (d' & E' & G0 & G1 & G2). split.
    - intros C. destruct (inputs_agree dfs order s r d VE LB SZ DF OR W K E C) as [A B]. split; [|exact B]. intros n x y ST X Y. split; [exact (proj1 (A n x y ST X Y))|].
      apply (check_none veq teqb seqb eqv (proj1 VE) (proj1 LB) (proj2 LB)) in C. destruct C as [C1 _].
      assert (EN : forall t, feeds s n t -> forall z u, feeds s n z -> i_units (pd z) = Some u -> i_units (pd t) = Some u).
      { intros t Ft z u Fz U. destruct (pget (inputs_of r) t) as [l|] eqn:L; [|exfalso; exact (G2 n ST t Ft L)]. destruct (G1 t l L) as (m & SM & LM & IT).
        assert (m = n) by (apply (unique_top s m n t OL (proj1 SM) (proj1 ST)); [apply LM; exact IT|exact Ft]). subst m. apply (proj1 (C1 t l (pget_in _ _ _ _ L)) z u); [apply LM; exact Fz|exact U]. }
      destruct (i_units (pd x)) as [u|] eqn:UX; [symmetry; exact (EN y Y x u X UX)|]. destruct (i_units (pd y)) as [u|] eqn:UY; [|reflexivity]. rewrite (EN x X y u Y UY) in UX. discriminate.
    - intros [A B]. apply (check_none veq teqb seqb eqv (proj1 VE) (proj1 LB) (proj2 LB)). split; [|exact (proj2 (settings_tree pd s d W E) B)]. intros t l L. destruct (G1 t l (in_pget _ _ t l G0 L)) as (n & SN & LN & IT).
      split; [intros x u X U|intros x X]; destruct (A n x t SN (proj1 (LN x) X) (proj1 (LN t) IT)) as [AV AU]; [congruence|exact AV].
  Qed.

  (** An input without a source whose initial value is not equal to itself, as NaN is, is
      always reported. *)
  Theorem nan_reported : forall dfs order s r d n, python_equality -> labels -> dfs_tree_spec dfs -> (forall l, Permutation (order l) l) -> wf_sys s -> setup_connections dfs order s = Ok r -> start s r n ->
      ~ equal_values eqv (i_val (pd n)) (i_val (pd n)) -> check_input_diffs veq teqb seqb pd r d <> [].
  Proof.
    intros dfs order s r d n VE LB DF OR W K ST NN C. apply (check_none veq teqb seqb eqv (proj1 VE) (proj1 LB) (proj2 LB)) in C. destruct C as [C1 _].
    destruct (unconnected_reported dfs order s r DF OR W K n (proj1 (proj1 ST)) (proj2 (proj1 ST))) as [[(z & Z) _]|(_ & (l & L & LI) & _)]; [exact (proj2 ST z Z)|].
    apply NN. apply (proj2 (C1 n l (pget_in _ _ _ _ L)) n). apply LI. constructor.
  Qed.
End Props.
Print Assumptions inputs_agree.
Print Assumptions inputs_reported.
Print Assumptions nan_reported.

(** ** concrete systems *)
Definition ten (u : option string) : @meta (option nat) string nat := mkMeta u (Array [1] [Some 10]) None None None.
(** numbers with NaN *)
Definition neq (a b : option nat) : bool := match a, b with Some x, Some y => (x =? y)%nat | _, _ => false end.
Definition eqn (a b : option nat) : Prop := exists x, a = Some x /\ b = Some x.
Lemma neq_ok : python_equality neq eqn.
Proof.
  split; [|split].
  - intros [a|] [b|]; cbn; try (split; [discriminate|intros (x & A & B); congruence]). rewrite Nat.eqb_eq. split; [intros ->; exists b; auto|intros (x & A & B); congruence].
  - intros a b (x & -> & ->). exists x. auto.
  - intros a b c (x & -> & E) (y & E' & ->). rewrite E' in E. injection E as ->. exists x. auto.
Qed.
Lemma labels_ok : labels String.eqb Nat.eqb.
Proof. split; [apply String.eqb_eq|apply Nat.eqb_eq]. Qed.
(** two components that promote x to the top *)
Definition pair_sys : sys := Grp [("a", (all, Comp ["x"] [])); ("b", (all, Comp ["x"] []))] [].
Definition diffs (pd : path -> @meta (option nat) string nat) (s : sys) : list report :=
  match setup_connections dfs_edges (fun l => l) s, setup_variables [] s with Ok r, Ok d => check_input_diffs neq String.eqb Nat.eqb pd r d | _, _ => [] end.
Definition on (a b : @meta (option nat) string nat) (p : path) : @meta (option nat) string nat := if path_dec p ["a"; "x"] then a else b.
Lemma pair_wf : wf_sys pair_sys.
Proof. unfold pair_sys. wf. Qed.
Lemma pair_link : forall a b, link pair_sys a b -> a = ["a"; "x"] /\ b = ["b"; "x"].
Proof.
  intros a b [(i & p & subs & src & t & srcs & name & q1 & q2 & A & B & _)|[(U & _)|(_ & r & E & I)]].
  - exfalso. unfold pair_sys in A. inversion A; subst; [destruct B|].
    repeat match goal with H : In _ _ |- _ => destruct H as [H|H]; [injection H as <- <- <-; inversion H4|] | H : In _ [] |- _ => destruct H end; try contradiction.
  - destruct U.
  - cbn [plist pair_sys flat_map map app fst snd filter] in E. assert (Pa : prom_of pair_sys ["a"; "x"] = ["x"]) by reflexivity. assert (Pb : prom_of pair_sys ["b"; "x"] = ["x"]) by reflexivity. rewrite Pa, Pb in E.
    destruct (peqb ["x"] (prom_of pair_sys a)); [|discriminate]. injection E as <- <-. destruct I as [<-|[]]. auto.
Qed.
(** the hypotheses of the theorems are met *)
Example pair_hypotheses : exists r d, setup_connections dfs_edges (fun l => l) pair_sys = Ok r /\ setup_variables [] pair_sys = Ok d /\ one_link pair_sys /\ start pair_sys r ["a"; "x"] /\ feeds pair_sys ["a"; "x"] ["b"; "x"].
Proof.
  eexists. eexists. split; [vm_compute; reflexivity|]. split; [vm_compute; reflexivity|]. split; [|split; [split; [split|]|]].
  - intros a b t A B. apply pair_link in A. apply pair_link in B. destruct A as [-> _], B as [-> _]. reflexivity.
  - cbn. auto.
  - intros a L. apply pair_link in L. destruct L as [_ L]. discriminate.
  - intros x [].
  - eapply feeds_step; [|constructor]. right. right. split; [intros u []|]. exists [["b"; "x"]]. split; [reflexivity|left; reflexivity].
Qed.
(** agreeing inputs are accepted, others are not *)
Example pair_accepted : diffs (on (ten (Some "m")) (ten (Some "m"))) pair_sys = [].
Proof. vm_compute. reflexivity. Qed.
Example pair_units : diffs (on (ten (Some "m")) (ten (Some "ft"))) pair_sys = [Units ["a"; "x"] [["b"; "x"]]; Units ["b"; "x"] [["a"; "x"]]].
Proof. vm_compute. reflexivity. Qed.
Example pair_values : diffs (on (ten None) (mkMeta None (Array [1] [Some 11]) None None None)) pair_sys = [Values ["a"; "x"] [["b"; "x"]]; Values ["b"; "x"] [["a"; "x"]]].
Proof. vm_compute. reflexivity. Qed.
Example pair_steps : diffs (on (mkMeta None (Array [1] [Some 1]) (Some 3) None None) (mkMeta None (Array [1] [Some 1]) (Some 4) None None)) pair_sys = [Steps ["x"]].
Proof. vm_compute. reflexivity. Qed.

(** The comment in the source says that units must match "unless one of them is None"; a
    missing unit is reported. *)
Theorem units_none_refuted : exists s pd, wf_sys s /\ i_units (pd ["a"; "x"]) = None /\ i_units (pd ["b"; "x"]) = Some "m" /\ i_val (pd ["a"; "x"]) = i_val (pd ["b"; "x"]) /\ plist s = [["a"; "x"]; ["b"; "x"]] /\
    diffs pd s = [Units ["a"; "x"] [["b"; "x"]]].
Proof. exists pair_sys, (on (ten None) (ten (Some "m"))). split; [exact pair_wf|]. repeat (split; [reflexivity|]). vm_compute. reflexivity. Qed.
Print Assumptions units_none_refuted.

(** A single input that nothing is connected to and that starts as NaN is reported to
    differ from itself. *)
Theorem nan_alone_refuted : exists s pd, wf_sys s /\ plist s = [["a"; "x"]] /\ diffs pd s = [Values ["a"; "x"] [["a"; "x"]]].
Proof.
  exists (Grp [("a", (none, Comp ["x"] []))] []), (fun _ => mkMeta None (Array [1] [None]) None None None). split; [wf|]. split; [reflexivity|]. vm_compute. reflexivity.
Qed.
Print Assumptions nan_alone_refuted.

(** Equal numbers of different types, as 1 and 1.0, are reported. *)
Theorem number_types_refuted : exists s pd a b v, wf_sys s /\ i_val (pd ["a"; "x"]) = Object a v /\ i_val (pd ["b"; "x"]) = Object b v /\ neq v v = true /\ diffs pd s = [Values ["a"; "x"] [["b"; "x"]]; Values ["b"; "x"] [["a"; "x"]]].
Proof.
  exists pair_sys, (on (mkMeta None (Object "int" (Some 1)) None None None) (mkMeta None (Object "float" (Some 1)) None None None)), "int", "float", (Some 1). split; [exact pair_wf|]. repeat (split; [reflexivity|]). vm_compute. reflexivity.
Qed.
Print Assumptions number_types_refuted.

(** An input connected to a part of another input is always reported, since the shapes
    differ; all the entries it takes are equal here. *)
Theorem partial_inputs_refuted : exists s pd, wf_sys s /\ explicit_conn s ["a"; "x"] ["b"; "x"] (Some [0; 2]) /\ i_val (pd ["a"; "x"]) = Array [3] [Some 7; Some 8; Some 7] /\ i_val (pd ["b"; "x"]) = Array [2] [Some 7; Some 7] /\
    pick (Some [0; 2]) [Some 7; Some 8; Some 7] = Some [Some 7; Some 7] /\ diffs pd s = [Values ["a"; "x"] [["b"; "x"]]; Values ["b"; "x"] [["a"; "x"]]].
Proof.
  set (subs := [("a", (none, Comp ["x"] [])); ("b", (none, Comp ["x"] []))]). set (src := [(["b"; "x"], [(["a"; "x"], Some [0; 2])])]).
  exists (Grp subs src), (on (mkMeta None (Array [3] [Some 7; Some 8; Some 7]) None None None) (mkMeta None (Array [2] [Some 7; Some 7]) None None None)). split; [unfold subs; wf|]. split; [|repeat (split; [reflexivity|]); vm_compute; reflexivity].
  exists [], subs, src, ["b"; "x"], [(["a"; "x"], Some [0; 2])], ["a"; "x"], ["a"; "x"], ["b"; "x"].
  split; [apply at_self|]. split; [left; reflexivity|]. split; [left; reflexivity|]. split; [split; [reflexivity|right; split; [cbn; auto|intros u []]]|]. split; [split; [reflexivity|cbn; auto]|]. split; reflexivity.
Qed.
Print Assumptions partial_inputs_refuted.

(** Inputs connected in a circle are accepted with different values and units. *)
Theorem circle_accepted_refuted : exists s pd, wf_sys s /\ feeds s ["a"; "x"] ["b"; "x"] /\ feeds s ["b"; "x"] ["a"; "x"] /\ i_units (pd ["a"; "x"]) = Some "m" /\ i_units (pd ["b"; "x"]) = Some "ft" /\
    ~ equal_values eqn (i_val (pd ["a"; "x"])) (i_val (pd ["b"; "x"])) /\ diffs pd s = [].
Proof.
  set (subs := [("a", (none, Comp ["x"] [])); ("b", (none, Comp ["x"] []))]). set (src := [(["a"; "x"], [(["b"; "x"], @None (list nat))]); (["b"; "x"], [(["a"; "x"], None)])]).
  exists (Grp subs src), (on (ten (Some "m")) (mkMeta (Some "ft") (Array [1] [Some 3]) None None None)). split; [unfold subs; wf|]. split; [|split; [|repeat (split; [reflexivity|]); split; [|vm_compute; reflexivity]]].
  - eapply feeds_step; [left; exists None|constructor]. exists [], subs, src, ["b"; "x"], [(["a"; "x"], None)], ["a"; "x"], ["a"; "x"], ["b"; "x"].
    split; [apply at_self|]. split; [right; left; reflexivity|]. split; [left; reflexivity|]. split; [split; [reflexivity|right; split; [cbn; auto|intros u []]]|]. split; [split; [reflexivity|cbn; auto]|]. split; reflexivity.
  - eapply feeds_step; [left; exists None|constructor]. exists [], subs, src, ["a"; "x"], [(["b"; "x"], None)], ["b"; "x"], ["b"; "x"], ["a"; "x"].
    split; [apply at_self|]. split; [left; reflexivity|]. split; [left; reflexivity|]. split; [split; [reflexivity|right; split; [cbn; auto|intros u []]]|]. split; [split; [reflexivity|cbn; auto]|]. split; reflexivity.
  - cbn. intros [_ H]. destruct (H 0 (Some 10) (Some 3) eq_refl eq_refl) as (x & A & B). congruence.
Qed.
Print Assumptions circle_accepted_refuted.

(** Two inputs of one name of which only one gives a step size are accepted: only the
    settings that are given are compared. *)
Theorem missing_step_refuted : exists s pd, wf_sys s /\ prom_of s ["a"; "x"] = prom_of s ["b"; "x"] /\ i_size (pd ["a"; "x"]) = Some 3 /\ i_size (pd ["b"; "x"]) = None /\ diffs pd s = [].
Proof.
  exists pair_sys, (on (mkMeta None (Array [1] [Some 1]) (Some 3) None None) (mkMeta None (Array [1] [Some 1]) None None None)). split; [exact pair_wf|]. repeat (split; [vm_compute; reflexivity|]). vm_compute. reflexivity.
Qed.
Print Assumptions missing_step_refuted.

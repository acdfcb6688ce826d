(** Sparse Jacobians and failures in the pyOptSparse driver (C100, C101). *)
From Verif Require Import Base BaseFacts SpsModel SpsSpec SpsProofs.
Local Open Scope string_scope.
Local Open Scope nat_scope.
Local Open Scope list_scope.

(** ** C100 *)
(** The sparse block has exactly the entries of the Jacobian, on the declared pattern.  [D] is
    arbitrary but for zeros at targets that are not relevant (C39, C86).  Partial: for targets
    whose name at the top is their absolute name, and design variables without repeated indices. *)
Theorem C100_sparse_partial : forall {A : Type} (zero : A) add, (forall a, add zero a = a) -> forall enum, enumerates enum ->
    forall (D : string -> nat -> nat -> A) path dv size cs rels rel prom jac, rel_idx enum path dv cs rels = Some rel ->
    (forall t idx, In (t, (path, idx)) cs -> prom t = t) -> (forall t idx i k, In (t, (path, idx)) cs -> ~ In (prom t) rels -> D t i k = zero) ->
    (forall t idx k, In (t, (path, Some idx)) cs -> In k idx -> k < size) -> (forall l, dv = Some l -> NoDup l) ->
    jac <> [] -> Forall (fun row => length row = width dv size) jac -> (forall i j, i < length jac -> j < width dv size -> nth j (nth i jac []) zero = chain zero add D path size cs i (entry_at dv j)) ->
    exists b, to_coo zero jac rel = Ok b /\ well_formed b /\ shape b (length jac) (width dv size) /\
      (exists data, b = Coo (fst (pattern (length jac) rel)) (snd (pattern (length jac) rel)) data (length jac) (width dv size)) /\
      forall i j, i < length jac -> j < width dv size -> entry zero b i j = chain zero add D path size cs i (entry_at dv j).
Proof.
  intros A zero add Z enum En D path dv size cs rels rel prom jac H Pr Rl Bd ND Ne Fw Hj. destruct (rel_some enum En _ _ _ _ _ H) as (_ & NDr & _ & Or).
  destruct (to_coo_ok zero jac rel (width dv size) NDr Ne Fw) as (b & E & W & S & P & G).
  { intros k K. destruct (Or k K) as (t & idx & I & _ & M). apply (mapped_bound enum dv idx size k); [|exact M]. intros x Ix. exact (Bd t idx x I Ix). }
  exists b. split; [exact E|]. split; [exact W|]. split; [exact S|]. split; [exact P|]. intros i j Li Lj. rewrite (G i j Li Lj). destruct (mem_nat j rel) eqn:M; [apply Hj; assumption|].
  symmetry. apply (left_out zero add Z enum En D path dv size cs rels rel prom i j H Pr Rl ND Lj). intros I. apply mem_nat_iff in I. congruence.
Qed.
Print Assumptions C100_sparse_partial.

Definition id_enum (l : list nat) : list nat := nodup Nat.eq_dec l.
Lemma id_enum_ok : enumerates id_enum.
Proof. intros l. split; [apply NoDup_nodup|intros x; apply nodup_In]. Qed.
(** "x" is promoted by an IndepVarComp "p" and a component "c2", and connected with indices to
    "c1.a": the relevant names have "x", the driver asks for "c2.x".  All columns but those of
    the indices are lost. *)
Theorem C100_promoted_refuted : exists cs rels rel prom (D : string -> nat -> nat -> nat) jac b,
    (forall t idx i k, In (t, ("p.x", idx)) cs -> ~ In (prom t) rels -> D t i k = 0) /\ rel_idx id_enum "p.x" None cs rels = Some rel /\
    (forall i j, i < 1 -> j < 2 -> nth j (nth i jac []) 0 = chain 0 Nat.add D "p.x" 2 cs i j) /\ to_coo 0 jac rel = Ok b /\
    entry 0 b 0 1 = 0 /\ chain 0 Nat.add D "p.x" 2 cs 0 1 = 5.
Proof.
  exists [("c1.a", ("p.x", Some [0])); ("c2.x", ("p.x", None))], ["x"; "c1.a"; "con"], [0], (fun t => if String.eqb t "c2.x" then "x" else t), (fun _ _ _ => 5), [[10; 5]], (Coo [0] [0] [10] 1 2).
  split; [|split; [reflexivity|split; [|split; [reflexivity|split; reflexivity]]]].
  - intros t idx i k [E|[E|[]]] N; inversion E; subst; exfalso; apply N; cbn; auto.
  - intros i j Li Lj. assert (i = 0) as -> by lia. destruct j as [|[|j]]; [reflexivity|reflexivity|lia].
Qed.
Print Assumptions C100_promoted_refuted.
(** the same for a promoted target with indices *)
Theorem C100_promoted_indices_refuted : exists cs rels rel prom (D : string -> nat -> nat -> nat),
    (forall t idx i k, In (t, ("p.x", idx)) cs -> ~ In (prom t) rels -> D t i k = 0) /\ rel_idx id_enum "p.x" None cs rels = Some rel /\ ~ In 1 rel /\ chain 0 Nat.add D "p.x" 2 cs 0 1 = 5.
Proof.
  exists [("c1.a", ("p.x", Some [0])); ("c2.y", ("p.x", Some [1]))], ["y"; "c1.a"; "con"], [0], (fun t => if String.eqb t "c2.y" then "y" else t), (fun _ _ _ => 5).
  split; [|split; [reflexivity|split; [cbn; lia|reflexivity]]]. intros t idx i k [E|[E|[]]] N; inversion E; subst; exfalso; apply N; cbn; auto.
Qed.
Print Assumptions C100_promoted_indices_refuted.
(** a design variable that names an entry twice: the second column is left out *)
Theorem C100_repeated_refuted : exists cs rels rel (D : string -> nat -> nat -> nat),
    (forall t idx i k, In (t, ("p.x", idx)) cs -> ~ In t rels -> D t i k = 0) /\ rel_idx id_enum "p.x" (Some [1; 1]) cs rels = Some rel /\ ~ In 1 rel /\ chain 0 Nat.add D "p.x" 2 cs 0 (entry_at (Some [1; 1]) 1) = 5.
Proof.
  exists [("c1.a", ("p.x", Some [1]))], ["c1.a"], [0], (fun _ _ _ => 5).
  split; [|split; [reflexivity|split; [cbn; lia|reflexivity]]]. intros t idx i k [E|[]] N; inversion E; subst; exfalso; apply N; cbn; auto.
Qed.
Print Assumptions C100_repeated_refuted.
(** two targets with overlapping indices of a design variable that takes entries 4, 2, 1, 0; a third target is not relevant *)
Definition cs_ex : list connection := [("c1.a", ("p.x", Some [2; 3])); ("c2.b", ("p.x", Some [0; 2])); ("c3.c", ("p.x", None)); ("c1.z", ("q.z", None))].
Definition D_ex (t : string) (i k : nat) : nat := if String.eqb t "c1.a" then 10 + k else if String.eqb t "c2.b" then 20 + k else 0.
Example C100_ex : rel_idx id_enum "p.x" (Some [4; 2; 1; 0]) cs_ex ["c1.a"; "c2.b"; "c1.z"; "f"] = Some [3; 1] /\
    (let jac := [map (fun j => chain 0 Nat.add D_ex "p.x" 5 cs_ex 0 (entry_at (Some [4; 2; 1; 0]) j)) [0; 1; 2; 3]] in
     jac = [[0; 31; 0; 20]] /\ to_coo 0 jac [3; 1] = Ok (Coo [0; 0] [3; 1] [20; 31] 1 4)).
Proof. vm_compute. repeat split. Qed.
Example C100_ex_applies : exists b, to_coo 0 [[0; 31; 0; 20]] [3; 1] = Ok b /\ well_formed b /\ shape b 1 4 /\
    (exists data, b = Coo (fst (pattern 1 [3; 1])) (snd (pattern 1 [3; 1])) data 1 4) /\
    forall i j, i < 1 -> j < 4 -> entry 0 b i j = chain 0 Nat.add D_ex "p.x" 5 cs_ex i (entry_at (Some [4; 2; 1; 0]) j).
Proof.
  apply (C100_sparse_partial 0 Nat.add (fun a => eq_refl) id_enum id_enum_ok D_ex "p.x" (Some [4; 2; 1; 0]) 5 cs_ex ["c1.a"; "c2.b"; "c1.z"; "f"] [3; 1] (fun t => t)).
  - reflexivity.
  - reflexivity.
  - intros t idx i k [E|[E|[E|[E|[]]]]] N; inversion E; subst; try reflexivity; exfalso; apply N; cbn; auto.
  - intros t idx k [E|[E|[E|[E|[]]]]] I; inversion E; subst; cbn in I; intuition lia.
  - intros l E. inversion E; subst. repeat constructor; cbn; intuition discriminate.
  - discriminate.
  - repeat constructor.
  - cbn [length width]. intros i j Li Lj. assert (i = 0) as -> by lia. destruct j as [|[|[|[|j]]]]; try lia; reflexivity.
Qed.

(** ** C101 *)
(** A gradient that is computed is returned, with the listed pairs in sparse form and the others
    as they are. *)
Theorem C101_gradient : forall {A : Type} (zero : A) sub s funcs dvs, NoDup (map fst sub) -> Forall (ready s) sub ->
    exists s', gradfunc zero sub (Ok s) funcs dvs = (s', false) /\
      (forall c v rel, In (c, v, rel) sub -> exists m b nc, sens_get s c v = Some (Dense m) /\ sens_get s' c v = Some b /\ well_formed b /\ shape b (length m) nc /\
         forall i j, i < length m -> In j rel -> entry zero b i j = nth j (nth i m []) zero) /\
      (forall c v, ~ In (c, v) (map fst sub) -> sens_get s' c v = sens_get s c v).
Proof.
  intros A zero sub s funcs dvs ND F. destruct (coo_all_ok zero sub s ND F) as (s' & E & H1 & H2). exists s'. split; [cbn [gradfunc]; rewrite E; reflexivity|]. split; [|exact H2].
  intros c v rel I. destruct (H1 c v rel I) as (m & b & G & T & G'). rewrite Forall_forall in F. destruct (F _ I) as (m' & nc & G2 & Ne & Fm & NDr & B). cbn [fst snd] in *. rewrite G in G2. inversion G2; subst m'.
  destruct (to_coo_ok zero m rel nc NDr Ne Fm B) as (b' & T' & W & S & _ & En). rewrite T in T'. inversion T'; subst b'. exists m, b, nc. split; [exact G|]. split; [exact G'|]. split; [exact W|]. split; [exact S|]. intros i j Li Ij. rewrite (En i j Li (B j Ij)). rewrite (proj2 (mem_nat_iff j rel) Ij). reflexivity.
Qed.
Print Assumptions C101_gradient.

(** When the model reports that it cannot be evaluated there, the optimizer is told, and gets
    zeros of the right shapes for every function and design variable. *)
Theorem C101_analysis_error : forall {A : Type} (zero : A) sub funcs dvs, NoDup (map fst sub) -> NoDup (map fst funcs) -> NoDup (map fst dvs) ->
    (forall c v rel, In (c, v, rel) sub -> exists nr nc, In (c, nr) funcs /\ In (v, nc) dvs /\ 0 < nr /\ NoDup rel /\ forall k, In k rel -> k < nc) ->
    exists s', gradfunc zero sub (Err AnalysisError) funcs dvs = (s', true) /\
      forall c nr v nc, In (c, nr) funcs -> In (v, nc) dvs -> exists b, sens_get s' c v = Some b /\ shape b nr nc /\ forall i j, i < nr -> j < nc -> entry zero b i j = zero.
Proof.
  intros A zero sub funcs dvs ND NF NV H.
  assert (Rp : forall nr nc, Forall (fun row : list A => length row = nc) (repeat (repeat zero nc) nr)). { intros nr nc. apply Forall_forall. intros row I. apply repeat_spec in I. subst. apply repeat_length. }
  assert (Nz : forall nr nc i j, nth j (nth i (repeat (repeat zero nc) nr) []) zero = zero).
  { intros nr nc i j. destruct (nth_in_or_default i (repeat (repeat zero nc) nr) []) as [I| ->]; [apply repeat_spec in I; rewrite I|destruct j; reflexivity]. destruct (nth_in_or_default j (repeat zero nc) zero) as [J|J]; [apply repeat_spec in J; exact J|exact J]. }
  assert (F : Forall (ready (zeros zero funcs dvs)) sub).
  { apply Forall_forall. intros [[c v] rel] I. destruct (H c v rel I) as (nr & nc & Ic & Iv & L & NDr & B). exists (repeat (repeat zero nc) nr), nc. cbn [fst snd]. split; [apply zeros_get; assumption|]. split; [destruct nr; [lia|discriminate]|]. split; [apply Rp|]. split; [exact NDr|exact B]. }
  destruct (coo_all_ok zero sub (zeros zero funcs dvs) ND F) as (s' & E & H1 & H2). exists s'. split; [cbn [gradfunc]; rewrite E; reflexivity|].
  intros c nr v nc Ic Iv. pose proof (zeros_get zero funcs dvs c nr v nc NF NV Ic Iv) as Gz.
  destruct (in_dec (fun a b : string * string => ltac:(decide equality; apply string_dec)) (c, v) (map fst sub)) as [I|N].
  - apply in_map_iff in I. destruct I as ([[c' v'] rel] & K & I). cbn in K. inversion K; subst c' v'. destruct (H1 c v rel I) as (m & b & G & T & G'). rewrite Gz in G. inversion G; subst m.
    destruct (H c v rel I) as (nr' & nc' & Ic' & Iv' & L & NDr & B). assert (nr' = nr) as -> by (exact (NoDup_fst_eq funcs c nr' nr NF Ic' Ic)). assert (nc' = nc) as -> by (exact (NoDup_fst_eq dvs v nc' nc NV Iv' Iv)).
    destruct (to_coo_ok zero (repeat (repeat zero nc) nr) rel nc NDr ltac:(destruct nr; [lia|discriminate]) (Rp nr nc) B) as (b' & T' & W & S & _ & En). rewrite T in T'. inversion T'; subst b'. rewrite repeat_length in S, En. exists b. split; [exact G'|]. split; [exact S|]. intros i j Li Lj. rewrite (En i j Li Lj). rewrite Nz. destruct (mem_nat j rel); reflexivity.
  - exists (Dense (repeat (repeat zero nc) nr)). split; [rewrite H2 by exact N; exact Gz|]. split; [split; [apply repeat_length|apply Rp]|]. intros i j _ _. apply Nz.
Qed.
Print Assumptions C101_analysis_error.

(** Any other failure gives the optimizer an empty dictionary and says that all went well. *)
Theorem C101_gradient_failure_refuted : forall {A : Type} (zero : A) sub e funcs dvs, e <> AnalysisError -> gradfunc zero sub (Err e) funcs dvs = ([], false).
Proof. intros A zero sub e funcs dvs N. destruct e; try reflexivity. contradiction. Qed.
Print Assumptions C101_gradient_failure_refuted.

(** The function values: no failure is reported exactly when all design variables were set to the
    requested values, the model ran, and its outputs were read and recorded; they are then those
    of the model after this run. *)
Theorem C101_objective : forall {State Val : Type} (set_desvar : string -> Val -> State -> res State) solve funcs record indeps dv s s' f,
    objfunc set_desvar solve funcs record indeps dv s = (s', f, false) <->
    exists s1, set_to set_desvar dv indeps s s1 /\ solve s1 = (s', None) /\ funcs s' = Ok f /\ record s' = None.
Proof.
  intros State Val set_desvar solve funcs record indeps dv s s' f. unfold objfunc. split.
  - intros H. destruct (set_all set_desvar indeps dv s) as [s1 [e|]] eqn:E; [discriminate|]. exists s1. split; [apply set_all_ok; exact E|]. destruct (solve s1) as [s2 [e|]].
    + exfalso. destruct e; try discriminate. destruct (funcs s2); [destruct (record s2)|]; discriminate.
    + destruct (funcs s2) as [f'|e] eqn:Ef; [|discriminate]. destruct (record s2) eqn:Er; [discriminate|]. inversion H; subst. auto.
  - intros (s1 & T & S & F & R). apply set_all_ok in T. rewrite T, S, F, R. reflexivity.
Qed.
Print Assumptions C101_objective.
(** an AnalysisError is reported together with the values the model has then; other failures with none *)
Theorem C101_objective_failure : forall {State Val : Type} (set_desvar : string -> Val -> State -> res State) solve funcs record indeps dv s,
    let '(s', f, fail) := objfunc set_desvar solve funcs record indeps dv s in
    fail = true -> f = [] \/ exists s1, set_to set_desvar dv indeps s s1 /\ solve s1 = (s', Some AnalysisError) /\ funcs s' = Ok f.
Proof.
  intros State Val set_desvar solve funcs record indeps dv s. unfold objfunc. destruct (set_all set_desvar indeps dv s) as [s1 [e|]] eqn:E; [intros; auto|]. apply set_all_ok in E. destruct (solve s1) as [s2 [e|]] eqn:S.
  - destruct e; try (intros; left; reflexivity). destruct (funcs s2) as [f'|] eqn:F; [destruct (record s2)|]; intros; auto. right. exists s1. auto.
  - destruct (funcs s2); [destruct (record s2)|]; intros; auto. discriminate.
Qed.
Print Assumptions C101_objective_failure.
Example C101_ex : gradfunc 0 [("con", "x", [2; 0])] (Ok [("f", [("x", Dense [[1; 2; 3]])]); ("con", [("x", Dense [[4; 0; 5]; [6; 0; 7]])])]) [] [] =
    ([("f", [("x", Dense [[1; 2; 3]])]); ("con", [("x", Coo [0; 0; 1; 1] [2; 0; 2; 0] [5; 4; 7; 6] 2 3)])], false) /\
  objfunc (fun n v s => Ok ((n, v) :: s)) (fun s => (s, if length s <? 5 then None else Some AnalysisError)) (fun s => Ok s) (fun _ => None) ["x"; "y"] [("y", 2); ("x", 1)] [] = ([("y", 2); ("x", 1)], [("y", 2); ("x", 1)], false).
Proof. vm_compute. split; reflexivity. Qed.

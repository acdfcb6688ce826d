(** Theorems about reading and setting variables by name (C81). *)
From Coq Require Import Permutation.
From Verif Require Import Base GraphSpec OrderModel PathModel NameModel NameSpec NameProofs ConnModel ConnSpec ConnProofs ConnProofs3 ConnProofs4 ConnProofs5 ConnProps AccessModel AccessSpec AccessProofs2 AccessProofs3.
Local Open Scope string_scope.
Local Open Scope nat_scope.
Local Open Scope list_scope.

(** the hypotheses of the theorems below: any tree of systems whose variables and
    connections could be set up, with any order of iterating sets *)
Definition ready (dfs : igraph -> path -> list (path * path)) (order : list path -> list path) (s : sys) (d : data) (r : result) : Prop :=
  dfs_tree_spec dfs /\ (forall l, Permutation (order l) l) /\ wf_sys s /\ setup_variables [] s = Ok d /\ setup_connections dfs order s = Ok r.

Lemma ready_ok : forall dfs order s d r, ready dfs order s d r -> wf_sys s /\ dangling_ok s r /\ (forall t, connected r t -> In t (plist s)).
Proof.
  intros dfs order s d r (DF & OR & W & E & K). split; [exact W|]. destruct (setup_dangling dfs order s r DF OR W K) as (_ & _ & DO). split; [exact DO|].
  intros t ([u i] & C). destruct (connections_sound dfs order s r DF OR W K) as [_ S]. destruct (S t u i C) as [P _]. exact P.
Qed.

(** Setting an unknown by its name at the top succeeds; the name then reads the value
    given, even if the caller changes the object afterwards, and every other name
    reads what it read before. *)
Theorem set_unknown : forall V dfs order s d r, ready dfs order s d r -> forall (w : world V) u l, In u (ulist s) ->
    exists w', set d r w (prom_of s u) l = Ok w' /\ get d r w' (prom_of s u) = Ok (heap w l) /\
      (forall v, get d r (mutate w' l v) (prom_of s u) = Ok (heap w l)) /\
      (forall name, name <> prom_of s u -> get d r w' name = get d r w name) /\ heap w' = heap w /\ pcell w' = pcell w.
Proof.
  intros V dfs order s d r R w u l Hu. pose proof (ready_ok _ _ _ _ _ R) as (W & _). destruct R as (_ & _ & _ & E & _). assert (A : pget (abs_u d) (prom_of s u) = Some u) by (apply (abs_u_iff s d W E); auto).
  unfold set, get. rewrite A. eexists. split; [reflexivity|]. cbn [uvec pcell heap mutate]. rewrite peqb_refl. split; [reflexivity|]. split; [reflexivity|]. split; [|auto].
  intros name Hn. destruct (pget (abs_u d) name); [rewrite (peqb_neq _ _ Hn); reflexivity|]. reflexivity.
Qed.
Print Assumptions set_unknown.

(** Let n be an input that nothing is connected to, none of the inputs it feeds being
    fed by an unknown.  If every param has at most one link leading to it, setting the
    name of any input that n feeds sets n and all the inputs it feeds, and nothing
    else: each of their names that does not shadow another param reads the value
    given, every other name reads what it read before.  Partial: a second link to a
    param and a shadowed name are excluded, see the refutations below. *)
Theorem set_input_partial : forall V dfs order s d r, ready dfs order s d r -> one_link s -> forall (w : world V) n p l, free_input s n -> feeds s n p ->
    exists w', set d r w (prom_of s p) l = Ok w' /\
      (forall x, feeds s n x -> content w' (pcell w' x) = heap w l) /\
      (forall x, feeds s n x -> unshadowed s (prom_of s x) -> get d r w' (prom_of s x) = Ok (heap w l)) /\
      (forall x, ~ feeds s n x -> pcell w' x = pcell w x) /\ uvec w' = uvec w /\ heap w' = heap w /\
      (forall name, (forall x, feeds s n x -> prom_of s x <> name) -> get d r w' name = get d r w name).
Proof.
  intros V dfs order s d r R O w n p l FI F. pose proof (ready_ok _ _ _ _ _ R) as (W & DO & CP). destruct R as (_ & _ & _ & E & _).
  destruct (dangling_name s d r W E DO O n p FI F) as (ps & G & PS). unfold set. rewrite G.
  destruct (pget (abs_u d) (prom_of s p)) as [u|] eqn:U; [exfalso; apply (free_name s n p FI F); apply (abs_u_name s d W E); exists u; exact U|].
  destruct (set_cells V l ps w) as (A & B & C). set (w' := fold_left (fun w0 p0 => set_cell w0 l p0) ps w) in *. exists w'. split; [reflexivity|].
  assert (HV : forall x, feeds s n x -> content w' (pcell w' x) = heap w l).
  { intros x X. rewrite C. apply PS in X. destruct (in_dec path_dec x ps) as [_|K]; [|contradiction]. unfold assign, content. rewrite B. destruct (pcell w x); reflexivity. }
  assert (HC : forall x, ~ feeds s n x -> pcell w' x = pcell w x) by (intros x X; rewrite C; destruct (in_dec path_dec x ps) as [K|_]; [apply PS in K; contradiction|reflexivity]).
  split; [exact HV|]. split; [intros x X US; apply (fed_read V s d r W E DO CP w' n _ O FI HV x X US)|]. split; [exact HC|]. split; [exact A|]. split; [exact B|].
  intros name HN. exact (unfed_unchanged V s d r W E DO w w' n O FI A B HC name HN).
Qed.
Print Assumptions set_input_partial.

(** An unconnected input keeps the object it was given: what the caller later writes
    into that object is what all these inputs read. *)
Theorem set_input_aliases : forall V dfs order s d r, ready dfs order s d r -> one_link s -> forall (w w' : world V) n p l, free_input s n -> feeds s n p ->
    (forall x, In x (plist s) -> (forall c, ~ In (x, c) (connections r)) -> exists k, pcell w x = Object k) -> set d r w (prom_of s p) l = Ok w' ->
    forall x, feeds s n x -> pcell w' x = Object l /\ forall v, unshadowed s (prom_of s x) -> get d r (mutate w' l v) (prom_of s x) = Ok v.
Proof.
  intros V dfs order s d r R O w w' n p l FI F OB. pose proof (ready_ok _ _ _ _ _ R) as (W & DO & CP). destruct R as (_ & _ & _ & E & _).
  destruct (dangling_name s d r W E DO O n p FI F) as (ps & G & PS). unfold set. rewrite G.
  destruct (pget (abs_u d) (prom_of s p)) as [u|] eqn:U; [exfalso; apply (free_name s n p FI F); apply (abs_u_name s d W E); exists u; exact U|].
  intros S. injection S as <-. destruct (set_cells V l ps w) as (A & B & C). set (w' := fold_left (fun w0 p0 => set_cell w0 l p0) ps w) in *.
  assert (HO : forall x, feeds s n x -> pcell w' x = Object l).
  { intros x X. rewrite C. destruct (in_dec path_dec x ps) as [_|K]; [|exfalso; apply K; apply PS; exact X]. destruct (OB x) as (k & K).
    - eapply feeds_param; [exact (proj1 (proj1 FI))|exact X].
    - intros c K. exact (free_unconnected s r n O DO FI x X (ex_intro _ c K)).
    - rewrite K. reflexivity. }
  intros x X. split; [apply HO; exact X|]. intros v US. apply (fed_read V s d r W E DO CP (mutate w' l v) n v O FI); [|exact X|exact US]. intros y Y. cbn [mutate pcell]. rewrite (HO y Y). cbn. rewrite Nat.eqb_refl. reflexivity.
Qed.
Print Assumptions set_input_aliases.

(** Exactly which names can be read: those of unknowns and of params, and the absolute
    names of the params whose connections belong to the root; the error otherwise is
    KeyError. *)
Theorem get_errors : forall V dfs order s d r, ready dfs order s d r -> forall (w : world V) name,
    ((exists v, get d r w name = Ok v) <-> unknown_name s name \/ param_name s name \/ root_param r name = true) /\
    (forall e, get d r w name = Err e -> e = KeyError).
Proof.
  intros V dfs order s d r R w name. pose proof (ready_ok _ _ _ _ _ R) as (W & DO & CP). destruct R as (_ & _ & _ & E & _).
  destruct (get_cases V s d r W E DO w name) as [[U G]|[(NU & RP & G)|[(NU & RP & p & l & FL & PP & IP & G)|(NU & RP & NP & G)]]]; rewrite G.
  - split; [|discriminate]. split; [auto|]. intros _. eexists. reflexivity.
  - split; [|discriminate]. split; [auto|]. intros _. eexists. reflexivity.
  - split; [|discriminate]. split; [intros _; right; left; exists p; auto|]. intros _. eexists. reflexivity.
  - split; [|intros e K; congruence]. split; [intros (v & K); discriminate|]. intros [K|[K|K]]; [contradiction|contradiction|congruence].
Qed.
Print Assumptions get_errors.

(** Exactly which names can be set: those of unknowns, and those of the params that an
    unconnected input without incoming links feeds; the error otherwise is KeyError. *)
Theorem set_errors : forall V dfs order s d r, ready dfs order s d r -> forall (w : world V) name l,
    ((exists w', set d r w name l = Ok w') <-> unknown_name s name \/ exists n p, top_input s n /\ (forall c, ~ In (n, c) (connections r)) /\ feeds s n p /\ prom_of s p = name) /\
    (forall e, set d r w name l = Err e -> e = KeyError).
Proof.
  intros V dfs order s d r R w name l. pose proof (ready_ok _ _ _ _ _ R) as (W & DO & CP). destruct R as (_ & _ & _ & E & _). destruct DO as (D1 & D2 & _).
  unfold set. destruct (pget (abs_u d) name) as [u|] eqn:U.
  { split; [|discriminate]. split; [intros _; left; apply (abs_u_name s d W E); exists u; exact U|]. intros _. eexists. reflexivity. }
  assert (NU : ~ unknown_name s name) by (intros K; apply (abs_u_name s d W E) in K; destruct K as (u & K); congruence).
  destruct (pget (dangling_of r) name) as [ps|] eqn:G.
  - split; [|discriminate]. split; [|intros _; eexists; reflexivity]. intros _. right. destruct (D1 name ps G) as (n & T & A & C & m & M1 & M2). exists n, m. split; [exact T|]. split; [intros c K; apply C; exists c; exact K|]. split; [apply A; exact M1|exact M2].
  - split; [|intros e K; congruence]. split; [intros (w' & K); discriminate|]. intros [K|(n & p & T & NC & F & P)]; [contradiction|]. exfalso. apply (D2 n T) with (x := p); [intros (c & K); exact (NC c K)|exact F|]. rewrite P. exact G.
Qed.
Print Assumptions set_errors.

(** So a param that an unknown feeds can be read by its name but not set, unless the
    unknown has the same name. *)
Theorem connected_not_set : forall V dfs order s d r, ready dfs order s d r -> one_link s -> forall (w : world V) u p l, In u (ulist s) -> In p (plist s) -> feeds s u p -> ~ unknown_name s (prom_of s p) ->
    set d r w (prom_of s p) l = Err KeyError /\ exists v, get d r w (prom_of s p) = Ok v.
Proof.
  intros V dfs order s d r R O w u p l Hu Hp F NU. split; [|apply (get_errors V dfs order s d r R w); right; left; exists p; auto].
  destruct (set_errors V dfs order s d r R w (prom_of s p) l) as [S1 S2]. destruct (set d r w (prom_of s p) l) as [w'|e] eqn:K; [|rewrite (S2 e eq_refl); reflexivity]. exfalso.
  destruct (proj1 S1 (ex_intro _ w' eq_refl)) as [C|(n & q & T & NC & Fq & PQ)]; [contradiction|].
  pose proof (ready_ok _ _ _ _ _ R) as (W & DO & CP). assert (R' := R). destruct R as (DF & OR & _ & E & KC).
  assert (FI : free_input s n).
  { split; [exact T|]. destruct (unconnected_reported dfs order s r DF OR W KC n (proj1 T) (proj2 T)) as [[(x & X) _]|(_ & _ & _ & X)]; [exfalso; exact (NC x X)|exact X]. }
  (* p and q share their name, hence their first param *)
  destruct (abs_p_of s d W E p Hp) as (lp & LP). apply (abs_p_list s d W E) in LP. destruct LP as [LP1 LP2]. destruct lp as [|f lr]; [congruence|].
  assert (LQ : filter (fun x => peqb (prom_of s x) (prom_of s q)) (plist s) = f :: lr) by (rewrite PQ; symmetry; exact LP2).
  destruct (first_fed s n q f lr O FI Fq LQ) as [FF PF].
  assert (FP : feeds s n p).
  { assert (IM : In p (f :: lr)) by (rewrite LP2; apply filter_In; split; [exact Hp|apply peqb_refl]). destruct IM as [<-|IM]; [exact FF|]. apply feeds_snoc with (b := f); [exact FF|]. right. right. split; [|exists lr; rewrite PF, PQ; auto].
    intros v Hv Kv. apply NU. exists v. split; [exact Hv|congruence]. }
  exact (proj2 FI p u FP Hu F).
Qed.
Print Assumptions connected_not_set.

(** ** Examples *)
Definition xs : list pattern := [fun n => String.eqb n "x"].
Definition s0 : sys := Grp [("p", (none, Comp [] ["y"])); ("a", (xs, Comp ["x"; "w"] ["z"])); ("b", (xs, Comp ["x"] []))] [(["a"; "w"], [(["p"; "y"], None)])].
Definition d0 : data := match setup_variables [] s0 with Ok d => d | Err _ => mkData [] [] [] [] [] [] end.
Definition r0 : result := match setup_connections dfs_edges (fun l => l) s0 with Ok r => r | Err _ => mkRes [] [] [] [] end.
(** unknowns and connected params hold 0, unconnected params refer to object 9; the
    objects of the caller are 10, 11, 12, … *)
Definition w0 (stored : path -> bool) : world nat := mkW (fun _ => 0) (fun p => if stored p then Stored 0 else Object 9) (fun l => 10 + l).
Definition sf0 (p : path) : bool := peqb p ["a"; "w"].
Definition run {V} (d : data) (r : result) (w : world V) (name : path) (l : nat) : world V := match set d r w name l with Ok w' => w' | Err _ => w end.

Lemma s0_ready : ready dfs_edges (fun l => l) s0 d0 r0.
Proof. split; [exact dfs_edges_spec|]. split; [intros l; apply Permutation_refl|]. split; [unfold s0; wf|]. split; vm_compute; reflexivity. Qed.
Lemma s0_link : forall a b, link s0 a b -> (a, b) = (["p"; "y"], ["a"; "w"]) \/ (a, b) = (["a"; "x"], ["b"; "x"]).
Proof.
  intros a b L. destruct s0_ready as (_ & _ & W & E & _). destruct (explicit [] s0) as [cs|] eqn:X; [|vm_compute in X; discriminate].
  apply (link_graph s0 d0 cs W E X) in L. vm_compute in X. injection X as <-. vm_compute in L. destruct L as [L|[L|[]]]; symmetry in L; auto.
Qed.
(** one name for two inputs, an input connected to an unknown *)
Example access_case : ready dfs_edges (fun l => l) s0 d0 r0 /\ one_link s0 /\ free_input s0 ["a"; "x"] /\ feeds s0 ["a"; "x"] ["b"; "x"] /\
  prom_of s0 ["b"; "x"] = ["x"] /\ unshadowed s0 ["x"] /\ feeds s0 ["p"; "y"] ["a"; "w"] /\
  let w := run d0 r0 (w0 sf0) ["x"] 5 in let w' := run d0 r0 w ["p"; "y"] 6 in
  get d0 r0 w' ["x"] = Ok 15 /\ content w' (pcell w' ["a"; "x"]) = 15 /\ content w' (pcell w' ["b"; "x"]) = 15 /\
  get d0 r0 w' ["p"; "y"] = Ok 16 /\ get d0 r0 w' ["a"; "z"] = Ok 0 /\ get d0 r0 (mutate (mutate w' 5 25) 6 26) ["x"] = Ok 25 /\ get d0 r0 (mutate (mutate w' 5 25) 6 26) ["p"; "y"] = Ok 16 /\
  get d0 r0 w' ["a"; "w"] = Ok 0 /\ set d0 r0 w' ["a"; "w"] 5 = Err KeyError /\ get d0 r0 w' ["q"] = Err KeyError.
Proof.
  split; [exact s0_ready|]. split.
  { intros a b t A B. destruct (s0_link a t A) as [A'|A']; destruct (s0_link b t B) as [B'|B']; congruence. }
  destruct s0_ready as (DF & OR & W & E & K).
  assert (LE : forall a b, (a, b) = (["p"; "y"], ["a"; "w"]) \/ (a, b) = (["a"; "x"], ["b"; "x"]) -> link s0 a b).
  { intros a b L. destruct (explicit [] s0) as [cs|] eqn:X; [|vm_compute in X; discriminate]. apply (link_graph s0 d0 cs W E X). vm_compute in X. injection X as <-. vm_compute. destruct L as [L|L]; rewrite L; auto. }
  assert (T : top_input s0 ["a"; "x"]) by (split; [cbn; auto|]; intros a L; destruct (s0_link _ _ L) as [C|C]; discriminate).
  split.
  { split; [exact T|]. destruct (unconnected_reported dfs_edges (fun l => l) s0 r0 DF OR W K ["a"; "x"] (proj1 T) (proj2 T)) as [[(x & X) _]|(_ & _ & _ & X)]; [|exact X]. exfalso. vm_compute in X. destruct X as [X|[]]. discriminate. }
  split; [eapply feeds_step; [apply LE; right; reflexivity|constructor]|]. split; [vm_compute; reflexivity|]. split; [intros C; cbn in C; destruct C as [C|[C|[C|[]]]]; discriminate|]. split; [eapply feeds_step; [apply LE; left; reflexivity|constructor]|].
  repeat split; vm_compute; reflexivity.
Qed.

(** ** What does not hold *)
(** A name may stand for inputs below two unconnected inputs (here "x" for g.c.x and
    h.c.x, where h.a.y leads to h.c.x as well): setting it succeeds and changes
    h.a.y, but reading it gives the old value; setting h.a.y gives h.c.x and g.c.x
    different values although they have one name. *)
Theorem set_get_refuted : exists s d r, ready dfs_edges (fun l => l) s d r /\
    prom_of s ["g"; "c"; "x"] = ["x"] /\ prom_of s ["h"; "c"; "x"] = ["x"] /\ prom_of s ["h"; "a"; "y"] = ["h"; "a"; "y"] /\
    (let w := run d r (w0 (fun _ => false)) ["x"] 5 in set d r (w0 (fun _ => false)) ["x"] 5 = Ok w /\ get d r w ["x"] = Ok 19 /\ get d r w ["h"; "a"; "y"] = Ok 15) /\
    (let w := run d r (w0 (fun _ => false)) ["h"; "a"; "y"] 5 in content w (pcell w ["g"; "c"; "x"]) = 19 /\ content w (pcell w ["h"; "c"; "x"]) = 15).
Proof.
  pose (s := Grp [("g", (xs, Grp [("c", (xs, Comp ["x"] [])); ("e", (none, Comp ["w"] []))] [(["e"; "w"], [(["x"], None)])])); ("h", (xs, Grp [("a", (none, Comp ["y"] [])); ("c", (xs, Comp ["x"] []))] [(["x"], [(["a"; "y"], None)])]))] []).
  exists s. destruct (setup_variables [] s) as [d|] eqn:E; [|vm_compute in E; discriminate]. destruct (setup_connections dfs_edges (fun l => l) s) as [r|] eqn:K; [|vm_compute in K; discriminate]. exists d, r.
  split; [split; [exact dfs_edges_spec|]; split; [intros l; apply Permutation_refl|]; split; [unfold s; wf|]; split; [exact E|exact K]|].
  split; [reflexivity|]. split; [reflexivity|]. split; [reflexivity|]. vm_compute in E, K. injection E as <-. injection K as <-. split; repeat split; vm_compute; reflexivity.
Qed.
Print Assumptions set_get_refuted.

(** An input may be reported as unconnected and be connected nevertheless: setting it
    succeeds, the next transfer of data overwrites it. *)
Theorem set_connected_refuted : exists s d r, ready dfs_edges (fun l => l) s d r /\ prom_of s ["m"; "x"] = ["m"; "x"] /\
    pget (dangling_of r) ["m"; "x"] = Some [["a"; "y"]; ["m"; "x"]] /\ pget (connections r) ["m"; "x"] = Some (["u"; "z"], None) /\
    let w := w0 (peqb ["m"; "x"]) in set d r w ["m"; "x"] 5 = Ok (run d r w ["m"; "x"] 5) /\ get d r (run d r w ["m"; "x"] 5) ["m"; "x"] = Ok 15.
Proof.
  pose (s := Grp [("a", (none, Comp ["y"] [])); ("b", (none, Comp ["y"] [])); ("m", (none, Comp ["x"] [])); ("t", (none, Comp ["x"] [])); ("u", (none, Comp [] ["z"]))]
                 [(["m"; "x"], [(["a"; "y"], None); (["b"; "y"], None)]); (["t"; "x"], [(["b"; "y"], None); (["u"; "z"], None)])]).
  exists s. destruct (setup_variables [] s) as [d|] eqn:E; [|vm_compute in E; discriminate]. destruct (setup_connections dfs_edges (fun l => l) s) as [r|] eqn:K; [|vm_compute in K; discriminate]. exists d, r.
  split; [split; [exact dfs_edges_spec|]; split; [intros l; apply Permutation_refl|]; split; [unfold s; wf|]; split; [exact E|exact K]|].
  vm_compute in E, K. injection E as <-. injection K as <-. repeat split; vm_compute; reflexivity.
Qed.
Print Assumptions set_connected_refuted.

(** The name of an unconnected input may be the absolute name of another input, one
    that is connected at the root: setting the name sets the first, reading it reads
    the second. *)
Theorem set_shadowed_refuted : exists s d r, ready dfs_edges (fun l => l) s d r /\ prom_of s ["m"; "n"; "x"] = ["n"; "x"] /\ pget (connections r) ["m"; "n"; "x"] = None /\ prom_of s ["n"; "x"] = ["x"] /\
    let w := run d r (w0 (peqb ["n"; "x"])) ["n"; "x"] 5 in content w (pcell w ["m"; "n"; "x"]) = 15 /\ get d r w ["n"; "x"] = Ok 0.
Proof.
  pose (s := Grp [("p", (xs, Comp [] ["x"])); ("n", (xs, Comp ["x"] [])); ("m", (all, Grp [("n", (none, Comp ["x"] []))] []))] []).
  exists s. destruct (setup_variables [] s) as [d|] eqn:E; [|vm_compute in E; discriminate]. destruct (setup_connections dfs_edges (fun l => l) s) as [r|] eqn:K; [|vm_compute in K; discriminate]. exists d, r.
  split; [split; [exact dfs_edges_spec|]; split; [intros l; apply Permutation_refl|]; split; [unfold s; wf|]; split; [exact E|exact K]|].
  vm_compute in E, K. injection E as <-. injection K as <-. repeat split; vm_compute; reflexivity.
Qed.
Print Assumptions set_shadowed_refuted.

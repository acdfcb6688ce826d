(** Theorems about the checks of linear solvers (C95) and of the execution order (C96). *)
From Coq Require Import Permutation Sorted.
From Verif Require Import Base BaseFacts GraphSpec GraphProofs OrderModel OrderSpec OrderProofs OrderProofs2 CksModel CksSpec CksProofs CksProofs2.
Local Open Scope string_scope.
Local Open Scope nat_scope.
Local Open Scope list_scope.

(** ** C95 *)
(** A circle among the subsystems of a group is reported exactly when the group's linear
    solver is LinearGaussSeidel with one iteration and no group above can solve coupled
    equations; the sets listed are the classes of subsystems that depend on each other. *)
Theorem C95_cycles : forall sccs t conns errs, scc_spec sccs -> wf_stree t -> plain_states t -> conns_ok (erase t) conns ->
    check_solvers sccs t (sys_graph (subsystems [] (erase t)) conns) = Ok errs -> forall p,
    ((exists strong, In (Cycles p strong) errs) <-> exists g cs, at_path t p (SGrp g cs) /\ g_ln g = GaussSeidel 1 /\ ~ covered t p /\ cyclic conns p) /\
    forall strong, In (Cycles p strong) errs -> forall a b, a <> b -> ((exists s, In s strong /\ In (p ++ [a]) s /\ In (p ++ [b]) s) <-> depends p conns a b /\ depends p conns b a).
Proof.
  intros sccs t conns errs SCC W PL CO E p. set (sg := sys_graph (subsystems [] (erase t)) conns) in *.
  assert (IN : forall strong, In (Cycles p strong) errs <-> exists g cs, at_path t p (SGrp g cs) /\ g_ln g = GaussSeidel 1 /\ aboveb t p = false /\ strong = strong_of sccs sg p /\ strong <> []).
  { intros strong. rewrite (other_errors sccs t sg W PL errs E) by discriminate. split.
    - intros (q & g & cs & A & [K|[B K]]).
      + exfalso. unfold cs_errors in K. destruct (g_cs g); [|destruct K]. apply in_app_or in K. destruct K as [K|K]; [destruct q; [destruct K|destruct K as [K|[]]; discriminate]|]. apply in_flat_map in K. destruct K as (e & _ & K). destruct (g_newton _); [destruct K as [K|[]]; discriminate|destruct K].
      + unfold cycle_errors in K. destruct (g_ln g) as [[|[|]]| |] eqn:L; try destruct K. destruct (strong_of sccs sg q) as [|s0 ss] eqn:S; [destruct K|]. destruct K as [K|[]]. injection K as -> <-. exists g, cs. rewrite S. repeat (split; [assumption || reflexivity|]). discriminate.
    - intros (g & cs & A & L & B & -> & N). exists p, g, cs. split; [exact A|]. right. split; [exact B|]. unfold cycle_errors. rewrite L. destruct (strong_of sccs sg p); [congruence|left; reflexivity]. }
  assert (AB : forall g cs, at_path t p (SGrp g cs) -> g_ln g = GaussSeidel 1 -> (aboveb t p = false <-> ~ covered t p)).
  { intros g cs A L. split.
    - intros B C. assert (X : aboveb t p = true) by (apply (aboveb_iff t p W); left; exact C). congruence.
    - intros N. destruct (aboveb t p) eqn:B; [|reflexivity]. exfalso. apply (aboveb_iff t p W) in B. destruct B as [B|(-> & g' & cs' & A' & C)]; [exact (N B)|]. pose proof (at_fun t [] _ _ W A A') as X. injection X as -> ->. rewrite L in C. cbn in C. lia. }
  split.
  - split.
    + intros (strong & K). apply IN in K. destruct K as (g & cs & A & L & B & -> & N). exists g, cs. split; [exact A|]. split; [exact L|]. split; [apply (AB g cs A L); exact B|]. apply (strong_cyclic sccs SCC t conns p g cs W CO A). exact N.
    + intros (g & cs & A & L & C & Y). exists (strong_of sccs sg p). apply IN. exists g, cs. split; [exact A|]. split; [exact L|]. split; [apply (AB g cs A L); exact C|]. split; [reflexivity|]. apply (strong_cyclic sccs SCC t conns p g cs W CO A). exact Y.
  - intros strong K a b N. apply IN in K. destruct K as (g & cs & A & L & B & -> & _). exact (strong_iff sccs SCC t conns p g cs W CO A a b N).
Qed.
Print Assumptions C95_cycles.

(** A state is reported, under every group it belongs to, exactly when its component cannot
    solve for it and no group above the component can solve coupled equations. *)
Theorem C95_states : forall sccs t sg errs, wf_stree t -> plain_states t -> check_solvers sccs t sg = Ok errs -> forall p s,
    (exists l, In (Uniterated p l) errs /\ In s l) <-> open_state t s /\ ~ covered t (removelast s) /\ (exists g cs, at_path t p (SGrp g cs)) /\ exists r, s = p ++ r.
Proof. intros sccs t sg errs W PL E p s. exact (states_reported sccs t sg W PL errs E p s). Qed.
Print Assumptions C95_states.

(** Complex step is reported for every group but the whole model; if any group uses it, so is
    every nonlinear solver that needs derivatives. *)
Theorem C95_complex_step : forall sccs t sg errs, wf_stree t -> plain_states t -> check_solvers sccs t sg = Ok errs -> forall p,
    (In (CsGroup p) errs <-> p <> [] /\ exists g cs, at_path t p (SGrp g cs) /\ g_cs g = true) /\
    (In (CsNewton p) errs <-> (exists q g cs, at_path t q (SGrp g cs) /\ g_cs g = true) /\ exists g cs, at_path t p (SGrp g cs) /\ g_newton g = true).
Proof.
  intros sccs t sg errs W PL E p.
  assert (CE : forall e q k, In e (cycle_errors sccs sg q k) -> exists s, e = Cycles q s).
  { intros e q k K. unfold cycle_errors in K. destruct k as [[|[|]]| |]; try destruct K. destruct (strong_of sccs sg q); [destruct K|]. destruct K as [<-|[]]. eexists. reflexivity. }
  assert (NW : forall e, In e (flat_map (fun e : path * ginfo * list (string * stree) => if g_newton (snd (fst e)) then [CsNewton (fst (fst e))] else []) (groups [] t)) <-> exists q, e = CsNewton q /\ exists g cs, at_path t q (SGrp g cs) /\ g_newton g = true).
  { intros e. rewrite in_flat_map. split.
    - intros ([[q g] cs] & K & X). cbn [fst snd] in X. destruct (g_newton g) eqn:N; [|destruct X]. destruct X as [<-|[]]. apply groups_in in K. destruct K as (q' & -> & K). exists q'. split; [reflexivity|]. exists g, cs. auto.
    - intros (q & -> & g & cs & A & N). exists (q, g, cs). split; [apply groups_in; exists q; auto|]. cbn. rewrite N. left. reflexivity. }
  split; rewrite (other_errors sccs t sg W PL errs E) by discriminate; split.
  - intros (q & g & cs & A & [K|[_ K]]); [|apply CE in K; destruct K; discriminate]. unfold cs_errors in K. destruct (g_cs g) eqn:G; [|destruct K]. apply in_app_or in K. destruct K as [K|K].
    + destruct q as [|x q]; [destruct K|]. destruct K as [K|[]]. injection K as <-. split; [discriminate|]. exists g, cs. auto.
    + apply NW in K. destruct K as (? & ? & _). discriminate.
  - intros (N & g & cs & A & G). exists p, g, cs. split; [exact A|]. left. unfold cs_errors. rewrite G. apply in_or_app. left. destruct p; [congruence|left; reflexivity].
  - intros (q & g & cs & A & [K|[_ K]]); [|apply CE in K; destruct K; discriminate]. unfold cs_errors in K. destruct (g_cs g) eqn:G; [|destruct K]. apply in_app_or in K. destruct K as [K|K].
    + destruct q as [|x q]; [destruct K|]. destruct K as [K|[]]. discriminate.
    + apply NW in K. destruct K as (q' & K & X). injection K as <-. split; [exists q, g, cs; auto|exact X].
  - intros ((q & g & cs & A & G) & X). exists q, g, cs. split; [exact A|]. left. unfold cs_errors. rewrite G. apply in_or_app. right. apply NW. exists p. auto.
Qed.
Print Assumptions C95_complex_step.

(** If every state is a variable of its own component, the check completes. *)
Theorem C95_completes : forall sccs t sg, wf_stree t -> plain_states t -> exists errs, check_solvers sccs t sg = Ok errs.
Proof. intros sccs t sg W PL. destruct (solvers_result sccs t sg W PL) as (errs & E & _). exists errs. exact E. Qed.
Print Assumptions C95_completes.

(** A model (a group) is accepted exactly when all of this holds. *)
Theorem C95_accepted : forall sccs g0 cs0 conns, scc_spec sccs -> let t := SGrp g0 cs0 in wf_stree t -> plain_states t -> conns_ok (erase t) conns ->
    (check_solvers sccs t (sys_graph (subsystems [] (erase t)) conns) = Ok [] <->
     (forall p g cs, at_path t p (SGrp g cs) -> g_ln g = GaussSeidel 1 -> cyclic conns p -> covered t p) /\
     (forall s, open_state t s -> covered t (removelast s)) /\
     (forall p g cs, at_path t p (SGrp g cs) -> g_cs g = true -> p = [] /\ forall q g' cs', at_path t q (SGrp g' cs') -> g_newton g' = false)).
Proof.
  intros sccs g0 cs0 conns SCC t W PL CO. set (sg := sys_graph (subsystems [] (erase t)) conns). destruct (C95_completes sccs t sg W PL) as (errs & E).
  pose proof (fun p => proj1 (C95_cycles sccs t conns errs SCC W PL CO E p)) as CY. pose proof (C95_states sccs t sg errs W PL E) as ST. pose proof (C95_complex_step sccs t sg errs W PL E) as CS.
  assert (DC : forall p, covered t p \/ ~ covered t p).
  { intros p. destruct (aboveb t p) eqn:B.
    - apply (aboveb_iff t p W) in B. destruct B as [B|(-> & _)]; [left; exact B|]. right. intros (q & r & g & cs & K & N & _). symmetry in K. apply app_eq_nil in K. tauto.
    - right. intros C. assert (X : aboveb t p = true) by (apply (aboveb_iff t p W); left; exact C). congruence. }
  rewrite E. split.
  - intros K. injection K as ->. split; [|split].
    + intros p g cs A L Y. destruct (DC p) as [C|C]; [exact C|]. exfalso. destruct (proj2 (CY p)) as (s & []). exists g, cs. auto.
    + intros s O. destruct (DC (removelast s)) as [C|C]; [exact C|]. exfalso. destruct (proj2 (ST [] s)) as (l & [] & _). split; [exact O|]. split; [exact C|]. split; [exists g0, cs0; constructor|]. exists s. reflexivity.
    + intros p g cs A G. split.
      * destruct p as [|x p]; [reflexivity|]. exfalso. destruct (proj2 (proj1 (CS (x :: p)))). split; [discriminate|]. exists g, cs. auto.
      * intros q g' cs' A' . destruct (g_newton g') eqn:N; [|reflexivity]. exfalso. destruct (proj2 (proj2 (CS q))). split; [exists p, g, cs; auto|exists g', cs'; auto].
  - intros (H1 & H2 & H3). f_equal. destruct errs as [|e errs]; [reflexivity|]. exfalso. destruct e as [p|p|p s|p l].
    + destruct (proj1 (proj1 (CS p)) (or_introl eq_refl)) as (N & g & cs & A & G). destruct (H3 p g cs A G) as [-> _]. congruence.
    + destruct (proj1 (proj2 (CS p)) (or_introl eq_refl)) as ((q & g & cs & A & G) & g' & cs' & A' & G'). destruct (H3 q g cs A G) as [_ K]. rewrite (K p g' cs' A') in G'. discriminate.
    + destruct (proj1 (CY p) (ex_intro _ s (or_introl eq_refl))) as (g & cs & A & L & C & Y). exact (C (H1 p g cs A L Y)).
    + destruct (uniterated_some sccs t sg W PL _ E p l (or_introl eq_refl)) as (s & I). destruct (proj1 (ST p s) (ex_intro _ l (conj (or_introl eq_refl) I))) as (O & C & _). exact (C (H2 s O)).
Qed.
Print Assumptions C95_accepted.

(** ** examples and refutations *)
Definition lt0 : path -> path -> bool := fun _ _ => false.
Definition dfs0 (g : graph path) (u : path) : list path := filter (fun v => reachb path_dec g u v && negb (eqN path_dec v u)) (fst g).
Definition gs (n : nat) : ginfo := mkG (GaussSeidel n) false false.
(** a circle a -> b -> a in the group g, and a state in c which c cannot solve for *)
Definition t1 (root : ginfo) : stree := SGrp root [("c", SComp [["z"]] false); ("g", SGrp (gs 1) [("a", SComp [] false); ("b", SComp [["w"]] true)])].
Definition conns1 : list (path * path * nat) := [(["g"; "a"; "y"], ["g"; "b"; "x"], 1); (["g"; "b"; "w"], ["g"; "a"; "x"], 1); (["c"; "z"], ["g"; "a"; "u"], 1)].
Definition sg1 (root : ginfo) : graph path := sys_graph (subsystems [] (erase (t1 root))) conns1.
Lemma t1_wf : forall r, wf_stree (t1 r).
Proof.
  intros r. constructor; [repeat constructor; cbn; intuition discriminate|]. intros n c [E|[E|[]]]; injection E as <- <-; [constructor|]. constructor; [repeat constructor; cbn; intuition discriminate|]. intros n c [E|[E|[]]]; injection E as <- <-; constructor.
Qed.
Lemma t1_plain : forall r, plain_states (t1 r).
Proof.
  intros r q sts own s A I. apply (getattr_at q _ _ (t1_wf r)) in A. destruct q as [|x [|y [|z q]]]; cbn in A; try discriminate.
  - destruct (String.eqb x "c"); [injection A as <- <-; destruct I as [<-|[]]; eexists; reflexivity|]. destruct (String.eqb x "g"); discriminate.
  - destruct (String.eqb x "c"); [discriminate|]. destruct (String.eqb x "g"); [|discriminate]. cbn in A. destruct (String.eqb y "a"); [injection A as <- <-; destruct I|]. destruct (String.eqb y "b"); [injection A as <- <-; destruct I as [<-|[]]; eexists; reflexivity|discriminate].
  - destruct (String.eqb x "c"); [discriminate|]. destruct (String.eqb x "g"); [|discriminate]. cbn in A. destruct (String.eqb y "a"); [discriminate|]. destruct (String.eqb y "b"); discriminate.
Qed.
Lemma t1_conns : forall r, conns_ok (erase (t1 r)) conns1.
Proof.
  intros r s d w [E|[E|[E|[]]]]; injection E as <- <- <-; [exists ["g"; "a"], "y", ["g"; "b"], "x"|exists ["g"; "b"], "w", ["g"; "a"], "x"|exists ["c"], "z", ["g"; "a"], "u"]; repeat split; try discriminate; cbn; discriminate.
Qed.
Example C95_cycles_ex : scc_spec (sccs_of path_dec) /\ wf_stree (t1 (gs 1)) /\ plain_states (t1 (gs 1)) /\ conns_ok (erase (t1 (gs 1))) conns1 /\
    check_solvers (sccs_of path_dec) (t1 (gs 1)) (sg1 (gs 1)) = Ok [Cycles ["g"] [[["g"; "a"]; ["g"; "b"]]]; Uniterated [] [["c"; "z"]]].
Proof. split; [apply sccs_of_spec|]. split; [apply t1_wf|]. split; [apply t1_plain|]. split; [apply t1_conns|]. vm_compute. reflexivity. Qed.
Example C95_accepted_ex : scc_spec (sccs_of path_dec) /\ wf_stree (t1 (gs 2)) /\ plain_states (t1 (gs 2)) /\ conns_ok (erase (t1 (gs 2))) conns1 /\ check_solvers (sccs_of path_dec) (t1 (gs 2)) (sg1 (gs 2)) = Ok [].
Proof. split; [apply sccs_of_spec|]. split; [apply t1_wf|]. split; [apply t1_plain|]. split; [apply t1_conns|]. vm_compute. reflexivity. Qed.
Example C95_complex_step_ex :
    let t := SGrp (gs 1) [("g", SGrp (mkG Direct true false) []); ("h", SGrp (mkG Direct false true) [])] in
    wf_stree t /\ plain_states t /\ check_solvers (sccs_of path_dec) t (sys_graph (subsystems [] (erase t)) []) = Ok [CsGroup ["g"]; CsNewton ["h"]].
Proof.
  split; [constructor; [repeat constructor; cbn; intuition discriminate|]; intros n c [E|[E|[]]]; injection E as <- <-; constructor; [constructor|intros ? ? []|constructor|intros ? ? []]|]. split; [|vm_compute; reflexivity].
  intros q sts own s A I. exfalso. inversion A as [|? ? n c q' ? K A']; subst. destruct K as [E|[E|[]]]; injection E as <- <-; inversion A' as [|? ? ? ? ? ? K' ?]; subst; destruct K'.
Qed.

(** A group with a Krylov solver that may do only one iteration is accepted although its
    subsystems feed each other in a circle and no group above helps. *)
Theorem C95_krylov_refuted : exists t conns p g cs, wf_stree t /\ plain_states t /\ conns_ok (erase t) conns /\ at_path t p (SGrp g cs) /\ ~ coupled (g_ln g) /\ ~ covered t p /\ cyclic conns p /\
    check_solvers (sccs_of path_dec) t (sys_graph (subsystems [] (erase t)) conns) = Ok [].
Proof.
  exists (SGrp (mkG (Krylov 1) false false) [("a", SComp [] false); ("b", SComp [] false)]), [(["a"; "y"], ["b"; "x"], 1); (["b"; "y"], ["a"; "x"], 1)], [], (mkG (Krylov 1) false false), [("a", SComp [] false); ("b", SComp [] false)].
  split; [constructor; [repeat constructor; cbn; intuition discriminate|]; intros n c [E|[E|[]]]; injection E as <- <-; constructor|].
  split; [intros q sts own s A I; exfalso; inversion A as [|? ? n c q' ? K A']; subst; destruct K as [E|[E|[]]]; injection E as <- <-; inversion A'; subst; destruct I|].
  split; [intros s d w [E|[E|[]]]; injection E as <- <- <-; [exists ["a"], "y", ["b"], "x"|exists ["b"], "y", ["a"], "x"]; repeat split; try discriminate; cbn; discriminate|].
  split; [constructor|]. split; [cbn; lia|]. split; [intros (q & r & g & cs & K & N & _); symmetry in K; apply app_eq_nil in K; tauto|]. split; [|vm_compute; reflexivity].
  exists "a", "b". split; [discriminate|]. split; (eapply dep_step; [|apply dep_refl]); (split; [discriminate|]); [exists ["y"], ["x"], 1|exists ["y"], ["x"], 1]; (split; [discriminate|]); (split; [discriminate|]); cbn; auto.
Qed.
Print Assumptions C95_krylov_refuted.
(** A SubProblem offers a state under a name with a dot; the check looks for a system of that
    name inside it and fails. *)
Theorem C95_dotted_refuted : exists t, wf_stree t /\ forall sccs sg, check_solvers sccs t sg = Err AttributeError.
Proof.
  exists (SGrp (gs 1) [("sub", SComp [["c"; "z"]] true)]). split; [constructor; [repeat constructor; cbn; intuition discriminate|]; intros n c [E|[]]; injection E as <- <-; constructor|]. intros sccs sg. reflexivity.
Qed.
Print Assumptions C95_dotted_refuted.

(** ** C96 *)
(** The cycles reported for a group are the classes of at least two subsystems that depend on
    each other, each once and in execution order. *)
Theorem C96_cycles : forall sccs lt dfs t conns p g cs, scc_spec sccs -> dfs_spec dfs -> wf_stree t -> conns_ok (erase t) conns -> at_path t p (SGrp g cs) ->
    exists c o, graph_of_group sccs lt dfs (sys_graph (subsystems [] (erase t)) conns) (p, g, cs) = Some (Ok c, o) /\
      (forall l, In l c -> 1 < length l /\ StronglySorted (before (map fst cs)) l /\ forall a, In a l -> forall b, a <> b -> (In b l <-> depends p conns a b /\ depends p conns b a)) /\
      (forall a b, a <> b -> depends p conns a b -> depends p conns b a -> exists l, In l c /\ In a l) /\ NoDup (concat c).
Proof.
  intros sccs lt dfs t conns p g cs SCC DFS W CO A. set (sg := sys_graph (subsystems [] (erase t)) conns). destruct (group_ok sccs lt dfs SCC DFS t conns p g cs W CO A) as (c & o & broken & h & E & _ & F & _).
  fold sg in E, F. pose proof (strong_iff sccs SCC t conns p g cs W CO A) as SI. fold sg in SI. destruct (facts t conns p g cs W CO A) as (WF & _). fold sg in WF. destruct (SCC _ WF) as [P _].
  assert (ND : NoDup (concat (strong_of sccs sg p))).
  { pose proof (Permutation_NoDup (Permutation_sym P) (proj1 WF)) as ND. revert ND. unfold strong_of. generalize (sccs (child_graph p sg)). intros ls. induction ls as [|s ls IH]; [intros _; constructor|]. cbn [concat filter]. intros ND. apply RunProofs.NoDup_app_inv in ND. destruct ND as (N1 & N2 & D). destruct (1 <? length s); [|exact (IH N2)]. cbn [concat].
    clear P E F SI. assert (SUB : forall x, In x (concat (filter (fun s => 1 <? length s) ls)) -> In x (concat ls)) by (intros x X; apply in_concat in X; destruct X as (y & Y & X); apply filter_In in Y; apply in_concat; exists y; tauto).
    specialize (IH N2). clear -N1 D IH SUB. induction s as [|y s IHs]; [exact IH|]. inversion N1; subst. cbn. constructor; [|apply IHs; [assumption|intros x X Y; apply (D x); [right; exact X|exact Y]]]. intros K. apply in_app_or in K. destruct K as [K|K]; [contradiction|]. apply (D y); [left; reflexivity|apply SUB; exact K]. }
  assert (DJ : forall s s' x, In s (strong_of sccs sg p) -> In s' (strong_of sccs sg p) -> In x s -> In x s' -> s = s').
  { revert ND. generalize (strong_of sccs sg p). clear. intros ls. induction ls as [|z ls IH]; intros ND s s' x S S' X X'; [destruct S|]. cbn in ND. apply RunProofs.NoDup_app_inv in ND. destruct ND as (_ & N2 & D). destruct S as [<-|S], S' as [<-|S']; [reflexivity| | |exact (IH N2 s s' x S S' X X')]; exfalso; apply (D x); try assumption; apply in_concat; eauto. }
  assert (MI : forall l a, In (p ++ [a]) (map (fun a => p ++ [a]) l) <-> In a l) by (intros l a; rewrite in_map_iff; split; [intros (y & K & Y); apply app_inv_head in K; injection K as <-; exact Y|intros Y; exists a; auto]).
  exists c, (p, o). split; [exact E|]. split; [|split].
  - intros l L. assert (X : exists s, In s (strong_of sccs sg p) /\ Permutation (map (fun a => p ++ [a]) l) s /\ StronglySorted (before (map fst cs)) l).
    { clear -F L. induction F as [|l0 s0 c ss [H1 H2] F IH]; [destruct L|]. destruct L as [<-|L]; [exists s0; split; [left; reflexivity|auto]|]. destruct (IH L) as (s & S & X). exists s. split; [right; exact S|exact X]. }
    destruct X as (s & S & Pm & So). split; [|split; [exact So|]].
    + pose proof (proj1 (filter_In _ _ _) S) as [_ Ls]. apply Nat.ltb_lt in Ls. rewrite <- (Permutation_length Pm), map_length in Ls. exact Ls.
    + intros a Ha b N. assert (As : In (p ++ [a]) s) by (apply (Permutation_in _ Pm); apply MI; exact Ha). rewrite <- (SI a b N). split.
      * intros Hb. exists s. split; [exact S|]. split; [exact As|]. apply (Permutation_in _ Pm). apply MI. exact Hb.
      * intros (s' & S' & A' & B'). rewrite <- (DJ s s' _ S S' As A') in B'. apply MI. apply (Permutation_in _ (Permutation_sym Pm)). exact B'.
  - intros a b N D1 D2. destruct (proj2 (SI a b N) (conj D1 D2)) as (s & S & As & _). clear -F S As MI. induction F as [|l0 s0 c ss [H1 H2] F IH]; [destruct S|]. destruct S as [<-|S].
    + exists l0. split; [left; reflexivity|]. apply MI. apply (Permutation_in _ (Permutation_sym H1)). exact As.
    + destruct (IH S) as (l & L & X). exists l. split; [right; exact L|exact X].
  - apply (NoDup_map_inv (fun a => p ++ [a])). assert (Q : Permutation (map (fun a => p ++ [a]) (concat c)) (concat (strong_of sccs sg p))).
    { clear -F. induction F as [|l0 s0 c ss [H1 H2] F IH]; [constructor|]. cbn. rewrite map_app. apply Permutation_app; assumption. }
    apply (Permutation_NoDup (Permutation_sym Q)). exact ND.
Qed.
Print Assumptions C96_cycles.

(** [b] is reported to have to run after [a] exactly when it runs before [a] and needs it
    through connections that were not broken; those broken lie on circles and are those the
    automatic order breaks. *)
Theorem C96_out_of_order : forall sccs lt dfs topo t conns p g cs, scc_spec sccs -> dfs_spec dfs -> topo_spec topo -> wf_stree t -> conns_ok (erase t) conns -> at_path t p (SGrp g cs) ->
    exists c o broken auto, graph_of_group sccs lt dfs (sys_graph (subsystems [] (erase t)) conns) (p, g, cs) = Some (Ok c, (p, o)) /\
      list_auto_order lt sccs topo (sys_graph (subsystems [] (erase t)) conns) p = Some (auto, broken) /\
      (forall u v, In (u, v) broken -> exists a b, u = p ++ [a] /\ v = p ++ [b] /\ feeds p conns a b /\ depends p conns b a) /\
      (forall b l, In (b, l) o -> l <> []) /\ NoDup (map fst o) /\
      (forall a b, (exists l, In (b, l) o /\ In a l) <-> before (map fst cs) b a /\ needs p conns broken a b) /\
      (o = [] <-> forall a b, feeds p conns a b -> ~ In (p ++ [a], p ++ [b]) broken -> before (map fst cs) a b) /\
      (map fst cs = auto -> o = []).
Proof.
  intros sccs lt dfs topo t conns p g cs SCC DFS TOPO W CO A. destruct (group_ok sccs lt dfs SCC DFS t conns p g cs W CO A) as (c & o & broken & h & E & B & _ & X & N1 & N2 & O).
  pose proof (erase_find t p g cs W A) as FD. destruct (auto_order_l lt sccs topo (erase t) conns p _ SCC TOPO (erase_wf t W) CO FD) as (auto & broken' & EA & _ & BA & _).
  assert (broken' = broken). { unfold list_auto_order, sorted_nodes in EA. rewrite B in EA. destruct (topo h); [|discriminate]. cbn in EA. injection EA as _ <-. reflexivity. } subst broken'.
  pose proof (nothing_iff t conns p g cs W CO A broken o N1 O) as NI. exists c, o, broken, auto. repeat (split; [assumption|]). intros EO. apply NI. intros a b F N. rewrite EO. destruct (BA a b F) as [K|K]; [exact K|contradiction].
Qed.
Print Assumptions C96_out_of_order.

(** In a group without circles this is the dependence itself. *)
Theorem C96_acyclic : forall sccs lt dfs t conns p g cs, scc_spec sccs -> dfs_spec dfs -> wf_stree t -> conns_ok (erase t) conns -> at_path t p (SGrp g cs) -> ~ cyclic conns p ->
    exists o, graph_of_group sccs lt dfs (sys_graph (subsystems [] (erase t)) conns) (p, g, cs) = Some (Ok [], (p, o)) /\
      forall a b, (exists l, In (b, l) o /\ In a l) <-> before (map fst cs) b a /\ depends p conns a b.
Proof.
  intros sccs lt dfs t conns p g cs SCC DFS W CO A NC. destruct (group_ok sccs lt dfs SCC DFS t conns p g cs W CO A) as (c & o & broken & h & E & B & F & X & N1 & N2 & O).
  assert (NS : strong_of sccs (sys_graph (subsystems [] (erase t)) conns) p = []).
  { destruct (strong_of sccs (sys_graph (subsystems [] (erase t)) conns) p) eqn:S; [reflexivity|]. exfalso. apply NC. apply (strong_cyclic sccs SCC t conns p g cs W CO A). rewrite S. discriminate. }
  rewrite NS in F. inversion F; subst c. exists o. split; [exact E|]. assert (NB : broken = []). { destruct broken as [|[u v] r]; [reflexivity|]. exfalso. destruct (X u v (or_introl eq_refl)) as (a & b & _ & _ & Fe & D). apply NC. exists a, b. split; [exact (proj1 Fe)|]. split; [eapply dep_step; [exact Fe|apply dep_refl]|exact D]. }
  subst broken. intros a b. rewrite O. split.
  - intros [K1 K2]. split; [exact K1|]. clear K1. induction K2 as [a b Fe _|a b d Fe _ K IH]; [eapply dep_step; [exact Fe|apply dep_refl]|eapply dep_step; eassumption].
  - intros [K1 K2]. split; [exact K1|]. assert (N : a <> b). { intros ->. exact (before_irrefl _ _ _ _ (order_nodup t p g cs W A) K1 K1). } clear K1. induction K2 as [a|a b d Fe K IH]; [congruence|]. destruct (string_dec b d) as [->|Nd]; [apply needs_one; [exact Fe|intros []]|]. apply (needs_more _ _ _ a b d Fe); [intros []|apply IH; exact Nd].
Qed.
Print Assumptions C96_acyclic.

(** The check never fails, and reports what it finds in each group, in the order of the
    groups, leaving out groups without findings. *)
Theorem C96_all_groups : forall sccs lt dfs t conns, scc_spec sccs -> dfs_spec dfs -> wf_stree t -> conns_ok (erase t) conns -> let sg := sys_graph (subsystems [] (erase t)) conns in
    exists rs, map (graph_of_group sccs lt dfs sg) (groups [] t) = map (fun r : list (list string) * (path * list (string * list string)) => Some (Ok (fst r), snd r)) rs /\
      check_graph sccs lt dfs sg (groups [] t) = Some (Ok (flat_map (fun r => match fst r with [] => [] | c => [c] end) rs, flat_map (fun r => match snd (snd r) with [] => [] | _ => [snd r] end) rs)).
Proof.
  intros sccs lt dfs t conns SCC DFS W CO sg. assert (H : forall e, In e (groups [] t) -> exists r, graph_of_group sccs lt dfs sg e = Some (Ok (fst r), snd r)).
  { intros [[p g] cs] K. apply groups_in in K. destruct K as (q & -> & K). destruct (group_ok sccs lt dfs SCC DFS t conns q g cs W CO K) as (c & o & _ & _ & E & _). exists (c, (q, o)). exact E. }
  revert H. generalize (groups [] t). intros l. induction l as [|e l IH]; intros H; [exists []; split; reflexivity|]. destruct (H e (or_introl eq_refl)) as ([c o] & E). destruct IH as (rs & E1 & E2); [intros x X; apply H; right; exact X|]. exists ((c, o) :: rs). cbn [map]. rewrite E, E1. split; [reflexivity|].
  cbn [check_graph]. rewrite E. cbn [fst snd]. rewrite E2. cbn [bind fst snd flat_map]. destruct c; reflexivity.
Qed.
Print Assumptions C96_all_groups.

Example C96_ex : let t := SGrp (gs 1) [("c3", SComp [] false); ("g", SGrp (gs 1) [("d2", SComp [] false); ("d1", SComp [] false)]); ("c1", SComp [] false)] in
  let conns := [(["c1"; "y"], ["g"; "d1"; "x"], 1); (["g"; "d1"; "y"], ["g"; "d2"; "x"], 1); (["g"; "d2"; "y"], ["c3"; "x"], 2); (["c3"; "y"], ["c1"; "x"], 1)] in
  wf_stree t /\ conns_ok (erase t) conns /\
  check_graph (sccs_of path_dec) lt0 dfs0 (sys_graph (subsystems [] (erase t)) conns) (groups [] t) =
    Some (Ok ([[["c3"; "g"; "c1"]]], [([], [("c3", ["g"; "c1"]); ("g", ["c1"])]); (["g"], [("d2", ["d1"])])])).
Proof.
  cbv zeta. split; [|split; [|vm_compute; reflexivity]].
  - constructor; [repeat constructor; cbn; intuition discriminate|]. intros n c [E|[E|[E|[]]]]; injection E as <- <-; try constructor; [repeat constructor; cbn; intuition discriminate|]. intros n c [E|[E|[]]]; injection E as <- <-; constructor.
  - intros s d w [E|[E|[E|[E|[]]]]]; injection E as <- <- <-; [exists ["c1"], "y", ["g"; "d1"], "x"|exists ["g"; "d1"], "y", ["g"; "d2"], "x"|exists ["g"; "d2"], "y", ["c3"], "x"|exists ["c3"], "y", ["c1"], "x"]; repeat split; try discriminate; cbn; discriminate.
Qed.

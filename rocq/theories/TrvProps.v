(** C124: systems by their names.  C125: levels of printing. *)
From Verif Require Import Base BaseFacts PathModel PathSpec PathProofs TrvModel TrvSpec.
Local Open Scope list_scope.

Section SysInd.
  Variable P : sys -> Prop.
  Hypothesis H : forall n k l, Forall P l -> P (Sys n k l).
  Fixpoint sys_ind' (x : sys) : P x :=
    match x with
    | Sys n k l => H n k l ((fix go l := match l return Forall P l with [] => Forall_nil P | y :: l => Forall_cons y (sys_ind' y) (go l) end) l)
    end.
End SysInd.

(** * Texts of paths *)
Lemma text_last : forall p n, p <> [] -> text (p ++ [n]) = append (text p) (append "." n).
Proof.
  induction p as [|x p IH]; intros n H; [contradiction|]. destruct p as [|y p].
  - cbn. rewrite append_nil. f_equal. cbn. f_equal. rewrite append_nil. reflexivity.
  - change (text ((x :: y :: p) ++ [n])) with (append x (append "." (text ((y :: p) ++ [n])))). change (text (x :: y :: p)) with (append x (append "." (text (y :: p)))). rewrite IH by discriminate. generalize (text (y :: p)). intros t. rewrite !append_assoc. reflexivity.
Qed.
Lemma text_nonempty : forall p, p <> [] -> Forall name_ok p -> text p <> ""%string.
Proof.
  intros [|x p] H F; [contradiction|]. inversion F as [|? ? [N _] _]; subst. destruct x as [|c x]; [contradiction|]. intros E. cbn [text append] in E. discriminate E.
Qed.
Lemma pathname_text : forall p n, Forall name_ok p -> name_ok n -> pathname (text p) n = text (p ++ [n]).
Proof.
  intros p n F [N D]. unfold pathname. destruct p as [|x p]; [cbn; rewrite append_nil; reflexivity|]. destruct (String.eqb_spec (text (x :: p)) "") as [E|_]; [exfalso; apply (text_nonempty (x :: p)); [discriminate|exact F|exact E]|]. destruct (String.eqb_spec n "") as [E|_]; [contradiction|]. rewrite text_last by discriminate. reflexivity.
Qed.
Lemma text_inj : forall p q, p <> [] -> q <> [] -> Forall name_ok p -> Forall name_ok q -> text p = text q -> p = q.
Proof. intros p q P Q F G E. rewrite <- (split_text p P F), <- (split_text q Q G), E. reflexivity. Qed.

(** * Trees *)
Lemma reach_trans : forall x p y q z, reach x p y -> reach y q z -> reach x (p ++ q) z.
Proof. intros x p y q z H K. induction H as [x|x w p y I H IH]; [exact K|]. cbn. econstructor; [exact I|apply IH; exact K]. Qed.
Lemma tree_sub : forall x p y, tree_ok x -> reach x p y -> tree_ok y.
Proof. intros x p y T R q z Q. apply (T (p ++ q)). eapply reach_trans; eassumption. Qed.
Lemma tree_child : forall x y, tree_ok x -> In y (subs x) -> tree_ok y /\ name_ok (name y).
Proof.
  intros x y T I. split; [apply (tree_sub x [name y]); [exact T|econstructor; [exact I|constructor]]|]. destruct (T [] x (r_here x)) as (_ & _ & F). rewrite Forall_forall in F. apply F. apply in_map. exact I.
Qed.
Lemma reach_names : forall x p y, tree_ok x -> reach x p y -> Forall name_ok p.
Proof. intros x p y T R. induction R as [x|x w p y I R IH]; [constructor|]. destruct (tree_child _ _ T I) as [Tw N]. constructor; [exact N|apply IH; exact Tw]. Qed.

Lemma listed_iff : forall x, tree_ok x -> forall pre, Forall name_ok pre -> forall t s,
  In (t, s) (subsystems (text pre) x) <-> exists p, p <> [] /\ reach x p s /\ t = text (pre ++ p).
Proof.
  induction x as [n k l IH] using sys_ind'. intros T pre F t s. cbn [subsystems]. rewrite in_flat_map. rewrite Forall_forall in IH. split.
  - intros (y & I & [E|H]).
    + injection E as <- <-. destruct (tree_child (Sys n k l) y T I) as [Ty Ny]. exists [name y]. split; [discriminate|]. split; [econstructor; [exact I|constructor]|]. apply pathname_text; assumption.
    + destruct (is_group y); [|contradiction]. destruct (tree_child (Sys n k l) y T I) as [Ty Ny]. rewrite pathname_text in H by assumption. apply IH in H; [|exact I|exact Ty|apply Forall_app; split; [exact F|constructor; [exact Ny|constructor]]]. destruct H as (p & P & R & ->). exists (name y :: p). split; [discriminate|]. split; [econstructor; [exact I|exact R]|]. rewrite <- app_assoc. reflexivity.
  - intros (p & P & R & ->). inversion R as [|x' y q z I R' E1 E2]; subst; [contradiction|]. cbn [subs] in I. destruct (tree_child (Sys n k l) y T I) as [Ty Ny]. exists y. split; [exact I|]. rewrite pathname_text by assumption. inversion R' as [|x' w q' z I' R2 E1 E2]; subst; [left; reflexivity|]. right.
    assert (G : is_group y = true). { unfold is_group. destruct (solvers y) eqn:K; [reflexivity|]. destruct (Ty [] y (r_here y)) as (C & _). rewrite (C K) in I'. contradiction. }
    rewrite G. apply IH; [exact I|exact Ty|apply Forall_app; split; [exact F|constructor; [exact Ny|constructor]]|]. exists (name w :: q'). split; [discriminate|]. split; [exact R'|]. rewrite <- app_assoc. reflexivity.
Qed.
(** * C124 *)
Theorem C124_list : forall root, tree_ok root -> forall t s, In (t, s) (subsystems "" root) <-> exists p, p <> [] /\ reach root p s /\ t = text p.
Proof. intros root T t s. apply (listed_iff root T [] (Forall_nil _)). Qed.
Print Assumptions C124_list.
Lemma nodup_app : forall A (l m : list A), NoDup l -> NoDup m -> (forall x, In x l -> In x m -> False) -> NoDup (l ++ m).
Proof.
  induction l as [|a l IH]; intros m L M D; [exact M|]. inversion L; subst. cbn. constructor; [rewrite in_app_iff; intros [H|H]; [contradiction|apply (D a); [left; reflexivity|exact H]]|]. apply IH; [assumption|exact M|]. intros x X Y. apply (D x); [right; exact X|exact Y].
Qed.
Lemma once : forall x, tree_ok x -> forall pre, Forall name_ok pre -> NoDup (map fst (subsystems (text pre) x)).
Proof.
  induction x as [n k l IH] using sys_ind'. intros T pre F. pose proof (T [] _ (r_here _)) as (_ & N & _). cbn [subs] in N. rewrite Forall_forall in IH.
  assert (C : forall y, In y l -> tree_ok y /\ name_ok (name y)) by (intros y I; exact (tree_child (Sys n k l) y T I)). clear T. cbn [subsystems].
  assert (U : forall y t, In y l -> In t (map fst ((pathname (text pre) (name y), y) :: (if is_group y then subsystems (pathname (text pre) (name y)) y else []))) -> exists q, Forall name_ok q /\ t = text (pre ++ name y :: q)).
  { intros y t I H. destruct (C y I) as [Ty Ny]. rewrite pathname_text in H by assumption. destruct H as [<-|H]; [exists []; split; [constructor|reflexivity]|]. destruct (is_group y); [|contradiction]. apply in_map_iff in H. destruct H as ([t' s] & E & H). cbn in E. subst t'. apply listed_iff in H; [|exact Ty|apply Forall_app; split; [exact F|constructor; [exact Ny|constructor]]]. destruct H as (p & _ & R & ->). exists p. split; [exact (reach_names _ _ _ Ty R)|]. rewrite <- app_assoc. reflexivity. }
  assert (V : forall y, In y l -> NoDup (map fst ((pathname (text pre) (name y), y) :: (if is_group y then subsystems (pathname (text pre) (name y)) y else [])))).
  { intros y I. destruct (C y I) as [Ty Ny]. rewrite pathname_text by assumption. assert (F' : Forall name_ok (pre ++ [name y])) by (apply Forall_app; split; [exact F|constructor; [exact Ny|constructor]]). destruct (is_group y); cbn [map fst]; constructor; [|apply (IH y I Ty _ F')|intros []|constructor]. intros H. apply in_map_iff in H. destruct H as ([t s] & E & H). cbn in E. subst t. apply listed_iff in H; [|exact Ty|exact F']. destruct H as (p & P & R & E). apply text_inj in E; [|destruct pre; discriminate|destruct pre; discriminate|exact F'|apply Forall_app; split; [exact F'|exact (reach_names _ _ _ Ty R)]]. rewrite <- (app_nil_r (pre ++ [name y])) in E at 1. apply app_inv_head in E. congruence. }
  clear IH. induction l as [|y l IHl]; [constructor|]. inversion N as [|? ? Ni N']; subst. change (flat_map ?f (y :: l)) with (f y ++ flat_map f l). rewrite map_app. apply nodup_app.
  - apply (V y). left. reflexivity.
  - apply IHl; [exact N'|intros z Z; apply C; right; exact Z|intros z t Z; apply U; right; exact Z|intros z Z; apply V; right; exact Z].
  - intros t H1 H2. apply (U y) in H1; [|left; reflexivity]. destruct H1 as (q & Q & ->). rewrite flat_map_concat_map, concat_map, map_map in H2. apply in_concat in H2. destruct H2 as (ts & I & H2). apply in_map_iff in I. destruct I as (z & <- & Z). apply (U z) in H2; [|right; exact Z]. destruct H2 as (q' & Q' & E). destruct (C y (or_introl eq_refl)) as [_ Ny]. destruct (C z (or_intror Z)) as [_ Nz]. apply text_inj in E; [|destruct pre; discriminate|destruct pre; discriminate|apply Forall_app; split; [exact F|constructor; assumption]|apply Forall_app; split; [exact F|constructor; assumption]]. apply app_inv_head in E. injection E as E _. apply Ni. rewrite E. apply in_map. exact Z.
Qed.
(** every system below the root is listed once *)
Theorem C124_once : forall root, tree_ok root -> NoDup (map fst (subsystems "" root)).
Proof. intros root T. apply (once root T [] (Forall_nil _)). Qed.
Print Assumptions C124_once.
Lemma lookup_iff : forall x, tree_ok x -> forall part y, lookup x part = Ok y <-> In y (subs x) /\ name y = part.
Proof.
  intros x T part y. destruct (T [] x (r_here x)) as (_ & N & _). unfold lookup. induction (subs x) as [|z l IH]; [split; [discriminate|intros [[] _]]|]. inversion N as [|? ? Ni N']; subst. cbn [find In]. destruct (String.eqb_spec (name z) part) as [E|E].
  - split; [intros H; injection H as <-; split; [left; reflexivity|exact E]|]. intros [[<-|I] En]; [reflexivity|]. exfalso. apply Ni. rewrite E, <- En. apply in_map. exact I.
  - rewrite (IH N'). split; [intros [I En]; split; [right; exact I|exact En]|]. intros [[<-|I] En]; [contradiction|split; assumption].
Qed.
Lemma walk_err : forall parts e, fold_left (fun r part => bind r (fun s => lookup s part)) parts (Err e) = Err e.
Proof. induction parts as [|a parts IH]; intros e; [reflexivity|]. cbn. apply IH. Qed.
Lemma walk_iff : forall parts x, tree_ok x -> forall s, fold_left (fun r part => bind r (fun s => lookup s part)) parts (Ok x) = Ok s <-> reach x parts s.
Proof.
  induction parts as [|a parts IH]; intros x T s; cbn [fold_left bind].
  - split; [intros E; injection E as <-; constructor|intros R; inversion R; reflexivity].
  - destruct (lookup x a) as [y|e] eqn:L.
    + pose proof L as L'. apply (lookup_iff x T) in L'. destruct L' as [I E]. rewrite IH by (apply (tree_child x y T I)). split; [intros R; rewrite <- E; econstructor; eassumption|]. intros R. inversion R as [|x' z q w I' R' E1 E2]; subst. assert (Ok y = Ok z) as Ey by (rewrite <- L; apply (lookup_iff x T); split; assumption). injection Ey as ->. exact R'.
    + rewrite walk_err. split; [discriminate|]. intros R. inversion R as [|x' z q w I' R' E1 E2]; subst. assert (lookup x (name z) = Ok z) by (apply (lookup_iff x T); split; [exact I'|reflexivity]). congruence.
Qed.
(** A system is found exactly by the names on the way to it, with dots between them ... *)
Theorem C124_find : forall root, tree_ok root -> forall n s, find_subsystem root n = Ok s <-> exists p, p <> [] /\ reach root p s /\ n = text p.
Proof.
  intros root T n s. unfold find_subsystem. rewrite (walk_iff _ _ T). split.
  - intros R. exists (split_dot n). split; [apply split_nonempty|]. split; [exact R|]. rewrite text_join, join_split. reflexivity.
  - intros (p & P & R & ->). rewrite split_text; [exact R|exact P|exact (reach_names _ _ _ T R)].
Qed.
Print Assumptions C124_find.
(** ... any other name raises KeyError. *)
Theorem C124_missing : forall root n, (exists s, find_subsystem root n = Ok s) \/ find_subsystem root n = Err KeyError.
Proof.
  intros root n. unfold find_subsystem. generalize (split_dot n) as parts. intros parts. revert root. induction parts as [|a parts IH]; intros x; [left; exists x; reflexivity|]. cbn [fold_left bind]. destruct (lookup x a) as [y|e] eqn:L; [apply IH|]. right. rewrite walk_err. unfold lookup in L. destruct (find _ (subs x)); congruence.
Qed.
Print Assumptions C124_missing.
(** the pathname of every listed system finds it *)
Theorem C124_pathnames : forall root, tree_ok root -> forall t s, In (t, s) (subsystems "" root) -> find_subsystem root t = Ok s.
Proof. intros root T t s H. apply C124_find; [exact T|]. apply C124_list; [exact T|exact H]. Qed.
Print Assumptions C124_pathnames.

(** * C125 *)
Local Open Scope Z_scope.
Lemma dots_dotless : forall s, dotless s -> dots s = 0.
Proof. induction s as [|c s IH]; intros H; [reflexivity|]. destruct H as [Hc H]. cbn. destruct (Ascii.eqb_spec c "."%char) as [->|_]; [exfalso; apply Hc; reflexivity|]. rewrite (IH H). reflexivity. Qed.
Lemma dots_app : forall a b, dots (append a b) = dots a + dots b.
Proof. induction a as [|c a IH]; intros b; [reflexivity|]. cbn [append dots]. rewrite IH. lia. Qed.
Lemma dots_text : forall p, p <> [] -> Forall name_ok p -> dots (text p) = Z.of_nat (length p) - 1.
Proof.
  induction p as [|x p IH]; intros H F; [contradiction|]. inversion F as [|? ? [_ D] F']; subst. cbn [text]. rewrite dots_app, (dots_dotless x D). destruct p as [|y p]; [reflexivity|]. rewrite dots_app, IH by (discriminate || assumption). cbn [dots]. cbn [length]. change (Ascii.eqb "." ".") with true. cbn match. lia.
Qed.
Lemma tell_below_name : forall level depth path x, name (tell_below level depth path x) = name x /\ solvers (tell_below level depth path x) = solvers x.
Proof. intros level depth path [n k l]. split; reflexivity. Qed.
Definition visit (level depth : Z) (full : list string) (y : sys) : sys :=
  let y' := if is_group y then tell_below level depth (text full) y else y in
  if is_group y && (Z.of_nat (length full) <=? depth) then tell_own level y' else y'.
Lemma visit_name : forall level depth full y, name (visit level depth full y) = name y.
Proof.
  intros level depth full [n [[ln nl]|] l]; unfold visit; cbn [is_group solvers andb]; [destruct (Z.of_nat (length full) <=? depth)|]; reflexivity.
Qed.
Lemma visit_subs : forall level depth full y, is_group y = true -> subs (visit level depth full y) = subs (tell_below level depth (text full) y).
Proof.
  intros level depth full [n [[ln nl]|] l] G; [|discriminate]. unfold visit. cbn [is_group solvers andb]. destruct (Z.of_nat (length full) <=? depth); reflexivity.
Qed.
Lemma below_subs : forall level depth x pre, tree_ok x -> Forall name_ok pre -> subs (tell_below level depth (text pre) x) = map (fun y => visit level depth (pre ++ [name y]) y) (subs x).
Proof.
  intros level depth [n k l] pre T F. cbn [tell_below subs]. apply map_ext_in. intros y I. destruct (tree_child (Sys n k l) y T I) as [Ty Ny]. unfold visit. rewrite pathname_text by assumption. rewrite dots_text; [|destruct pre; discriminate|apply Forall_app; split; [exact F|constructor; [exact Ny|constructor]]]. replace (negb (depth <=? Z.of_nat (length (pre ++ [name y])) - 1)) with (Z.of_nat (length (pre ++ [name y])) <=? depth); [reflexivity|]. destruct (Z.leb_spec (Z.of_nat (length (pre ++ [name y]))) depth), (Z.leb_spec depth (Z.of_nat (length (pre ++ [name y])) - 1)); try reflexivity; lia.
Qed.
Lemma visit_reach : forall level depth x p s, reach x p s -> tree_ok x -> forall pre x', Forall name_ok pre -> p <> [] -> subs x' = subs (tell_below level depth (text pre) x) -> reach x' p (visit level depth (pre ++ p) s).
Proof.
  intros level depth x p s R. induction R as [x|x y p z I R IH]; intros T pre x' F P E; [contradiction|]. destruct (tree_child _ _ T I) as [Ty Ny]. rewrite (below_subs level depth x pre T F) in E. rewrite <- (visit_name level depth (pre ++ [name y]) y). econstructor; [rewrite E; apply in_map_iff; exists y; split; [reflexivity|exact I]|]. rewrite visit_name. destruct p as [|a p]; [inversion R; subst; constructor|]. replace (pre ++ name y :: a :: p) with ((pre ++ [name y]) ++ a :: p) by (rewrite <- app_assoc; reflexivity). apply IH; [exact Ty|apply Forall_app; split; [exact F|constructor; [exact Ny|constructor]]|discriminate|].
  apply visit_subs. unfold is_group. destruct (solvers y) eqn:K; [reflexivity|]. destruct (Ty [] y (r_here y)) as (C & _). inversion R as [|x'' w q' z' I' R2 E1 E2]; subst. rewrite (C K) in I'. contradiction.
Qed.
(** Every group down to the depth is told the level, the ones below and the components are left
    alone. *)
Theorem C125_groups : forall level depth root root', tree_ok root -> print_all_convergence true level depth root = Ok root' ->
  forall p n ln nl l, reach root p (Sys n (Some (ln, nl)) l) ->
  exists ln' nl' l', reach root' p (Sys n (Some (ln', nl')) l') /\
    (p = [] \/ Z.of_nat (length p) <= depth -> ln' = tell level ln /\ nl' = tell level nl) /\
    (p <> [] -> depth < Z.of_nat (length p) -> ln' = ln /\ nl' = nl).
Proof.
  intros level depth root root' T E p n ln nl l R. unfold print_all_convergence in E. destruct (valid_level level); [|discriminate]. injection E as <-. destruct p as [|a p].
  - inversion R; subst. do 3 eexists. split; [apply r_here|]. split; [intros _; split; reflexivity|intros H; contradiction].
  - pose proof (visit_reach level depth root (a :: p) _ R T [] (tell_own level (tell_below level depth (text []) root)) (Forall_nil _) ltac:(discriminate)) as V.
    assert (Es : subs (tell_own level (tell_below level depth (text []) root)) = subs (tell_below level depth (text []) root)) by (destruct root as [m [[q r]|] k]; reflexivity). specialize (V Es). change (text []) with ""%string in V. unfold visit in V. cbn [is_group solvers andb] in V. rewrite app_nil_l in V. destruct (Z.leb_spec (Z.of_nat (length (a :: p))) depth) as [L|L].
    + do 3 eexists. split; [exact V|]. split; [intros _; split; reflexivity|intros _ H; exfalso; lia].
    + do 3 eexists. split; [exact V|]. split; [intros [H|H]; [discriminate|exfalso; lia]|intros _ _; split; reflexivity].
Qed.
Print Assumptions C125_groups.
Theorem C125_components : forall level depth root root', tree_ok root -> print_all_convergence true level depth root = Ok root' ->
  forall p s, reach root p s -> solvers s = None -> reach root' p s.
Proof.
  intros level depth root root' T E p s R K. unfold print_all_convergence in E. destruct (valid_level level); [|discriminate]. injection E as <-. destruct p as [|a p].
  - inversion R; subst. destruct (T [] s (r_here s)) as (C & _). specialize (C K). destruct s as [n k l]. cbn in K, C. subst k l. apply r_here.
  - pose proof (visit_reach level depth root (a :: p) _ R T [] (tell_own level (tell_below level depth (text []) root)) (Forall_nil _) ltac:(discriminate)) as V.
    assert (Es : subs (tell_own level (tell_below level depth (text []) root)) = subs (tell_below level depth (text []) root)) by (destruct root as [m [[q r]|] k]; reflexivity). specialize (V Es). change (text []) with ""%string in V. unfold visit, is_group in V. rewrite K in V. exact V.
Qed.
Print Assumptions C125_components.
(** A level that is none of -1, 0, 1, 2 changes nothing, nor does a problem that is not set up. *)
Theorem C125_errors : forall locked level depth root,
  (locked = false -> print_all_convergence locked level depth root = Err RuntimeError) /\
  (locked = true -> ~ -1 <= level <= 2 -> print_all_convergence locked level depth root = Err ValueError) /\
  (locked = true -> -1 <= level <= 2 -> exists root', print_all_convergence locked level depth root = Ok root').
Proof.
  intros locked level depth root. unfold print_all_convergence. split; [intros ->; reflexivity|]. assert (V : valid_level level = true <-> -1 <= level <= 2).
  { unfold valid_level. cbn [existsb]. rewrite !orb_true_iff, !Z.eqb_eq. split; [intros [H|[H|[H|[H|H]]]]; [| | | |discriminate]; lia|lia]. }
  split; intros ->; intros H; [destruct (valid_level level); [exfalso; apply H; apply V; reflexivity|reflexivity]|]. apply V in H. rewrite H. eexists. reflexivity.
Qed.
Print Assumptions C125_errors.
(** A solver that is told has the level everywhere in it ... *)
Theorem C125_solver : forall level s, good s -> heard level s (tell level s).
Proof.
  intros level. assert (A : forall s, alone s -> oheard level s (option_map (touch level) s)).
  { intros [[i|i [p|]|i [a|] [b|]]|] H; cbn in *; try contradiction; repeat constructor. }
  fix IH 1. intros [i|i [p|]|i a b] G; cbn in G |- *; [constructor|constructor; constructor; apply IH; exact G|constructor; constructor|]. destruct G as [Ga Gb]. constructor; apply A; assumption.
Qed.
Print Assumptions C125_solver.
(** ... but for the preconditioner of the linear solver of a Newton solver, which is left alone. *)
Theorem C125_newton_refuted : forall level i j ls p, iprint_of p <> level ->
  ~ heard level (Newton i ls (Some (Krylov j (Some p)))) (tell level (Newton i ls (Some (Krylov j (Some p))))).
Proof.
  intros level i j ls p N H. cbn in H. inversion H as [| |? ? ? ? ? _ H']; subst. inversion H' as [|? ? H2]; subst. inversion H2 as [|? ? ? H3|]; subst. inversion H3 as [|? ? H4]; subst. apply N. destruct p; inversion H4; reflexivity.
Qed.
Print Assumptions C125_newton_refuted.

Definition trv_root : sys := Sys "" (Some (Basic 0, Newton 0 (Some (Basic 0)) None))
  [Sys "p" None []; Sys "g" (Some (Krylov 0 (Some (Basic 0)), Basic 0)) [Sys "h" (Some (Basic 0, Basic 0)) [Sys "c" None []]; Sys "c" None []]].
Lemma trv_root_ok : tree_ok trv_root.
Proof.
  intros p y R. assert (G : forall y, In y [trv_root; Sys "p" None []; Sys "g" (Some (Krylov 0 (Some (Basic 0)), Basic 0)) [Sys "h" (Some (Basic 0, Basic 0)) [Sys "c" None []]; Sys "c" None []]; Sys "h" (Some (Basic 0, Basic 0)) [Sys "c" None []]; Sys "c" None []] -> (solvers y = None -> subs y = []) /\ NoDup (map name (subs y)) /\ Forall name_ok (map name (subs y)) /\ forall z, In z (subs y) -> In z [trv_root; Sys "p" None []; Sys "g" (Some (Krylov 0 (Some (Basic 0)), Basic 0)) [Sys "h" (Some (Basic 0, Basic 0)) [Sys "c" None []]; Sys "c" None []]; Sys "h" (Some (Basic 0, Basic 0)) [Sys "c" None []]; Sys "c" None []]).
  { intros z Z. cbn [In] in Z. repeat destruct Z as [<-|Z]; try contradiction; cbn [solvers subs trv_root map name]; (split; [discriminate || reflexivity|]); (split; [repeat constructor; cbn; intuition discriminate|]); (split; [repeat constructor; cbn; discriminate|]); cbn [In]; intros w W; intuition (subst; auto 10). }
  assert (K : forall x q y, reach x q y -> In x [trv_root; Sys "p" None []; Sys "g" (Some (Krylov 0 (Some (Basic 0)), Basic 0)) [Sys "h" (Some (Basic 0, Basic 0)) [Sys "c" None []]; Sys "c" None []]; Sys "h" (Some (Basic 0, Basic 0)) [Sys "c" None []]; Sys "c" None []] -> (solvers y = None -> subs y = []) /\ NoDup (map name (subs y)) /\ Forall name_ok (map name (subs y))).
  { intros x q z Q. induction Q as [x|x w q z I Q IH]; intros X; [destruct (G x X) as (A & B & C & _); auto|]. apply IH. apply (G x X). exact I. }
  apply (K trv_root p y R). left. reflexivity.
Qed.
Example C124_ex : map fst (subsystems "" trv_root) = ["p"; "g"; "g.h"; "g.h.c"; "g.c"]%string /\ find_subsystem trv_root "g.h.c" = Ok (Sys "c" None []) /\ find_subsystem trv_root "g..c" = Err KeyError /\ find_subsystem trv_root "" = Err KeyError.
Proof. repeat split. Qed.
Example C125_ex : print_all_convergence true 2 1 trv_root = Ok (Sys "" (Some (Basic 2, Newton 2 (Some (Basic 2)) None))
  [Sys "p" None []; Sys "g" (Some (Krylov 2 (Some (Basic 2)), Basic 2)) [Sys "h" (Some (Basic 0, Basic 0)) [Sys "c" None []]; Sys "c" None []]]).
Proof. reflexivity. Qed.
Example C125_ex_newton : tell 2 (Newton 0 None (Some (Krylov 0 (Some (Basic 0))))) = Newton 2 None (Some (Krylov 2 (Some (Basic 0)))).
Proof. reflexivity. Qed.

(** C130: the statistics and the plot of a tree of systems. *)
From Verif Require Import Base BaseFacts PathModel PathSpec PathProofs TrvModel TrvSpec TrvProps StatModel StatSpec.
Local Open Scope list_scope.
Local Open Scope nat_scope.

Lemma fold_count : forall A (l : list A) n, fold_left (fun n _ => S n) l n = n + length l.
Proof. induction l as [|a l IH]; intros n; cbn; [lia|]. rewrite IH. lia. Qed.
Lemma filter_snd : forall (typ : sys -> bool) (l : list (string * sys)), length (filter typ (map snd l)) = length (filter (fun e => typ (snd e)) l).
Proof. intros typ. induction l as [|e l IH]; [reflexivity|]. cbn. destruct (typ (snd e)); cbn; congruence. Qed.
(** Each kind of system is counted exactly, from any system of the tree. *)
Theorem C130_count : forall typ x path, tree_ok x -> count typ path x = number_of typ x.
Proof.
  intros typ x path T. unfold count, listing. rewrite fold_count, app_length, filter_snd. cbn [Nat.add]. revert path T. induction x as [n k l IH] using sys_ind'. intros path T. rewrite Forall_forall in IH. cbn [number_of]. f_equal; [destruct (typ _); reflexivity|]. cbn [subsystems].
  assert (C : forall y, In y l -> tree_ok y) by (intros y I; exact (proj1 (tree_child (Sys n k l) y T I))). clear T. induction l as [|y l IHl]; [reflexivity|]. cbn [flat_map map total fold_right]. rewrite filter_app, app_length. fold (total (map (number_of typ) l)). rewrite IHl; [|intros z I; apply IH; right; exact I|intros z I; apply C; right; exact I]. f_equal.
  rewrite <- (IH y (or_introl eq_refl) (pathname path (name y)) (C y (or_introl eq_refl))). cbn [filter snd]. destruct (is_group y) eqn:G.
  - destruct (typ y); reflexivity.
  - destruct (C y (or_introl eq_refl) [] y (r_here y)) as (K & _). unfold is_group in G. destruct y as [n' [s|] l']; [discriminate G|]. cbn [subs solvers] in K. rewrite (K eq_refl). cbn [filter subsystems flat_map]. destruct (typ _); reflexivity.
Qed.
Print Assumptions C130_count.
Theorem C130_kinds : forall x path, tree_ok x -> num_systems path x = num_groups path x + num_components path x.
Proof.
  intros x path T. unfold num_systems, num_groups, num_components. rewrite !C130_count by exact T. clear T path. induction x as [n k l IH] using sys_ind'. cbn [number_of]. assert (S : total (map (number_of (fun _ => true)) l) = total (map (number_of is_group) l) + total (map (number_of (fun x => negb (is_group x))) l)). { induction IH as [|y l E _ IH]; [reflexivity|]. cbn [map total fold_right]. unfold total in IH. rewrite E, IH. lia. } rewrite S. destruct (is_group (Sys n k l)); cbn [negb]; lia.
Qed.
Print Assumptions C130_kinds.

Lemma most_ge : forall l a, In a l -> a <= most l.
Proof. induction l as [|b l IH]; intros a I; [contradiction|]. cbn. destruct I as [->|I]; [lia|]. specialize (IH a I). unfold most in IH. lia. Qed.
Lemma most_in : forall l, l <> [] -> In (most l) l.
Proof.
  induction l as [|b l IH]; intros H; [contradiction|]. change (most (b :: l)) with (Nat.max b (most l)). destruct l as [|c l]; [left; cbn; lia|]. destruct (Nat.max_spec b (most (c :: l))) as [[_ ->]|[_ ->]]; [right; apply IH; discriminate|left; reflexivity].
Qed.
Lemma height_eq : forall x, subs x <> [] -> height x = S (most (map height (subs x))).
Proof. intros [n k [|y l]] H; [contradiction|reflexivity]. Qed.
Lemma height_bound : forall x p y, reach x p y -> length p + height y <= height x.
Proof.
  intros x p y R. induction R as [x|x w p z I R IH]; [cbn; lia|]. cbn [length]. rewrite (height_eq x) by (intros E; rewrite E in I; contradiction). pose proof (most_ge _ _ (in_map height _ _ I)). lia.
Qed.
Lemma height_leaf : forall x, exists p y, reach x p y /\ subs y = [] /\ length p = height x.
Proof.
  induction x as [n k l IH] using sys_ind'. destruct l as [|y l]; [exists [], (Sys n k []); split; [constructor|split; reflexivity]|]. pose proof (most_in (map height (y :: l))) as M. specialize (M ltac:(discriminate)). apply in_map_iff in M. destruct M as (z & E & I). rewrite Forall_forall in IH. destruct (IH z I) as (p & w & R & L & Ep). exists (name z :: p), w. split; [econstructor; [exact I|exact R]|]. split; [exact L|]. cbn [length]. rewrite Ep, E. reflexivity.
Qed.
Lemma fold_max : forall l n m, fold_left Nat.max l n = m <-> (In m (n :: l) /\ forall a, In a (n :: l) -> a <= m).
Proof.
  intros l n m. assert (F : In (fold_left Nat.max l n) (n :: l) /\ forall a, In a (n :: l) -> a <= fold_left Nat.max l n).
  { revert n. induction l as [|b l IH]; intros n; cbn [fold_left]; [split; [left; reflexivity|intros a [<-|[]]; lia]|]. destruct (IH (Nat.max n b)) as [H1 H2]. split.
    - destruct H1 as [H1|H1]; [|right; right; exact H1]. rewrite <- H1. destruct (Nat.max_spec n b) as [[_ ->]|[_ ->]]; [right; left|left]; reflexivity.
    - intros a [<-|[<-|I]]; [specialize (H2 _ (or_introl eq_refl)); lia|specialize (H2 _ (or_introl eq_refl)); lia|apply H2; right; exact I]. }
  split; [intros <-; exact F|]. intros [H1 H2]. destruct F as [F1 F2]. apply Nat.le_antisymm; [apply H2; exact F1|apply F2; exact H1].
Qed.
(** The depth is that of the tree plus the number of names on the way to the system it starts
    from; a group without subsystems has none. *)
Theorem C130_depth : forall pre x, tree_ok x -> Forall name_ok pre -> tree_depth (text pre) x = if height x =? 0 then Err ValueError else Ok (length pre + height x).
Proof.
  intros pre x T F. unfold tree_depth.
  assert (L : forall m, In m (map (fun e => length (split_dot (fst e))) (filter (fun e => match subs (snd e) with [] => true | _ => false end) (subsystems (text pre) x))) <-> exists p y, p <> [] /\ reach x p y /\ subs y = [] /\ m = length pre + length p).
  { intros m. rewrite in_map_iff. split.
    - intros ([t y] & E & I). apply filter_In in I. destruct I as [I S0]. cbn [fst snd] in *. apply (listed_iff x T pre F) in I. destruct I as (p & Np & R & ->). exists p, y. split; [exact Np|]. split; [exact R|]. split; [destruct (subs y); [reflexivity|discriminate S0]|]. rewrite split_text, app_length in E; [lia| |].
      + intros K. apply app_eq_nil in K. apply Np. apply K.
      + apply Forall_app. split; [exact F|exact (reach_names x p y T R)].
    - intros (p & y & Np & R & S0 & ->). exists (text (pre ++ p), y). split.
      + cbn [fst]. rewrite split_text; [apply app_length| |apply Forall_app; split; [exact F|exact (reach_names x p y T R)]]. intros K. apply app_eq_nil in K. apply Np. apply K.
      + apply filter_In. split; [apply (listed_iff x T pre F); exists p; auto|]. cbn [snd]. rewrite S0. reflexivity. }
  destruct (height_leaf x) as (p0 & y0 & R0 & S0 & E0). destruct (map _ _) as [|m l] eqn:E.
  - destruct (Nat.eqb_spec (height x) 0) as [|Ne]; [reflexivity|]. exfalso. apply (proj2 (L (length pre + height x))). exists p0, y0. split; [intros ->; cbn in E0; congruence|]. auto.
  - destruct (Nat.eqb_spec (height x) 0) as [Z|Ne].
    + exfalso. destruct (proj1 (L m) (or_introl eq_refl)) as (p & y & Np & R & _ & _). pose proof (height_bound x p y R). destruct p; [contradiction|]. cbn in *. lia.
    + f_equal. apply fold_max. split.
      * apply L. exists p0, y0. split; [intros ->; cbn in E0; congruence|]. auto.
      * intros a I. apply L in I. destruct I as (p & y & _ & R & _ & ->). pose proof (height_bound x p y R). lia.
Qed.
Print Assumptions C130_depth.
(** "the depth of the tree starting from root" *)
Theorem C130_depth_refuted : forall pre x, tree_ok x -> Forall name_ok pre -> pre <> [] -> tree_depth (text pre) x <> Ok (height x).
Proof. intros pre x T F N. rewrite (C130_depth pre x T F). destruct (height x =? 0); [discriminate|]. intros E. injection E as E. destruct pre; [contradiction|]. cbn in E. lia. Qed.
Print Assumptions C130_depth_refuted.

Section Dot.
  Context {H : Type} (shape : sys -> H).
  Definition go (path : string) := fix go (i : nat) (l : list sys) : list (line H) :=
    match l with
    | [] => []
    | s :: l => let p := pathname path (name s) in Node p (shape s) (name s) :: Edge path p i :: sys_dot shape p s ++ go (S i) l
    end.
  Lemma dot_eq : forall path n k l, sys_dot shape path (Sys n k l) = go path 0 l.
  Proof. reflexivity. Qed.
  Lemma go_in : forall path e l i, In e (go path i l) <-> exists j s, nth_error l j = Some s /\ (e = Node (pathname path (name s)) (shape s) (name s) \/ e = Edge path (pathname path (name s)) (i + j) \/ In e (sys_dot shape (pathname path (name s)) s)).
  Proof.
    intros path e. induction l as [|s l IH]; intros i; [split; [intros []|intros ([|j] & s & E & _); discriminate E]|]. cbn [go In]. rewrite in_app_iff, IH. split.
    - intros [E|[E|[E|(j & y & E & K)]]]; [exists 0, s; split; [reflexivity|left; symmetry; exact E]|exists 0, s; split; [reflexivity|right; left; rewrite Nat.add_0_r; symmetry; exact E]|exists 0, s; split; [reflexivity|right; right; exact E]|]. exists (S j), y. split; [exact E|]. rewrite Nat.add_succ_r. exact K.
    - intros ([|j] & y & E & K); cbn in E; [injection E as <-; rewrite Nat.add_0_r in K; destruct K as [->|[->|K]]; auto|]. right. right. right. exists j, y. split; [exact E|]. rewrite Nat.add_succ_r in K. exact K.
  Qed.
  (** The file has a node for each system and nothing else, *)
  Lemma dot_nodes : forall x pre, tree_ok x -> Forall name_ok pre -> forall t h lab, In (Node t h lab) (sys_dot shape (text pre) x) <-> exists p y, p <> [] /\ reach x p y /\ t = text (pre ++ p) /\ h = shape y /\ lab = name y.
  Proof.
    induction x as [n k l IH] using sys_ind'. intros pre T F t h lab. rewrite Forall_forall in IH. rewrite dot_eq, go_in. split.
    - intros (j & s & E & K). assert (I : In s l) by exact (nth_error_In _ _ E). destruct (tree_child (Sys n k l) s T I) as [Ts Ns]. rewrite (pathname_text pre (name s) F Ns) in K. destruct K as [K|[K|K]]; [|discriminate K|].
      + injection K as -> -> ->. exists [name s], s. split; [discriminate|]. split; [econstructor; [exact I|constructor]|auto].
      + apply (IH s I) in K; [|exact Ts|apply Forall_app; split; [exact F|constructor; [exact Ns|constructor]]]. destruct K as (p & y & _ & R & -> & -> & ->). exists (name s :: p), y. split; [discriminate|]. split; [econstructor; [exact I|exact R]|]. rewrite <- app_assoc. auto.
    - intros (p & y & Np & R & -> & -> & ->). inversion R as [|? s p' ? I R']; subst; [contradiction|]. cbn [subs] in I. destruct (tree_child (Sys n k l) s T I) as [Ts Ns]. apply In_nth_error in I as J. destruct J as (j & J). exists j, s. split; [exact J|]. rewrite (pathname_text pre (name s) F Ns). inversion R' as [|? s' p'' ? I' R'']; subst.
      + left. reflexivity.
      + right. right. apply (IH s I); [exact Ts|apply Forall_app; split; [exact F|constructor; [exact Ns|constructor]]|]. exists (name s' :: p''), y. split; [discriminate|]. split; [exact R'|]. rewrite <- app_assoc. auto.
  Qed.
  Theorem C130_nodes : forall x pre, tree_ok x -> Forall name_ok pre -> forall t h lab, In (Node t h lab) (system_dot shape (text pre) x) <-> exists p y, reach x p y /\ t = text (pre ++ p) /\ h = shape y /\ lab = name y.
  Proof.
    intros x pre T F t h lab. unfold system_dot. cbn [In]. rewrite (dot_nodes x pre T F). split.
    - intros [E|(p & y & _ & K)]; [injection E as <- <- <-; exists [], x; rewrite app_nil_r; split; [constructor|auto]|exists p, y; exact K].
    - intros (p & y & R & -> & -> & ->). destruct p as [|a p]; [left; inversion R; subst; rewrite app_nil_r; reflexivity|]. right. exists (a :: p), y. split; [discriminate|auto].
  Qed.
  (** and an edge from each system to each of its subsystems, with its place *)
  Theorem C130_edges : forall x pre, tree_ok x -> Forall name_ok pre -> forall a b i, In (Edge a b i) (system_dot shape (text pre) x) <-> exists p y z, reach x p y /\ nth_error (subs y) i = Some z /\ a = text (pre ++ p) /\ b = text (pre ++ p ++ [name z]).
  Proof.
    intros x pre T F a b i. unfold system_dot. cbn [In]. assert (Q : forall q : Prop, (Node (text pre) (shape x) (name x) = Edge a b i \/ q) <-> q) by (intros q; split; [intros [E|E]; [discriminate E|exact E]|auto]). rewrite Q. clear Q. revert pre T F. induction x as [n k l IH] using sys_ind'. intros pre T F. rewrite Forall_forall in IH. rewrite dot_eq, go_in. split.
    - intros (j & s & E & K). assert (I : In s l) by exact (nth_error_In _ _ E). destruct (tree_child (Sys n k l) s T I) as [Ts Ns]. rewrite (pathname_text pre (name s) F Ns) in K. destruct K as [K|[K|K]]; [discriminate K| |].
      + injection K as -> -> ->. exists [], (Sys n k l), s. split; [constructor|]. split; [exact E|]. rewrite app_nil_r. auto.
      + apply (IH s I) in K; [|exact Ts|apply Forall_app; split; [exact F|constructor; [exact Ns|constructor]]]. destruct K as (p & y & z & R & Ez & -> & ->). exists (name s :: p), y, z. split; [econstructor; [exact I|exact R]|]. split; [exact Ez|]. rewrite <- !app_assoc. auto.
    - intros (p & y & z & R & Ez & -> & ->). inversion R as [|? s p' ? I R']; subst.
      + cbn [subs] in Ez. exists i, z. split; [exact Ez|]. right. left. rewrite app_nil_r. cbn [app Nat.add]. rewrite pathname_text; [reflexivity|exact F|exact (proj2 (tree_child (Sys n k l) z T (nth_error_In _ _ Ez)))].
      + cbn [subs] in I. destruct (tree_child (Sys n k l) s T I) as [Ts Ns]. apply In_nth_error in I as J. destruct J as (j & J). exists j, s. split; [exact J|]. right. right. rewrite (pathname_text pre (name s) F Ns). apply (IH s I); [exact Ts|apply Forall_app; split; [exact F|constructor; [exact Ns|constructor]]|]. exists p', y, z. split; [exact R'|]. split; [exact Ez|]. rewrite <- !app_assoc. auto.
  Qed.
  (** one line for each: as many as systems, and as many edges less one *)
  Theorem C130_lines : forall x path, length (system_dot shape path x) + 1 = 2 * number_of (fun _ => true) x.
  Proof.
    intros x path. unfold system_dot. cbn [length]. revert path. induction x as [n k l IH] using sys_ind'. intros path. rewrite dot_eq. cbn [number_of]. assert (G : forall i, length (go path i l) = 2 * total (map (number_of (fun _ => true)) l)); [|rewrite G; lia]. induction IH as [|y l E _ IHl]; intros i; [reflexivity|]. cbn [go length map total fold_right]. rewrite app_length, IHl. specialize (E (pathname path (name y))). unfold total. lia.
  Qed.
End Dot.
Print Assumptions C130_nodes.
Print Assumptions C130_edges.
Print Assumptions C130_lines.

(** a group with a component and a group of two; its depth is two, seen from the inner group
    still two *)
Definition stat_inner : sys := Sys "g" (Some (Basic 0%Z, Basic 0%Z)) [Sys "b" None []; Sys "c" None []].
Definition stat_root : sys := Sys "" (Some (Basic 0%Z, Basic 0%Z)) [Sys "a" None []; stat_inner].
Example C130_ex : num_systems "" stat_root = 5 /\ num_groups "" stat_root = 2 /\ num_components "" stat_root = 3
  /\ tree_depth "" stat_root = Ok 2 /\ tree_depth "g" stat_inner = Ok 2 /\ height stat_inner = 1 /\ tree_depth "" (Sys "" (Some (Basic 0%Z, Basic 0%Z)) []) = Err ValueError
  /\ system_dot is_group "" stat_root = [Node "" true ""; Node "a" false "a"; Edge "" "a" 0; Node "g" true "g"; Edge "" "g" 1; Node "g.b" false "b"; Edge "g" "g.b" 0; Node "g.c" false "c"; Edge "g" "g.c" 1]%string.
Proof. vm_compute. repeat split. Qed.

(** C141: which methods are profiled. *)
From Verif Require Import Base BaseFacts WrpModel WrpSpec.
Local Open Scope string_scope.
Local Open Scope nat_scope.
Local Open Scope list_scope.

Section SysInd.
  Variable P : system -> Prop.
  Hypothesis HC : forall i, P (Comp i).
  Hypothesis HG : forall i ln nl subs, Forall P subs -> P (Group i ln nl subs).
  Fixpoint sys_ind (s : system) : P s :=
    match s with
    | Comp i => HC i
    | Group i ln nl subs => HG i ln nl subs ((fix go l : Forall P l := match l with [] => Forall_nil P | x :: l => Forall_cons x (sys_ind x) (go l) end) subs)
    end.
End SysInd.

Notation cnt o l := (count_occ Nat.eq_dec l o).
Lemma subsystems_all : forall s, subsystems s = all_systems s.
Proof.
  unfold subsystems. apply sys_ind; [reflexivity|]. intros i ln nl subs H. cbn [below all_systems]. f_equal. induction H as [|s subs E H IH]; [reflexivity|]. cbn [flat_map]. rewrite IH, <- E. reflexivity.
Qed.
Lemma all_within : forall r s, In s (all_systems r) <-> within s r.
Proof.
  intros r s. split.
  - revert s. induction r as [i|i ln nl subs H] using sys_ind; intros s J; cbn [all_systems] in J.
    + destruct J as [<-|[]]. constructor.
    + destruct J as [<-|J]; [constructor|]. apply in_flat_map in J. destruct J as (sub & Js & J). rewrite Forall_forall in H. exact (W_sub s sub i ln nl subs Js (H sub Js s J)).
  - intros W. induction W as [s|s sub i ln nl subs J W IH]; [destruct s; left; reflexivity|]. right. apply in_flat_map. exists sub. split; assumption.
Qed.
Lemma cnt_visit : forall o L, cnt o (flat_map visit L) =
  cnt o (map id_of L) + cnt o (map solver_id (flat_map (fun s => match s with Comp _ => [] | Group _ ln nl _ => [ln; nl] end) L))
  + cnt o (flat_map (fun v => match v with Solver _ (Some m) _ => [m] | _ => [] end) (flat_map (fun s => match s with Comp _ => [] | Group _ ln nl _ => [ln; nl] end) L)).
Proof.
  intros o L. induction L as [|s L IH]; [reflexivity|]. cbn [flat_map map]. rewrite map_app, flat_map_app, !count_occ_app, IH. destruct s as [i|i ln nl subs].
  - cbn [visit id_of map flat_map count_occ]. destruct (Nat.eq_dec i o); lia.
  - cbn [visit id_of map flat_map]. change ((i :: map id_of L)) with ([i] ++ map id_of L). change ([i; solver_id ln; solver_id nl]) with ([i] ++ [solver_id ln; solver_id nl]). rewrite app_nil_r, !count_occ_app. unfold manager_of.
    destruct ln as [a [x|] ia], nl as [b [y|] ib]; cbn [solver_id]; rewrite ?app_nil_r; rewrite ?count_occ_app; cbn [count_occ]; lia.
Qed.
Lemma cnt_objs : forall t objs o, obj_iter t = Ok objs -> cnt o objs = cnt o (places t).
Proof.
  assert (K : forall a b : list nat, Ok a = Ok b -> b = a) by congruence. intros [p d m r|r|] objs o E; cbn [obj_iter] in E; [| |discriminate E]; apply K in E; rewrite E, subsystems_all.
  - unfold places. cbn [app]. rewrite !app_comm_cons, !count_occ_app, cnt_visit. unfold all_solvers. lia.
  - unfold places, all_solvers. rewrite cnt_visit, !count_occ_app. lia.
Qed.
Lemma part_places : forall t o, part t o <-> In o (places t).
Proof.
  assert (T : forall r v, In v (all_solvers r) <-> exists s, within s r /\ solver_of v s).
  { intros r v. unfold all_solvers. rewrite in_flat_map. split; intros (s & A & B); exists s; [apply all_within in A|apply all_within in A]; (split; [exact A|]); destruct s; cbn in *; intuition. }
  assert (M : forall m v, In m (match v with Solver _ (Some m) _ => [m] | _ => [] end) <-> manages m v). { intros m [i [x|] inn]; cbn; split; intros H; [destruct H as [->|[]]; reflexivity|injection H as ->; left; reflexivity|destruct H|discriminate H]. }
  assert (R : forall r o, In o (map id_of (all_systems r) ++ map solver_id (all_solvers r) ++ flat_map (fun v => match v with Solver _ (Some m) _ => [m] | _ => [] end) (all_solvers r))
     <-> (exists s, within s r /\ o = id_of s) \/ (exists s v, within s r /\ solver_of v s /\ o = solver_id v) \/ (exists s v, within s r /\ solver_of v s /\ manages o v)).
  { intros r o. rewrite !in_app_iff, !in_map_iff, in_flat_map. split.
    - intros [(s & <- & J)|[(v & <- & J)|(v & J & K)]]; [left; exists s; split; [apply all_within; exact J|reflexivity]|right; left|right; right]; apply T in J; destruct J as (s & A & B); exists s, v; (split; [exact A|split; [exact B|]]); [reflexivity|apply M; exact K].
    - intros [(s & A & ->)|[(s & v & A & B & ->)|(s & v & A & B & C)]]; [left; exists s; split; [reflexivity|apply all_within; exact A]|right; left; exists v; split; [reflexivity|apply T; exists s; split; assumption]|right; right; exists v; split; [apply T; exists s; split; assumption|apply M; exact C]]. }
  intros t o. split.
  - intros [d m r ->|p m r ->|p d r ->|r s H A B|r s v H A B C|r s v H A B C].
    + left. reflexivity.
    + right. left. reflexivity.
    + right. right. left. reflexivity.
    + assert (X := proj2 (R r o) (or_introl (ex_intro _ s (conj A B)))). destruct t as [p d m r'|r'|]; cbn in H; [subst r'|subst r'|destruct H]; [right; right; apply in_or_app; right; exact X|exact X].
    + assert (X := proj2 (R r o) (or_intror (or_introl (ex_intro _ s (ex_intro _ v (conj A (conj B C))))))). destruct t as [p d m r'|r'|]; cbn in H; [subst r'|subst r'|destruct H]; [right; right; apply in_or_app; right; exact X|exact X].
    + assert (X := proj2 (R r o) (or_intror (or_intror (ex_intro _ s (ex_intro _ v (conj A (conj B C))))))). destruct t as [p d m r'|r'|]; cbn in H; [subst r'|subst r'|destruct H]; [right; right; apply in_or_app; right; exact X|exact X].
  - assert (Y : forall r, root_of t r -> In o (map id_of (all_systems r) ++ map solver_id (all_solvers r) ++ flat_map (fun v => match v with Solver _ (Some m) _ => [m] | _ => [] end) (all_solvers r)) -> part t o).
    { intros r H J. apply R in J. destruct J as [(s & A & B)|[(s & v & A & B & C)|(s & v & A & B & C)]]; [exact (P_system t o r s H A B)|exact (P_solver t o r s v H A B C)|exact (P_smanager t o r s v H A B C)]. }
    destruct t as [p d m r|r|]; cbn [places].
    + intros [<-|[<-|J]]; [exact (P_problem _ _ d m r eq_refl)|exact (P_driver _ _ p m r eq_refl)|]. apply in_app_or in J. destruct J as [J|J]; [destruct m as [m|]; [destruct J as [<-|[]]; exact (P_manager _ _ p d r eq_refl)|destruct J]|exact (Y r eq_refl J)].
    + exact (Y r eq_refl).
    + intros [].
Qed.

Section Facts.
  Variable cls : Type.
  Variable isa : nat -> cls -> bool.
  Variable has : nat -> string -> bool.
  Notation wrap_obj := (wrap_obj cls isa has).
  Notation setup := (setup cls isa has).
  Notation wanted := (wanted isa has).
  Definition hits (methods : list (string * list cls)) (o : nat) (m : string) : nat := length (filter (fun mc => existsb (isa o) (snd mc) && has o (fst mc) && String.eqb m (fst mc)) methods).

  Lemma wrap_obj_cnt : forall methods o w o' m, wrap_obj methods w o o' m = w o' m + (if o' =? o then hits methods o m else 0).
  Proof.
    unfold WrpModel.wrap_obj, hits. induction methods as [|[k cs] methods IH]; intros o w o' m; cbn [fold_left]; [cbn; destruct (o' =? o); lia|]. rewrite IH. cbn [filter fst snd]. destruct (existsb (isa o) cs && has o k); cbn [andb]; [|reflexivity]. unfold wrap. destruct (o' =? o); cbn [andb]; [|lia]. destruct (String.eqb m k); cbn [length]; lia.
  Qed.
  Lemma wrap_methods_cnt : forall objs methods w o m, wrap_methods cls isa has objs methods w o m = w o m + cnt o objs * hits methods o m.
  Proof.
    unfold wrap_methods. induction objs as [|x objs IH]; intros methods w o m; cbn [fold_left count_occ]; [lia|]. rewrite IH, wrap_obj_cnt. destruct (Nat.eq_dec x o) as [->|N]; [rewrite Nat.eqb_refl; lia|]. destruct (Nat.eqb_spec o x); [congruence|]. lia.
  Qed.
  Lemma hits_0 : forall methods o m, ~ wanted methods o m -> hits methods o m = 0.
  Proof.
    intros methods o m N. unfold hits. rewrite (proj2 (length_zero_iff_nil _)); [reflexivity|]. destruct (filter _ methods) as [|[k cs] l] eqn:E; [reflexivity|]. exfalso. assert (J : In (k, cs) ((k, cs) :: l)) by (left; reflexivity). rewrite <- E in J. apply filter_In in J. destruct J as (J & H). cbn [fst snd] in H. apply andb_true_iff in H. destruct H as (H & H3). apply andb_true_iff in H. destruct H as (H1 & H2). apply String.eqb_eq in H3. subst k. apply existsb_exists in H1. destruct H1 as (c & Jc & Hc). apply N. split; [exists cs, c; repeat split; assumption|exact H2].
  Qed.
  Lemma hits_1 : forall methods o m, NoDup (map fst methods) -> wanted methods o m -> hits methods o m = 1.
  Proof.
    intros methods o m D ((cs & c & J & Jc & Hc) & H). unfold hits. induction methods as [|[k cs'] methods IH]; [destruct J|]. cbn [map fst] in D. inversion D as [|k' l' N D' E1]; subst. cbn [filter fst snd]. destruct J as [E|J].
    - injection E as -> ->. rewrite H, String.eqb_refl. rewrite (proj2 (existsb_exists (isa o) cs) (ex_intro _ c (conj Jc Hc))). cbn [andb length]. f_equal. rewrite (proj2 (length_zero_iff_nil _)); [reflexivity|]. destruct (filter _ methods) as [|[k cs''] l] eqn:E; [reflexivity|]. exfalso. assert (X : In (k, cs'') ((k, cs'') :: l)) by (left; reflexivity). rewrite <- E in X. apply filter_In in X. destruct X as (X & Y). apply andb_true_iff in Y. destruct Y as (_ & Y). apply String.eqb_eq in Y. cbn in Y. subst k. apply N. exact (in_map fst _ _ X).
    - destruct (String.eqb_spec m k) as [->|_]; [exfalso; apply N; exact (in_map fst _ _ J)|]. rewrite andb_false_r. exact (IH D' J).
  Qed.
  Lemma setup_cnt : forall methods t s s', setup true methods t s = (s', Ok tt) -> forall o m, wrapped s' o m = wrapped s o m + cnt o (places t) * hits methods o m.
  Proof.
    intros methods t s s' E o m. unfold WrpModel.setup in E. destruct (is_setup s); [discriminate E|]. destruct (obj_iter t) as [objs|] eqn:I; [|discriminate E]. injection E as <-. cbn [wrapped]. rewrite wrap_methods_cnt, (cnt_objs t objs o I). reflexivity.
  Qed.
  (** For any problem or system the first setup succeeds, and every wanted method of every part of
      the model gets a wrapper, exactly one when no object is at two places. *)
  Theorem C141_all : forall methods t s, is_setup s = false -> t <> Other -> NoDup (map fst methods) -> exists s', setup true methods t s = (s', Ok tt) /\ is_setup s' = true
    /\ forall o m, part t o -> wanted methods o m -> wrapped s' o m > wrapped s o m /\ (NoDup (places t) -> wrapped s' o m = S (wrapped s o m)).
  Proof.
    intros methods t s S0 T D. assert (X : exists s', setup true methods t s = (s', Ok tt) /\ is_setup s' = true). { unfold WrpModel.setup. rewrite S0. destruct t; [| |contradiction]; cbn [obj_iter]; eexists; split; reflexivity. }
    destruct X as (s' & E & S1). exists s'. split; [exact E|]. split; [exact S1|]. intros o m P W. pose proof (setup_cnt methods t s s' E o m) as C. rewrite (hits_1 methods o m D W), Nat.mul_1_r in C. apply part_places in P. assert (K := proj1 (count_occ_In Nat.eq_dec _ _) P). split; [lia|]. intros N. pose proof (proj1 (NoDup_count_occ Nat.eq_dec _) N o) as L. lia.
  Qed.
  (** Nothing else is touched. *)
  Theorem C141_only : forall can_open methods t s s' r o m, setup can_open methods t s = (s', r) -> ~ (part t o /\ wanted methods o m) -> wrapped s' o m = wrapped s o m.
  Proof.
    intros can_open methods t s s' r o m E N. unfold WrpModel.setup in E. destruct (is_setup s); [injection E as <- _; reflexivity|]. destruct can_open; [|injection E as <- _; reflexivity]. destruct (obj_iter t) as [objs|] eqn:I; [|injection E as <- _; reflexivity]. injection E as <- _. cbn [wrapped]. rewrite wrap_methods_cnt, (cnt_objs t objs o I).
    destruct (in_dec Nat.eq_dec o (places t)) as [J|J]; [|rewrite (proj1 (count_occ_not_In Nat.eq_dec _ _) J); lia]. rewrite hits_0; [lia|]. intros W. apply N. split; [apply part_places; exact J|exact W].
  Qed.
  (** But a solver given to two groups is wrapped twice, *)
  Theorem C141_shared_refuted : forall methods t s s' o m a b c, NoDup (map fst methods) -> setup true methods t s = (s', Ok tt) -> wanted methods o m -> places t = a ++ o :: b ++ o :: c -> wrapped s' o m >= wrapped s o m + 2.
  Proof.
    intros methods t s s' o m a b c D E W P. rewrite (setup_cnt methods t s s' E o m), (hits_1 methods o m D W), P. rewrite count_occ_app. cbn [count_occ]. destruct (Nat.eq_dec o o) as [_|N]; [|contradiction]. rewrite count_occ_app. cbn [count_occ]. destruct (Nat.eq_dec o o) as [_|N]; [|contradiction]. lia.
  Qed.
  (** and after a setup that failed no other is possible. *)
  Theorem C141_retry_refuted : forall can_open methods t s s' e, setup can_open methods t s = (s', Err e) -> forall can_open' methods' t', setup can_open' methods' t' s' = (s', Err RuntimeError).
  Proof.
    intros can_open methods t s s' e E can_open' methods' t'. assert (S1 : is_setup s' = true). { unfold WrpModel.setup in E. destruct (is_setup s) eqn:S0; [injection E as <- _; exact S0|]. destruct can_open; [|injection E as <- _; reflexivity]. destruct (obj_iter t); [discriminate E|injection E as <- _; reflexivity]. }
    unfold WrpModel.setup. rewrite S1. reflexivity.
  Qed.
End Facts.
(** Nor is a solver that another solver holds, such as a preconditioner, profiled. *)
Theorem C141_inner_refuted : exists t v inner, t = STop (Group 0 (Solver 1 None [v]) (Solver 2 None []) [Comp 4]) /\ v = Solver 3 None inner
  /\ forall (cls : Type) isa has methods s s' r m, setup cls isa has true methods t s = (s', r) -> wrapped s' (solver_id v) m = wrapped s (solver_id v) m.
Proof.
  exists (STop (Group 0 (Solver 1 None [Solver 3 None []]) (Solver 2 None []) [Comp 4])), (Solver 3 None []), []. split; [reflexivity|]. split; [reflexivity|]. intros cls isa has methods s s' r m E. apply (C141_only cls isa has true methods _ s s' r 3 m E). intros (P & _). apply part_places in P. cbn in P. intuition discriminate.
Qed.
Print Assumptions C141_all.
Print Assumptions C141_only.
Print Assumptions C141_shared_refuted.
Print Assumptions C141_retry_refuted.
Print Assumptions C141_inner_refuted.

(** objects below 10 are systems, others solvers *)
Definition wrp_isa (o : nat) (c : bool) : bool := Bool.eqb c (o <? 10).
Definition wrp_methods := [("solve_linear", [true]); ("solve", [false])].
Definition wrp_top (second : nat) := STop (Group 0 (Solver 10 None []) (Solver 11 None []) [Comp 1; Group 2 (Solver second None []) (Solver 13 None []) []]).
Definition wrp_run (second : nat) := setup bool wrp_isa (fun _ _ => true) true wrp_methods (wrp_top second) (mkP false (fun _ _ => 0)).
Example C141_ex : NoDup (places (wrp_top 12)) /\ NoDup (map fst wrp_methods) /\ wanted wrp_isa (fun _ _ => true) wrp_methods 12 "solve"
  /\ map (fun o => wrapped (fst (wrp_run 12)) o "solve") [10; 11; 12; 13; 0] = [1; 1; 1; 1; 0] /\ map (fun o => wrapped (fst (wrp_run 12)) o "solve_linear") [0; 1; 2; 10] = [1; 1; 1; 0]
  /\ wrapped (fst (wrp_run 10)) 10 "solve" = 2 /\ places (wrp_top 10) = [0; 1; 2] ++ 10 :: [11] ++ 10 :: [13]
  /\ snd (setup bool wrp_isa (fun _ _ => true) true wrp_methods Other (mkP false (fun _ _ => 0))) = Err TypeError.
Proof.
  split; [repeat constructor; cbn; intuition discriminate|]. split; [repeat constructor; cbn; intuition discriminate|]. split; [split; [exists [false], false; cbn; intuition|reflexivity]|]. repeat split; reflexivity.
Qed.

(** Lemmas about the load balanced design of experiments. *)
From Coq Require Import Permutation.
From Verif Require Import Base BaseFacts PermSolve EvalSpec EvalProofs BalModel BalSpec.
Local Open Scope nat_scope.

(** ** lists with positions *)
Fixpoint fmi {X Y} (f : nat -> X -> list Y) (k : nat) (l : list X) : list Y := match l with [] => [] | x :: l => f k x ++ fmi f (S k) l end.
Lemma fmi_app : forall X Y (f : nat -> X -> list Y) a k b, fmi f k (a ++ b) = fmi f k a ++ fmi f (k + length a) b.
Proof. intros X Y f. induction a as [|x a IH]; intros k b; cbn; [rewrite Nat.add_0_r; reflexivity|]. rewrite IH, app_assoc. replace (S k + length a) with (k + S (length a)) by lia. reflexivity. Qed.
Lemma fmi_mid : forall X Y (f : nat -> X -> list Y) pre x post, fmi f 0 (pre ++ x :: post) = fmi f 0 pre ++ f (length pre) x ++ fmi f (S (length pre)) post.
Proof. intros. rewrite fmi_app. reflexivity. Qed.
Lemma fmi_nil : forall X Y (f : nat -> X -> list Y) l k, (forall j x, nth_error l j = Some x -> f (k + j) x = []) -> fmi f k l = [].
Proof.
  intros X Y f. induction l as [|x l IH]; intros k H; [reflexivity|]. cbn. pose proof (H 0 x eq_refl) as H0. rewrite Nat.add_0_r in H0. rewrite H0. apply IH. intros j y Hj. replace (S k + j) with (k + S j) by lia. apply H. exact Hj.
Qed.
Lemma fmi_nil_inv : forall X Y (f : nat -> X -> list Y) l k, fmi f k l = [] -> forall j x, nth_error l j = Some x -> f (k + j) x = [].
Proof.
  intros X Y f. induction l as [|y l IH]; intros k H j x Hj; [destruct j; discriminate|]. cbn in H. apply app_eq_nil in H. destruct H as [H1 H2]. destruct j as [|j]; cbn in Hj; [injection Hj as ->; rewrite Nat.add_0_r; exact H1|]. replace (k + S j) with (S k + j) by lia. apply IH; assumption.
Qed.
Lemma fmi_in : forall X Y (f : nat -> X -> list Y) l k y, In y (fmi f k l) -> exists j x, nth_error l j = Some x /\ In y (f (k + j) x).
Proof.
  intros X Y f. induction l as [|x l IH]; intros k y H; [destruct H|]. cbn in H. apply in_app_or in H. destruct H as [H|H]; [exists 0, x; rewrite Nat.add_0_r; auto|]. destruct (IH _ _ H) as (j & z & Hj & Hz). exists (S j), z. replace (k + S j) with (S k + j) by lia. auto.
Qed.
Lemma in_fmi : forall X Y (f : nat -> X -> list Y) l k y j x, nth_error l j = Some x -> In y (f (k + j) x) -> In y (fmi f k l).
Proof.
  intros X Y f. induction l as [|z l IH]; intros k y j x Hj H; [destruct j; discriminate|]. cbn. apply in_or_app. destruct j as [|j]; cbn in Hj; [injection Hj as ->; rewrite Nat.add_0_r in H; left; exact H|]. right. replace (k + S j) with (S k + j) in H by lia. eapply IH; eassumption.
Qed.
Definition alli {X} (P : nat -> X -> Prop) (l : list X) : Prop := forall j x, nth_error l j = Some x -> P j x.
Lemma alli_mid : forall X (P : nat -> X -> Prop) pre x post, alli P (pre ++ x :: post) <-> alli P pre /\ P (length pre) x /\ alli (fun j => P (S (length pre) + j)) post.
Proof.
  intros X P pre x post. split.
  - intros H. split; [|split].
    + intros j y Hj. apply H. rewrite nth_error_app1; [exact Hj|]. apply nth_error_Some. congruence.
    + apply H. rewrite nth_error_app2, Nat.sub_diag by lia. reflexivity.
    + intros j y Hj. apply H. rewrite nth_error_app2 by lia. replace (S (length pre) + j - length pre) with (S j) by lia. exact Hj.
  - intros (H1 & H2 & H3) j y Hj. destruct (lt_eq_lt_dec j (length pre)) as [[L|E]|L].
    + apply H1. rewrite nth_error_app1 in Hj by exact L. exact Hj.
    + subst. rewrite nth_error_app2, Nat.sub_diag in Hj by lia. injection Hj as <-. exact H2.
    + rewrite nth_error_app2 in Hj by lia. replace (j - length pre) with (S (j - S (length pre))) in Hj by lia. cbn in Hj. apply H3 in Hj. replace (S (length pre) + (j - S (length pre))) with j in Hj by lia. exact Hj.
Qed.
Lemma alli_put : forall X (P : nat -> X -> Prop) pre x y post, alli P (pre ++ x :: post) -> P (length pre) y -> alli P (pre ++ y :: post).
Proof. intros X P pre x y post H K. apply alli_mid in H. apply alli_mid. destruct H as (H1 & _ & H3). auto. Qed.
Lemma alli_forall : forall X (P : X -> Prop) l, alli (fun _ => P) l <-> Forall P l.
Proof.
  intros X P l. split; intros H; [apply Forall_forall; intros x Hx; apply In_nth_error in Hx; destruct Hx as (j & Hj); exact (H _ _ Hj)|]. intros j x Hj. rewrite Forall_forall in H. apply H. eapply nth_error_In. exact Hj.
Qed.
Lemma sum_app_mid : forall X (f : X -> nat) pre x post, list_sum (map f (pre ++ x :: post)) = list_sum (map f pre) + f x + list_sum (map f post).
Proof. intros. rewrite map_app, list_sum_app. unfold list_sum at 2. cbn. unfold list_sum. lia. Qed.

Section Upd.
  Context {V : Type}.
  Lemma upd_cases : forall u (d : list (string * V)) x v, dget String.eqb (upd d u) x = Some v -> In (x, v) u \/ (~ In x (map fst u) /\ dget String.eqb d x = Some v).
  Proof.
    unfold upd. induction u as [|[y w] u IH]; intros d x v H; cbn in H; [right; split; [intros []|exact H]|].
    destruct (IH _ _ _ H) as [K|[K1 K2]]; [left; right; exact K|]. rewrite (dget_dset String.eqb String.eqb_eq) in K2. destruct (String.eqb x y) eqn:E.
    - apply String.eqb_eq in E. subst y. injection K2 as ->. left. left. reflexivity.
    - right. split; [|exact K2]. cbn. intros [K|K]; [subst y; rewrite String.eqb_refl in E; discriminate|contradiction].
  Qed.
  Lemma upd_keeps : forall u (d : list (string * V)) x, dget String.eqb d x <> None -> dget String.eqb (upd d u) x <> None.
  Proof.
    unfold upd. induction u as [|[y w] u IH]; intros d x H; [exact H|]. cbn. apply IH. rewrite (dget_dset String.eqb String.eqb_eq). destruct (String.eqb x y); [discriminate|exact H].
  Qed.
  Lemma upd_has : forall u (d : list (string * V)) x, In x (map fst u) -> dget String.eqb (upd d u) x <> None.
  Proof.
    unfold upd. induction u as [|[y w] u IH]; intros d x H; [destruct H|]. destruct H as [H|H]; [|cbn; apply IH; exact H]. cbn in H. subst y. cbn. apply (upd_keeps u). rewrite (dget_dset String.eqb String.eqb_eq), String.eqb_refl. discriminate.
  Qed.
End Upd.

Section Bal.
  Variables C V : Type.
  Variable ev : C -> nat * nat -> result V -> Prop.
  Variable vars : nat * nat -> list string.
  Hypothesis names : forall c kj r, ev c kj r -> forall x, In x (map fst (rdata r)) <-> In x (vars kj).
  Notation worker := (worker C V).
  Notation group := (group C V).
  Notation st := (st C V).

  Definition load (w : worker) : nat := length (win w) + match wst w with Busy _ => 1 | _ => 0 end + length (wout w).
  Definition active1 (i : nat) (w : worker) : list nat := if load w =? 0 then [] else [i].
  Notation active := (fmi active1 0).
  Definition ans1 (i : nat) (w : worker) : list (nat * result V) := map (pair i) (wout w).
  Notation ans := (fmi ans1 0).
  Definition fresh (w : worker) : Prop := w = mkW [] Idle [].
  Definition holds (c : C) (k j : nat) (w : worker) : Prop := w = mkW [Some c] Idle [] \/ w = mkW [] (Busy c) [] \/ exists r, ev c (k, j) r /\ w = mkW [] Idle [r].
  Definition known (d : list (string * V)) (k n : nat) : Prop := forall x v, dget String.eqb d x = Some v -> exists j, j < n /\ In x (vars (k, j)).
  Definition g_idle (k : nat) (G : group) : Prop := count (ginfo G) = 0 /\ Forall fresh (procs G) /\ known (data (ginfo G)) k (length (procs G)).
  Record g_prog (k : nat) (c : C) (G : group) : Prop := {
    p_cur : cur (ginfo G) = Some c;
    p_count : count (ginfo G) = length (active (procs G));
    p_procs : alli (fun j w => fresh w \/ holds c k j w) (procs G);
    p_got : forall j r, In (j, r) (got (ginfo G)) -> ev c (k, j) r;
    p_perm : Permutation (map fst (got (ginfo G)) ++ active (procs G)) (seq 0 (length (procs G)));
    p_term : (term (ginfo G) =? 0) = forallb (fun jr => rterm (snd jr) =? 0) (got (ginfo G));
    p_succ : success (ginfo G) = forallb (fun jr => rsucc (snd jr)) (got (ginfo G));
    p_msg : success (ginfo G) = false -> exists j r, In (j, r) (got (ginfo G)) /\ rsucc r = false /\ msg (ginfo G) = rmsg r;
    p_data : forall x v, dget String.eqb (data (ginfo G)) x = Some v -> (exists j r, In (j, r) (got (ginfo G)) /\ In (x, v) (rdata r)) \/ exists j, In j (active (procs G)) /\ In x (vars (k, j));
    p_has : forall j r x, In (j, r) (got (ginfo G)) -> In x (map fst (rdata r)) -> dget String.eqb (data (ginfo G)) x <> None }.
  Definition g_busy (k : nat) (c : C) (G : group) : Prop := g_prog k c G /\ 0 < count (ginfo G).
  Definition g_ok (k : nat) (G : group) : Prop := g_idle k G \/ exists c, g_busy k c G.

  Lemma fresh_load : forall w c k j, fresh w \/ holds c k j w -> (load w = 0 <-> fresh w).
  Proof. intros w c k j [ ->|[ ->|[ ->|(r & _ & ->)]]]; cbn; split; try reflexivity; try discriminate; intros H; discriminate. Qed.
  Lemma active_nil : forall c k ps, alli (fun j w => fresh w \/ holds c k j w) ps -> active ps = [] -> Forall fresh ps.
  Proof.
    intros c k ps H E. apply alli_forall. intros j w Hj. pose proof (fmi_nil_inv _ _ _ _ _ E j w Hj) as K. unfold active1 in K. cbn in K. apply (fresh_load w c k j (H _ _ Hj)). destruct (load w); [reflexivity|discriminate].
  Qed.
  Lemma fresh_active : forall ps, Forall fresh ps -> active ps = [].
  Proof. intros ps H. apply fmi_nil. intros j w Hj. apply alli_forall in H. rewrite (H _ _ Hj). reflexivity. Qed.
  Lemma fresh_ans : forall ps, Forall fresh ps -> ans ps = [].
  Proof. intros ps H. apply fmi_nil. intros j w Hj. apply alli_forall in H. rewrite (H _ _ Hj). reflexivity. Qed.

  (** ** sending a case to a group *)
  Lemma pushed_active : forall c ps k, Forall fresh ps -> fmi active1 k (map (push (Some c)) ps) = seq k (length ps).
  Proof. intros c ps k H. revert k. induction H as [|w ps F H IH]; intros k; [reflexivity|]. cbn. rewrite F, IH. reflexivity. Qed.
  Lemma deal_busy : forall k c G, g_idle k G -> term (ginfo G) = 0 -> success (ginfo G) = true -> procs G <> [] -> g_busy k c (deal c G).
  Proof.
    intros k c G (H1 & H2 & H3) T S N. assert (A : active (procs (deal c G)) = seq 0 (length (procs G))) by (cbn; apply pushed_active; exact H2). split; [|cbn; destruct (procs G); [congruence|]; cbn; lia].
    constructor; rewrite ?A; cbn [deal ginfo procs cur got count term success msg data].
    - reflexivity.
    - rewrite H1, seq_length. reflexivity.
    - intros j w Hj. rewrite nth_error_map in Hj. destruct (nth_error (procs G) j) as [w'|] eqn:E; [|discriminate]. injection Hj as <-. apply alli_forall in H2. rewrite (H2 _ _ E). right. left. reflexivity.
    - intros j r [].
    - rewrite map_length. reflexivity.
    - rewrite T. reflexivity.
    - exact S.
    - congruence.
    - intros x v E. right. destruct (H3 _ _ E) as (j & J1 & J2). exists j. split; [apply in_seq; lia|exact J2].
    - intros j r x [].
  Qed.

  (** ** a message from member j *)
  Lemma absorb_prog : forall k c i p1 q p r o p2, g_prog k c (mkG i (p1 ++ mkW q p (r :: o) :: p2)) ->
      q = [] /\ p = Idle /\ o = [] /\ ev c (k, length p1) r /\ g_prog k c (mkG (absorb i (length p1) r) (p1 ++ mkW q p o :: p2)).
  Proof.
    intros k c i p1 q p r o p2 [P1 P2 P3 P4 P5 P6 P7 P8 P9 P10]. cbn [ginfo procs] in *. pose proof P3 as P3'. apply alli_mid in P3'. destruct P3' as (PA & [F|H] & PB); [discriminate|].
    assert (K : q = [] /\ p = Idle /\ o = [] /\ ev c (k, length p1) r) by (destruct H as [H|[H|(r' & H & E)]]; [discriminate|discriminate|]; injection E as -> -> -> ->; auto). destruct K as (-> & -> & -> & E).
    split; [reflexivity|]. split; [reflexivity|]. split; [reflexivity|]. split; [exact E|].
    rewrite fmi_mid in *. cbn [active1 load win wst wout length Nat.add Nat.eqb] in *.
    constructor; cbn [ginfo procs absorb cur got count term success msg data]; rewrite ?fmi_mid; cbn [active1 load win wst wout length Nat.add Nat.eqb app].
    - exact P1.
    - rewrite P2, !app_length. cbn. lia.
    - eapply alli_put; [exact P3|]. left. reflexivity.
    - intros j s Hj. apply in_app_or in Hj. destruct Hj as [Hj|[Hj|[]]]; [apply P4; exact Hj|]. injection Hj as <- <-. exact E.
    - rewrite map_app. cbn [map fst]. rewrite !app_length in *. cbn [length] in *. rewrite <- P5. perm.
    - rewrite forallb_app. cbn. rewrite andb_true_r, <- P6. destruct (term i), (rterm r); reflexivity.
    - rewrite forallb_app. cbn. rewrite andb_true_r, <- P7. reflexivity.
    - intros F. destruct (success i) eqn:Si; cbn in F.
      + exists (length p1), r. split; [apply in_or_app; right; left; reflexivity|]. auto.
      + destruct (P8 eq_refl) as (j & s & J1 & J2). exists j, s. split; [apply in_or_app; left; exact J1|exact J2].
    - intros x v D. apply upd_cases in D. destruct D as [D|[D1 D2]].
      + left. exists (length p1), r. split; [apply in_or_app; right; left; reflexivity|exact D].
      + destruct (P9 _ _ D2) as [(j & s & J1 & J2)|(j & J1 & J2)]; [left; exists j, s; split; [apply in_or_app; left; exact J1|exact J2]|]. right. exists j. split; [|exact J2]. apply in_app_or in J1. apply in_or_app. destruct J1 as [J1|[J1|J1]]; [left; exact J1| |right; exact J1]. exfalso. subst j. apply D1. apply (names _ _ _ E). exact J2.
    - intros j s x Hj Hx. apply in_app_or in Hj. destruct Hj as [Hj|[Hj|[]]]; [apply upd_keeps; eapply P10; eassumption|]. injection Hj as <- <-. apply upd_has. exact Hx.
  Qed.
  (** the case is complete *)
  Lemma complete : forall k c G sizes, g_prog k c G -> count (ginfo G) = 0 -> nth_error sizes k = Some (length (procs G)) ->
      g_idle k G /\ ran_by_group ev sizes (c, k, got (ginfo G)) /\ (nonfatal (c, k, got (ginfo G)) = true <-> term (ginfo G) = 0) /\ recorded_as (c, k, got (ginfo G)) (entry_of (ginfo G)).
  Proof.
    intros k c G sizes [P1 P2 P3 P4 P5 P6 P7 P8 P9 P10] Z N. assert (A : active (procs G) = []) by (apply length_zero_iff_nil; lia). rewrite A in *. rewrite app_nil_r in P5.
    split; [|split; [|split]].
    - split; [exact Z|]. split; [eapply active_nil; eassumption|]. intros x v D. destruct (P9 _ _ D) as [(j & r & J1 & J2)|(j & [] & _)]. exists j. split.
      + assert (K : In j (seq 0 (length (procs G)))) by (rewrite <- P5; apply (in_map fst _ _ J1)). apply in_seq in K. lia.
      + apply (names _ _ _ (P4 _ _ J1)). apply (in_map fst _ _ J2).
    - exists (length (procs G)). split; [exact N|]. split; [exact P5|exact P4].
    - unfold nonfatal. cbn [snd]. rewrite <- P6. apply Nat.eqb_eq.
    - split; [exact P7|]. split; [exact P8|]. split; [|exact P10]. intros x v D. destruct (P9 _ _ D) as [H|(j & [] & _)]. exact H.
  Qed.
End Bal.

(** Lemmas about concurrent evaluation. *)
From Coq Require Import Permutation.
From Verif Require Import Base PermSolve EvalModel EvalSpec.
Local Open Scope nat_scope.

(** ** executions *)
Section Exec.
  Context {S : Type}.
  Variable step : S -> S -> Prop.
  Lemma exec_inv : forall (I : S -> Prop), (forall s t, I s -> step s t -> I t) -> forall s t, exec step s t -> I s -> I t.
  Proof. intros I H s t E. induction E; intros K; [exact K|]. apply IHE. eapply H; eassumption. Qed.
  Lemma exec_n_exec : forall n s t, exec_n step n s t -> exec step s t.
  Proof. intros n s t H. induction H; econstructor; eassumption. Qed.
  Lemma ends_by : forall (I P : S -> Prop) (m : S -> nat) s, I s -> (forall s t, I s -> step s t -> I t) -> (forall s t, I s -> step s t -> m t < m s) ->
      (forall t, I t -> (forall u, ~ step t u) -> P t) -> always_ends step s P.
  Proof.
    intros I P m s Is IS DS FS. split.
    - exists (m s). intros n t H. revert Is. induction H as [s|n s t u E H IH]; intros Is; [lia|]. specialize (IH (IS s t Is E)). specialize (DS s t Is E). lia.
    - intros t E HT. apply FS; [|exact HT]. eapply exec_inv; eassumption.
  Qed.
  Lemma exec_snoc : forall s t u, exec step s t -> step t u -> exec step s u.
  Proof. intros s t u E H. induction E; [econstructor; [exact H|constructor]|]. econstructor; [eassumption|]. apply IHE. exact H. Qed.
  Lemma exec_app : forall s t u, exec step s t -> exec step t u -> exec step s u.
  Proof. intros s t u E H. induction E; [exact H|]. econstructor; [eassumption|]. apply IHE. exact H. Qed.
End Exec.

Lemma split_at : forall X (l : list X) i, i < length l -> exists pre x post, l = pre ++ x :: post /\ length pre = i.
Proof. intros X l i H. destruct (nth_error l i) as [x|] eqn:E; [|apply nth_error_None in E; lia]. apply nth_error_split in E. destruct E as (a & b & -> & L). exists a, x, b. auto. Qed.

Lemma mid_split : forall X (pre : list X) w post x y, pre ++ w :: post = x ++ y -> (exists x', x = pre ++ w :: x' /\ post = x' ++ y) \/ (exists y', y = y' ++ w :: post /\ pre = x ++ y').
Proof.
  intros X. induction pre as [|p pre IH]; intros w post x y E; cbn in E.
  - destruct x as [|a x]; cbn in E; [right; exists []; auto|]. injection E as <- E. left. exists x. auto.
  - destruct x as [|a x]; cbn in E; [right; exists (p :: pre); auto|]. injection E as <- E. destruct (IH _ _ _ _ E) as [(x' & -> & ->)|(y' & -> & ->)]; [left; exists x'; auto|right; exists y'; auto].
Qed.

Section Eval.
  Variables A R : Type.
  Variable ev : A -> R -> Prop.
  Notation st := (st A R).
  Notation worker := (worker A).

  Definition somes (l : list (option A)) : list A := flat_map (fun o => match o with Some a => [a] | None => [] end) l.
  Lemma somes_app : forall a b, somes (a ++ b) = somes a ++ somes b. Proof. intros. apply flat_map_app. Qed.
  Definition busy (p : wpc A) : list A := match p with Busy a => [a] | _ => [] end.
  Definition cases_of (w : worker) : list A := somes (win w) ++ busy (wst w).
  Definition at_work (w : worker) : Prop := ~ In None (win w) /\ wst w <> Exited.
  Definition told (w : worker) : Prop := w = mkW [None] Idle \/ w = mkW [] Exited.
  Definition fresh (w : worker) : Prop := w = mkW [] Idle.
  Definition out (s : st) : list A := flat_map cases_of (ws s).

  Variable cs : list A.
  Variable k : nat.
  Definition enough : Prop := 2 <= k \/ length cs <= k.
  Definition phase (s : st) (l : list A) : Prop :=
    match pc s with
    | Seed i => 1 <= i <= S k /\ Forall at_work (ws s) /\ S (sent s) = i /\ received s = 0
    | Recv => Forall at_work (ws s) /\ received s < sent s /\ (l = [] \/ sent s = received s + k)
    | Stop i => 1 <= i <= S k /\ sent s = received s /\ (enough -> l = []) /\ exists pre post, ws s = pre ++ post /\ S (length pre) = i /\ Forall told pre /\ Forall fresh post
    | Returned => sent s = received s /\ (enough -> l = []) /\ Forall told (ws s)
    end.
  Definition inv (s : st) : Prop :=
    exists l, left s = map Some l /\ length (ws s) = k /\ Permutation cs (l ++ out s ++ map fst (log s)) /\ Permutation (map snd (log s)) (results s ++ map snd (inbox s)) /\
      sent s = received s + length (out s) + length (inbox s) /\ Forall (fun e => ev (fst e) (snd e)) (log s) /\ (forall m, In m (inbox s) -> 1 <= fst m <= k) /\ phase s l.

  Lemma out_mid : forall pre w post, flat_map cases_of (pre ++ w :: post) = flat_map cases_of pre ++ cases_of w ++ flat_map cases_of post.
  Proof. intros. rewrite flat_map_app. reflexivity. Qed.
  Lemma cases_mk : forall q p, cases_of (mkW q p) = somes q ++ busy p. Proof. reflexivity. Qed.
  Lemma fresh_out : forall l, Forall fresh l -> flat_map cases_of l = [].
  Proof. intros l H. induction H as [|w l F H IH]; [reflexivity|]. cbn. rewrite F, IH. reflexivity. Qed.
  Lemma told_out : forall l, Forall told l -> flat_map cases_of l = [].
  Proof. intros l H. induction H as [|w l F H IH]; [reflexivity|]. cbn. rewrite IH. destruct F as [ ->| ->]; reflexivity. Qed.
  Lemma idle_work : forall l, Forall at_work l -> flat_map cases_of l = [] -> Forall fresh l.
  Proof.
    intros l H. induction H as [|w l F H IH]; intros E; [constructor|]. cbn in E. apply app_eq_nil in E. destruct E as [E1 E2]. constructor; [|apply IH; exact E2]. destruct w as [q p]. destruct F as [F1 F2]. cbn in *.
    unfold cases_of in E1. cbn in E1. apply app_eq_nil in E1. destruct E1 as [E1 E3]. destruct p as [|a|]; [|discriminate|congruence]. destruct q as [|[a|] q]; [reflexivity|discriminate|]. exfalso. apply F1. left. reflexivity.
  Qed.
  Lemma forall_mid : forall (P : worker -> Prop) pre w w' post, Forall P (pre ++ w :: post) -> (P w -> P w') -> Forall P (pre ++ w' :: post).
  Proof. intros P pre w w' post H K. apply Forall_app in H. destruct H as [H1 H2]. inversion H2; subst. apply Forall_app. split; [exact H1|]. constructor; auto. Qed.

  Lemma out_length : forall l c L, Permutation cs (l ++ c ++ L) -> length cs = length l + length c + length L.
  Proof. intros l c L H. apply Permutation_length in H. rewrite !app_length in H. lia. Qed.
  (** entering the phase in which the workers are stopped *)
  Lemma to_stop : forall l sn rc rs ib w lg, Forall at_work w -> length w = k -> flat_map cases_of w = [] -> sn = rc -> (enough -> l = []) -> phase (mkSt (Stop 1) (map Some l) sn rc rs ib w lg) l.
  Proof.
    intros l sn rc rs ib w lg H L O E N. cbn. split; [lia|]. split; [exact E|]. split; [exact N|]. exists [], w. split; [reflexivity|]. split; [reflexivity|]. split; [constructor|]. apply idle_work; assumption.
  Qed.
  Lemma log_results : forall s, inv s -> length (log s) = length (results s) + length (inbox s).
  Proof. intros s (l & _ & _ & _ & H & _). apply Permutation_length in H. rewrite app_length, !map_length in H. exact H. Qed.

  Lemma inv_step : forall s t, inv s -> step ev s t -> inv t.
  Proof.
    intros s t (l & HL & HK & HC & HR & HS & HE & HI & HP) ST. unfold inv; unfold out in *; destruct ST; cbn [EvalModel.left EvalModel.ws EvalModel.log EvalModel.results EvalModel.inbox EvalModel.sent EvalModel.received] in *.
    - (* seed *)
      destruct l as [|a l']; [discriminate|]. injection HL as -> HL. try (rewrite HL in *; clear HL). cbn in HP. destruct HP as (P1 & P2 & P3 & P4). exists l'. split; [reflexivity|]. split; [cbn [EvalModel.ws] in *; rewrite <- HK, !app_length; reflexivity|].
      rewrite !out_mid in *. destruct w as [wq wp]. cbn [win wst] in *. rewrite !cases_mk in *. rewrite !somes_app in *. cbn [somes flat_map] in *.
      split; [rewrite HC; perm|]. split; [exact HR|]. split; [rewrite !app_length in *; cbn [length] in *; lia|]. split; [exact HE|]. split; [exact HI|]. cbn. split; [rewrite app_length in HK; cbn in HK; lia|]. split; [|lia].
      eapply forall_mid; [exact P2|]. intros [W1 W2]. split; cbn; [|exact W2]. intros K. apply in_app_or in K. destruct K as [K|[K|[]]]; [contradiction|discriminate].
    - (* no case left *)
      cbn in HP. destruct HP as (P1 & P2 & P3 & P4). destruct l; [|discriminate]. exists []. split; [reflexivity|]. split; [exact HK|]. split; [exact HC|]. split; [exact HR|]. split; [exact HS|]. split; [exact HE|]. split; [exact HI|].
      subst rc. unfold after_seed. destruct (0 <? sn) eqn:Z.
      + apply Nat.ltb_lt in Z. cbn. split; [exact P2|]. split; [exact Z|]. auto.
      + apply Nat.ltb_ge in Z. apply to_stop; [exact P2|exact HK| |lia|auto]. apply length_zero_iff_nil. lia.
    - (* all workers have a case *)
      cbn in HP. destruct HP as (P1 & P2 & P3 & P4). exists l. split; [exact HL|]. split; [exact HK|]. split; [exact HC|]. split; [exact HR|]. split; [exact HS|]. split; [exact HE|]. split; [exact HI|].
      subst rc. unfold after_seed. destruct (0 <? sn) eqn:Z.
      + apply Nat.ltb_lt in Z. cbn. split; [exact P2|]. split; [exact Z|]. right. lia.
      + apply Nat.ltb_ge in Z. subst l0. apply to_stop; [exact P2|exact HK| |lia|]; [apply length_zero_iff_nil; lia|]. intros [K|K]; [lia|]. apply out_length in HC. apply length_zero_iff_nil. lia.
    - (* the last result *)
      cbn in HP. destruct HP as (P1 & P2 & P3). exists l. split; [exact HL|]. split; [exact HK|]. split; [exact HC|].
      assert (Z : length (flat_map cases_of ws) = 0) by (rewrite app_length in HS; cbn in HS; lia).
      split; [rewrite HR, !map_app; cbn [map snd]; perm|]. split; [rewrite !app_length in *; cbn [length] in *; lia|]. split; [exact HE|]. split; [intros m Hm; apply HI; apply in_app_or in Hm; apply in_or_app; cbn; tauto|].
      subst l0. apply to_stop; [exact P1|exact HK|apply length_zero_iff_nil; exact Z|symmetry; exact H|]. intros EN. destruct P3 as [P3|P3]; [exact P3|].
      pose proof (out_length _ _ _ HC) as LC. pose proof (Permutation_length HR) as LR. rewrite !app_length, !map_length, !app_length in *. cbn [length] in *. apply length_zero_iff_nil. destruct EN as [EN|EN]; lia.
    - (* a result, nothing to send *)
      cbn in HP. destruct HP as (P1 & P2 & P3). destruct l; [|discriminate]. exists []. split; [reflexivity|]. split; [exact HK|]. split; [exact HC|]. split; [rewrite HR, !map_app; cbn [map snd]; perm|].
      split; [rewrite !app_length in *; cbn [length] in *; lia|]. split; [exact HE|]. split; [intros m Hm; apply HI; apply in_app_or in Hm; apply in_or_app; cbn; tauto|]. cbn. split; [exact P1|]. split; [lia|auto].
    - (* a result, the next case *)
      cbn in HP. destruct HP as (P1 & P2 & P3). destruct l as [|a l']; [discriminate|]. injection HL as -> HL. try (rewrite HL in *; clear HL). exists l'. split; [reflexivity|]. split; [cbn [EvalModel.ws] in *; rewrite <- HK, !app_length; reflexivity|].
      rewrite !out_mid in *. destruct w as [wq wp]. cbn [win wst] in *. rewrite !cases_mk in *. rewrite !somes_app in *. cbn [somes flat_map] in *.
      split; [rewrite HC; perm|]. split; [rewrite HR, !map_app; cbn [map snd]; perm|]. split; [rewrite !app_length in *; cbn [length] in *; lia|]. split; [exact HE|]. split; [intros m Hm; apply HI; apply in_app_or in Hm; apply in_or_app; cbn; tauto|].
      cbn. split; [|split; [lia|]].
      + eapply forall_mid; [exact P1|]. intros [W1 W2]. split; cbn; [|exact W2]. intros K. apply in_app_or in K. destruct K as [K|[K|[]]]; [contradiction|discriminate].
      + destruct P3 as [P3|P3]; [discriminate|]. right. lia.
    - (* stop a worker *)
      cbn in HP. destruct HP as (P1 & P2 & P3 & p & q & E & L & T & F). assert (p = pre) by (apply (f_equal (firstn (length pre))) in E; rewrite !firstn_app in E; replace (length pre - length pre) with 0 in E by lia; replace (length pre - length p) with 0 in E by lia; cbn in E; rewrite !app_nil_r, firstn_all in E; replace (length pre) with (length p) in E by lia; rewrite firstn_all in E; auto).
      subst p. apply app_inv_head in E. subst q. pose proof (Forall_inv F) as Fw; pose proof (Forall_inv_tail F) as Fp. unfold fresh in Fw. subst w.
      exists l. split; [exact HL|]. split; [cbn [EvalModel.ws] in *; rewrite <- HK, !app_length; reflexivity|]. rewrite !out_mid in *. cbn [cases_of somes flat_map win wst busy app] in *. split; [exact HC|]. split; [exact HR|]. split; [exact HS|]. split; [exact HE|]. split; [exact HI|].
      cbn. split; [rewrite app_length in HK; cbn in HK; lia|]. split; [exact P2|]. split; [exact P3|]. exists (pre ++ [mkW [None] Idle]), post. split; [rewrite <- app_assoc; reflexivity|]. split; [rewrite app_length; cbn; lia|]. split; [|exact Fp]. apply Forall_app. split; [exact T|]. constructor; [left; reflexivity|constructor].
    - (* return *)
      cbn in HP. destruct HP as (P1 & P2 & P3 & p & q & E & L & T & F). exists l. split; [exact HL|]. split; [exact HK|]. split; [exact HC|]. split; [exact HR|]. split; [exact HS|]. split; [exact HE|]. split; [exact HI|]. cbn. split; [exact P2|]. split; [exact P3|].
      assert (q = []) by (apply length_zero_iff_nil; apply (f_equal (@length _)) in E; rewrite app_length in E; lia). subst q. rewrite app_nil_r in E. subst. exact T.
    - (* a worker takes a case *)
      exists l. split; [exact HL|]. split; [cbn [EvalModel.ws] in *; rewrite <- HK, !app_length; reflexivity|]. rewrite !out_mid in *. cbn [cases_of somes flat_map win wst busy app] in *. fold (somes q) in *. rewrite app_nil_r in *.
      split; [rewrite HC; perm|]. split; [exact HR|]. split; [rewrite !app_length in *; cbn [length] in *; rewrite !app_length in *; cbn [length] in *; lia|]. split; [exact HE|]. split; [exact HI|].
      unfold phase in *. cbn [EvalModel.pc EvalModel.left EvalModel.ws EvalModel.log EvalModel.results EvalModel.inbox EvalModel.sent EvalModel.received] in *.
      assert (AW : Forall at_work (pre ++ mkW (Some a :: q) Idle :: post) -> Forall at_work (pre ++ mkW q (Busy a) :: post)).
      { intros K. eapply forall_mid; [exact K|]. intros [W1 W2]. split; cbn in *; [tauto|discriminate]. }
      assert (NT : forall x y, pre ++ mkW (Some a :: q) Idle :: post = x ++ y -> Forall told x -> Forall fresh y -> False).
      { intros x y E T F. assert (K : In (mkW (Some a :: q) Idle) (x ++ y)) by (rewrite <- E; apply in_or_app; right; left; reflexivity). rewrite Forall_forall in T, F. apply in_app_or in K. destruct K as [K|K]; [apply T in K; destruct K; discriminate|apply F in K; discriminate]. }
      destruct p as [i| |i|].
      + destruct HP as (P1 & P2 & P3). auto.
      + destruct HP as (P1 & P2 & P3). auto.
      + destruct HP as (P1 & P2 & P3 & x & y & E & L & T & F). exfalso. eapply NT; eassumption.
      + destruct HP as (P1 & P2 & P3). exfalso. apply (NT _ [] (eq_sym (app_nil_r _)) P3). constructor.
    - (* a worker exits *)
      exists l. split; [exact HL|]. split; [cbn [EvalModel.ws] in *; rewrite <- HK, !app_length; reflexivity|]. rewrite !out_mid in *. cbn [cases_of somes flat_map win wst busy app] in *. fold (somes q) in *.
      split; [exact HC|]. split; [exact HR|]. split; [exact HS|]. split; [exact HE|]. split; [exact HI|].
      unfold phase in *. cbn [EvalModel.pc EvalModel.left EvalModel.ws EvalModel.log EvalModel.results EvalModel.inbox EvalModel.sent EvalModel.received] in *.
      assert (NW : Forall at_work (pre ++ mkW (None :: q) Idle :: post) -> False).
      { intros K. rewrite Forall_forall in K. destruct (K (mkW (None :: q) Idle)) as [W _]; [apply in_or_app; right; left; reflexivity|]. apply W. left. reflexivity. }
      destruct p as [i| |i|].
      + destruct HP as (P1 & P2 & P3). exfalso. auto.
      + destruct HP as (P1 & P2 & P3). exfalso. auto.
      + destruct HP as (P1 & P2 & P3 & x & y & E & L & T & F). split; [exact P1|]. split; [exact P2|]. split; [exact P3|].
        destruct (mid_split _ _ _ _ _ _ E) as [(x' & -> & ->)|(y' & -> & ->)].
        * assert (TQ : q = []). { rewrite Forall_forall in T. destruct (T (mkW (None :: q) Idle)) as [TT|TT]; [apply in_or_app; right; left; reflexivity| |]; congruence. }
          subst q. exists (pre ++ mkW [] Exited :: x'), y. split; [rewrite <- app_assoc; reflexivity|]. split; [rewrite <- L, !app_length; reflexivity|]. split; [|exact F]. eapply forall_mid; [exact T|]. intros _. right. reflexivity.
        * exfalso. rewrite Forall_forall in F. assert (K : fresh (mkW (None :: q) Idle)) by (apply F; apply in_or_app; right; left; reflexivity). discriminate.
      + destruct HP as (P1 & P2 & P3). split; [exact P1|]. split; [exact P2|]. eapply forall_mid; [exact P3|]. intros [TT|TT]; [|discriminate]. injection TT as ->. right. reflexivity.
    - (* a worker answers *)
      exists l. split; [exact HL|]. assert (LK : length pre + S (length post) = k) by (rewrite app_length in HK; exact HK). split; [cbn [EvalModel.ws] in *; rewrite <- HK, !app_length; reflexivity|]. rewrite !out_mid in *. cbn [cases_of somes flat_map win wst busy app] in *. fold (somes q) in *. rewrite app_nil_r in *.
      split; [rewrite HC, map_app; cbn [map fst]; perm|]. split; [rewrite !map_app; cbn [map snd]; rewrite HR; perm|]. split; [rewrite !app_length in *; cbn [length] in *; rewrite ?app_length in *; cbn [length] in *; lia|].
      split; [apply Forall_app; split; [exact HE|]; constructor; [exact H|constructor]|]. split; [intros m Hm; apply in_app_or in Hm; destruct Hm as [Hm|[<-|[]]]; [apply HI; exact Hm|cbn; lia]|].
      unfold phase in *. cbn [EvalModel.pc EvalModel.left EvalModel.ws EvalModel.log EvalModel.results EvalModel.inbox EvalModel.sent EvalModel.received] in *.
      assert (AW : Forall at_work (pre ++ mkW q (Busy a) :: post) -> Forall at_work (pre ++ mkW q Idle :: post)).
      { intros K. eapply forall_mid; [exact K|]. intros [W1 W2]. split; cbn in *; [tauto|discriminate]. }
      assert (NT : forall x y, pre ++ mkW q (Busy a) :: post = x ++ y -> Forall told x -> Forall fresh y -> False).
      { intros x y E T F. assert (K : In (mkW q (Busy a)) (x ++ y)) by (rewrite <- E; apply in_or_app; right; left; reflexivity). rewrite Forall_forall in T, F. apply in_app_or in K. destruct K as [K|K]; [apply T in K; destruct K; discriminate|apply F in K; discriminate]. }
      destruct p as [i| |i|].
      + destruct HP as (P1 & P2 & P3). auto.
      + destruct HP as (P1 & P2 & P3). auto.
      + destruct HP as (P1 & P2 & P3 & x & y & E & L & T & F). exfalso. eapply NT; eassumption.
      + destruct HP as (P1 & P2 & P3). exfalso. apply (NT _ [] (eq_sym (app_nil_r _)) P3). constructor.
  Qed.

  (** ** termination *)
  Definition wm (w : worker) : nat := list_sum (map (fun o : option A => match o with Some _ => 4 | None => 1 end) (win w)) + match wst w with Busy _ => 3 | _ => 0 end.
  Definition measure (s : st) : nat :=
    5 * length (left s) + list_sum (map wm (ws s)) + 2 * length (inbox s) +
    match pc s with Seed _ => 2 * length (ws s) + 3 | Recv => 2 * length (ws s) + 2 | Stop i => 2 * (S (length (ws s)) - i) + 1 | Returned => 0 end.
  Lemma sum_mid : forall pre w post, list_sum (map wm (pre ++ w :: post)) = list_sum (map wm pre) + wm w + list_sum (map wm post).
  Proof. intros. rewrite map_app, list_sum_app. cbn. unfold list_sum. cbn. lia. Qed.
  Lemma wm_snoc : forall q c p, wm (mkW (q ++ [c]) p) = wm (mkW q p) + match c with Some _ => 4 | None => 1 end.
  Proof. intros q c p. unfold wm. cbn [win wst]. rewrite map_app, list_sum_app. cbn. unfold list_sum. cbn. destruct c; lia. Qed.
  Lemma wm_cons : forall q c p, wm (mkW (c :: q) p) = wm (mkW q p) + match c with Some _ => 4 | None => 1 end.
  Proof. intros q c p. unfold wm, list_sum. cbn. destruct c; lia. Qed.
  Lemma wm_state : forall q p p', wm (mkW q p) + match p' with Busy _ => 3 | _ => 0 end = wm (mkW q p') + match p with Busy _ => 3 | _ => 0 end.
  Proof. intros. unfold wm. cbn. lia. Qed.
  Lemma measure_step : forall s t, step ev s t -> measure t < measure s.
  Proof.
    intros s t ST. destruct ST; unfold measure; cbn [EvalModel.left EvalModel.ws EvalModel.inbox EvalModel.pc]; rewrite ?sum_mid, ?app_length; cbn [length]; rewrite ?app_length; cbn [length].
    - destruct w as [q p]. cbn [win wst]. rewrite wm_snoc. destruct c; lia.
    - unfold after_seed. destruct (0 <? sn); lia.
    - unfold after_seed. destruct (0 <? sn); lia.
    - lia.
    - lia.
    - destruct w as [q p]. cbn [win wst]. rewrite wm_snoc. destruct c; lia.
    - destruct w as [q p]. cbn [win wst]. rewrite wm_snoc. lia.
    - lia.
    - rewrite wm_cons. pose proof (wm_state q Idle (Busy a)). cbn in *. lia.
    - rewrite wm_cons. pose proof (wm_state q Idle Exited). cbn in *. lia.
    - pose proof (wm_state q Idle (Busy a)). cbn in *. lia.
  Qed.

  (** ** progress *)
  Hypothesis total : forall a, exists r, ev a r.
  Lemma some_out : forall l, flat_map cases_of l <> [] -> exists pre w post, l = pre ++ w :: post /\ cases_of w <> [].
  Proof.
    induction l as [|w l IH]; intros H; [exfalso; apply H; reflexivity|]. destruct (cases_of w) as [|a r] eqn:E.
    - cbn in H. rewrite E in H. destruct (IH H) as (pre & w' & post & -> & K). exists (w :: pre), w', post. auto.
    - exists [], w, l. split; [reflexivity|]. rewrite E. discriminate.
  Qed.
  Lemma inv_progress : forall s, inv s -> (forall t, ~ step ev s t) -> finished s.
  Proof.
    intros [p L sn rc rs ib w lg] (l & HL & HK & HC & HR & HS & HE & HI & HP) NS. cbn [left ws log results inbox sent received out] in *. unfold out in *; cbn [ws] in *. unfold phase in HP. cbn [pc ws sent received] in HP. destruct p as [i| |i|].
    - exfalso. destruct HP as (P1 & P2 & P3 & P4). destruct (Nat.eq_dec i (S k)) as [->|Hi]; [subst k; eapply NS; apply s_seed_end|].
      destruct (split_at _ w (i - 1)) as (pre & x & post & -> & LP); [lia|]. replace i with (S (length pre)) in NS by lia. destruct L as [|c L].
      + eapply NS. apply s_seed_stop. rewrite app_length. cbn. lia.
      + eapply NS. apply s_seed.
    - exfalso. destruct HP as (P1 & P2 & P3). destruct ib as [|[j r] ib].
      + destruct (some_out w) as (pre & [q p] & post & -> & K); [intros K; rewrite K in HS; cbn in HS; lia|]. apply Forall_app in P1. destruct P1 as [_ P1]. inversion P1 as [|x y [W1 W2] _]; subst. cbn in *. destruct p as [|a|]; [| |congruence].
        * destruct q as [|[a|] q]; [apply K; reflexivity| |apply W1; left; reflexivity]. eapply NS. apply s_work.
        * destruct (total a) as (r & Hr). eapply NS. apply s_answer. exact Hr.
      + destruct (Nat.eq_dec (S rc) sn) as [E|E]; [eapply NS; apply (s_recv_last _ _ _ L sn rc rs []); exact E|]. destruct L as [|c L]; [eapply NS; apply (s_recv_none _ _ _ sn rc rs []); exact E|].
        destruct (HI (j, r) (or_introl eq_refl)) as [J1 J2]. cbn in J1, J2. destruct (split_at _ w (j - 1)) as (pre & x & post & -> & LP); [lia|]. replace j with (S (length pre)) in NS by lia. eapply NS. apply (s_recv_send _ _ _ c L sn rc rs []). exact E.
    - exfalso. destruct HP as (P1 & _). destruct (Nat.eq_dec i (S k)) as [->|Hi]; [subst k; eapply NS; apply s_return|]. destruct (split_at _ w (i - 1)) as (pre & x & post & -> & LP); [lia|]. replace i with (S (length pre)) in NS by lia. eapply NS. apply s_stop.
    - split; [reflexivity|]. cbn [ws]. destruct HP as (_ & _ & T). apply Forall_forall. intros x Hx. rewrite Forall_forall in T. destruct (T x Hx) as [->| ->]; [|reflexivity]. exfalso. apply in_split in Hx. destruct Hx as (pre & post & ->). eapply NS. apply s_exit.
  Qed.
  Lemma inv_init : length (repeat (mkW (@nil (option A)) Idle) k) = k -> inv (init (map Some cs) k).
  Proof.
    intros LK. assert (O : flat_map cases_of (repeat (mkW (@nil (option A)) Idle) k) = []) by (clear; induction k; [reflexivity|]; cbn; assumption). exists cs. unfold out, phase. cbn [init EvalModel.pc EvalModel.left EvalModel.ws EvalModel.log EvalModel.results EvalModel.inbox EvalModel.sent EvalModel.received]. rewrite O. cbn [map length app]. rewrite app_nil_r.
    split; [reflexivity|]. split; [exact LK|]. split; [reflexivity|]. split; [constructor|]. split; [reflexivity|]. split; [constructor|]. split; [intros m []|]. split; [lia|]. split; [|auto]. apply Forall_forall. intros w Hw. apply repeat_spec in Hw. subst. split; cbn; [tauto|discriminate].
  Qed.
  Definition complete (s : st) : Prop :=
    finished s /\ Permutation (results s) (map snd (log s)) /\ Forall (fun e => ev (fst e) (snd e)) (log s) /\ (exists rest, Permutation cs (map fst (log s) ++ rest)) /\ (enough -> Permutation (map fst (log s)) cs).
  Lemma all_evaluated : always_ends (step ev) (init (map Some cs) k) complete.
  Proof.
    apply (ends_by _ inv complete measure); [apply inv_init; apply repeat_length|exact inv_step|intros s t _; apply measure_step|].
    intros s I NS. pose proof (inv_progress s I NS) as F. destruct s as [p L sn rc rs ib w lg]. destruct I as (l & HL & HK & HC & HR & HS & HE & HI & HP). unfold out in *. cbn in *. assert (p = Returned) by exact (proj1 F). subst p. destruct HP as (P1 & P2 & P3). cbn in *. rewrite (told_out _ P3) in *.
    assert (ib = []) by (apply length_zero_iff_nil; cbn in HS; lia). subst ib. cbn in *. rewrite app_nil_r in HR. split; [exact F|]. cbn. split; [symmetry; exact HR|]. split; [exact HE|]. split; [exists l; rewrite HC; apply Permutation_app_comm|].
    intros EN. rewrite (P2 EN) in HC. symmetry. exact HC.
  Qed.
End Eval.

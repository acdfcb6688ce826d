(** Lemmas about collective operations: the order in which they take place does not
    matter. *)
From Verif Require Import Base EvalSpec EvalProofs ParModel.
Local Open Scope nat_scope.

Section Diamond.
  Context {S : Type}.
  Variable step : S -> S -> Prop.
  Hypothesis diamond : forall s t u, step s t -> step s u -> t = u \/ exists v, step t v /\ step u v.
  Lemma exec_of_n : forall s t, exec step s t -> exists n, exec_n step n s t.
  Proof. intros s t E. induction E as [s|s t u H E [n IH]]; [exists 0; constructor|]. exists (Datatypes.S n). econstructor; eassumption. Qed.
  Lemma diamond_step : forall n s f t, exec_n step n s f -> (forall u, ~ step f u) -> step s t -> exists m, n = Datatypes.S m /\ exec_n step m t f.
  Proof.
    induction n as [|n IH]; intros s f t E T St; inversion E; subst; [destruct (T _ St)|]. rename t0 into u. exists n. split; [reflexivity|].
    destruct (diamond _ _ _ St H0) as [-> |(v & A & B)]; [assumption|]. destruct (IH u f v H1 T B) as (m & -> & Hm). econstructor; eassumption.
  Qed.
  Lemma diamond_ends : forall s f, exec step s f -> (forall u, ~ step f u) -> always_ends step s (fun t => t = f).
  Proof.
    intros s f E T. destruct (exec_of_n _ _ E) as [n En]. split.
    - exists n. intros m t H. revert n En. clear E. induction H as [s|m s t u St H IH]; intros n En; [lia|]. destruct (diamond_step _ _ _ _ En T St) as (k & -> & Ek). specialize (IH k Ek). lia.
    - intros t H. revert n En. clear E. induction H as [s|s t u St H IH]; intros n En HT.
      + destruct En as [|n s t u St En]; [reflexivity|destruct (HT _ St)].
      + destruct (diamond_step _ _ _ _ En T St) as (k & -> & Ek). exact (IH k Ek HT).
  Qed.
End Diamond.

Lemma comm_eqb_eq : forall a b, comm_eqb a b = true <-> a = b.
Proof. destruct a, b; cbn; split; intros H; try congruence; [apply Nat.eqb_eq in H; congruence|injection H as ->; apply Nat.eqb_refl]. Qed.
Lemma op_eqb_eq : forall a b, op_eqb a b = true <-> a = b.
Proof. destruct a, b; cbn; split; intros H; congruence. Qed.

Section Par.
  Variable C : Type.
  Variable fatal : pid -> C -> bool.
  Variable recorders serial : bool.
  Variable nvars : nat.
  Variable cases : list C.
  Variable ndoe : nat.
  Notation act := (act fatal recorders serial nvars cases ndoe).
  Notation fire := (fire fatal recorders serial nvars cases ndoe).
  Notation step := (step fatal recorders serial nvars cases ndoe).
  Notation waits := (waits fatal recorders serial nvars cases ndoe).
  Notation contrib := (contrib fatal recorders serial nvars cases ndoe).
  Notation cont := (cont fatal recorders serial nvars cases ndoe).
  Notation st := (st C).

  Definition after (c : comm) (o : op) (s : st) (x : pid * pst C) : pid * pst C := if member c (fst x) then (fst x, cont x (respond o (map contrib (members c s)) (fst x))) else x.
  Lemma fire_inv : forall c o s t, fire c o s = Some t -> members c s <> [] /\ Forall (fun x => waits c o x = true) (members c s) /\ t = map (after c o s) s.
  Proof.
    intros c o s t H. unfold ParModel.fire in H. destruct (members c s) as [|m ms] eqn:E; [discriminate|]. split; [discriminate|]. destruct (forallb (waits c o) (m :: ms)) eqn:F; [|discriminate]. injection H as <-. split; [apply Forall_forall; apply forallb_forall; exact F|].
    apply map_ext. intros x. unfold after. rewrite E. reflexivity.
  Qed.
  Lemma fire_intro : forall c o s, members c s <> [] -> Forall (fun x => waits c o x = true) (members c s) -> fire c o s = Some (map (after c o s) s).
  Proof.
    intros c o s N F. unfold ParModel.fire. destruct (members c s) as [|m ms] eqn:E; [congruence|]. assert (B : forallb (waits c o) (m :: ms) = true) by (apply forallb_forall; apply Forall_forall; exact F). rewrite B. f_equal. apply map_ext. intros x. unfold after. rewrite E. reflexivity.
  Qed.
  Lemma waits_eq : forall c o x, waits c o x = true -> exists v k, act (fst x) (snd x) = Some (c, o, v, k).
  Proof. intros c o x H. unfold ParModel.waits in H. destruct (act (fst x) (snd x)) as [[[[c' o'] v] k]|]; [|discriminate]. apply andb_prop in H. destruct H as [A B]. apply comm_eqb_eq in A. apply op_eqb_eq in B. subst. eauto. Qed.
  Lemma in_members : forall c (s : st) x, In x (members c s) <-> In x s /\ member c (fst x) = true.
  Proof. intros. apply filter_In. Qed.
  Lemma after_fst : forall c o (s : st) x, fst (after c o s x) = fst x.
  Proof. intros. unfold after. destruct (member c (fst x)); reflexivity. Qed.
  Lemma after_in : forall c o (s : st) x, member c (fst x) = true -> after c o s x = (fst x, cont x (respond o (map contrib (members c s)) (fst x))).
  Proof. intros c o s x H. unfold after. rewrite H. reflexivity. Qed.
  Lemma after_out : forall c o (s : st) x, member c (fst x) = false -> after c o s x = x.
  Proof. intros c o s x H. unfold after. rewrite H. reflexivity. Qed.
  Lemma members_after : forall c o d (s : st), (forall x, In x s -> member c (fst x) = true -> member d (fst x) = false) -> members d (map (after c o s) s) = members d s.
  Proof.
    intros c o d s. set (s0 := s) at 2. clearbody s0. unfold members. induction s as [|x s IH]; intros H; [reflexivity|]. cbn [map filter]. rewrite after_fst. rewrite IH by (intros y Hy; apply H; right; exact Hy). destruct (member d (fst x)) eqn:D; [|reflexivity]. f_equal.
    unfold after. destruct (member c (fst x)) eqn:M; [|reflexivity]. specialize (H x (or_introl eq_refl) M). congruence.
  Qed.
  Lemma fire_diamond : forall s t u, step s t -> step s u -> t = u \/ exists v, step t v /\ step u v.
  Proof.
    intros s t u (c & o & Ht) (d & o' & Hu). destruct (fire_inv _ _ _ _ Ht) as (N1 & F1 & ->). destruct (fire_inv _ _ _ _ Hu) as (N2 & F2 & ->).
    rewrite Forall_forall in F1, F2. destruct (comm_eqb c d) eqn:E.
    - apply comm_eqb_eq in E. subst d. destruct (members c s) as [|m ms] eqn:M; [congruence|]. destruct (waits_eq _ _ _ (F1 m (or_introl eq_refl))) as (v1 & k1 & A1). destruct (waits_eq _ _ _ (F2 m (or_introl eq_refl))) as (v2 & k2 & A2). assert (o = o') by congruence. subst o'. left. reflexivity.
    - right. assert (D : forall x, In x s -> member c (fst x) = true -> member d (fst x) = false).
      { intros x Hx Mc. destruct (member d (fst x)) eqn:Md; [|reflexivity]. destruct (waits_eq _ _ _ (F1 x (proj2 (in_members _ _ _) (conj Hx Mc)))) as (v1 & k1 & A1). destruct (waits_eq _ _ _ (F2 x (proj2 (in_members _ _ _) (conj Hx Md)))) as (v2 & k2 & A2). assert (c = d) by congruence. subst d. assert (comm_eqb c c = true) by (apply comm_eqb_eq; reflexivity). congruence. }
      assert (D' : forall x, In x s -> member d (fst x) = true -> member c (fst x) = false).
      { intros x Hx Md. destruct (member c (fst x)) eqn:Mc; [|reflexivity]. rewrite (D x Hx Mc) in Md. discriminate. }
      exists (map (after d o' (map (after c o s) s)) (map (after c o s) s)). split.
      + exists d, o'. apply fire_intro; rewrite (members_after _ _ _ _ D); [exact N2|apply Forall_forall; exact F2].
      + exists c, o. replace (map (after d o' (map (after c o s) s)) (map (after c o s) s)) with (map (after c o (map (after d o' s) s)) (map (after d o' s) s)).
        { apply fire_intro; rewrite (members_after _ _ _ _ D'); [exact N1|apply Forall_forall; exact F1]. }
        rewrite !map_map. apply map_ext_in. intros x Hx. destruct (member c (fst x)) eqn:Mc.
        * assert (Md := D x Hx Mc). rewrite (after_out d o' s x Md), (after_out d o') by (rewrite after_fst; exact Md). rewrite !(after_in c o _ x Mc), (members_after _ _ _ _ D'). reflexivity.
        * rewrite (after_out c o s x Mc), (after_out c o) by (rewrite after_fst; exact Mc). destruct (member d (fst x)) eqn:Md; [|rewrite !(after_out d) by exact Md; reflexivity]. rewrite !(after_in d o' _ x Md), (members_after _ _ _ _ D). reflexivity.
  Qed.
  Lemma finished_final : forall s, finished fatal recorders serial nvars cases ndoe s -> forall u, ~ step s u.
  Proof.
    intros s F u (c & o & H). destruct (fire_inv _ _ _ _ H) as (N & W & _). destruct (members c s) as [|m ms] eqn:E; [congruence|]. assert (Hm : In m s) by (apply (in_members c); rewrite E; left; reflexivity). apply Forall_inv in W. destruct (waits_eq _ _ _ W) as (v & k & A). destruct m as [p x]. cbn [fst snd] in A. rewrite (F p x Hm) in A. discriminate.
  Qed.

  (** ** all processes at once *)
  Definition mkst (ids : list pid) (f : pid -> pst C) : st := map (fun p => (p, f p)) ids.
  Lemma mkst_ext : forall ids f g, (forall p, In p ids -> f p = g p) -> mkst ids f = mkst ids g.
  Proof. intros ids f g H. apply map_ext_in. intros p Hp. rewrite (H p Hp). reflexivity. Qed.
  Lemma members_mk : forall ids f c, members c (mkst ids f) = map (fun p => (p, f p)) (filter (member c) ids).
  Proof. intros ids f c. unfold members, mkst. induction ids as [|p ids IH]; [reflexivity|]. cbn. destruct (member c p); cbn; rewrite IH; reflexivity. Qed.
  Lemma fire_all : forall ids f g c o (v : pid -> val C) (k : pid -> answer C -> pst C), filter (member c) ids <> [] ->
      (forall p, In p ids -> member c p = true -> act p (f p) = Some (c, o, v p, k p)) ->
      (forall p, In p ids -> member c p = true -> g p = k p (respond o (map (fun q => (q, v q)) (filter (member c) ids)) p)) ->
      (forall p, In p ids -> member c p = false -> g p = f p) ->
      step (mkst ids f) (mkst ids g).
  Proof.
    intros ids f g c o v k N A G1 G2. exists c, o. rewrite fire_intro.
    - f_equal. unfold mkst at 2 3. rewrite map_map. apply map_ext_in. intros p Hp. unfold after. cbn [fst]. destruct (member c p) eqn:M; [|rewrite (G2 p Hp M); reflexivity]. f_equal. unfold ParModel.cont. cbn [fst snd]. rewrite (A p Hp M), (G1 p Hp M). f_equal. f_equal. rewrite members_mk, map_map. apply map_ext_in. intros q Hq. apply filter_In in Hq. unfold ParModel.contrib. cbn [fst snd]. rewrite (A q (proj1 Hq) (proj2 Hq)). reflexivity.
    - rewrite members_mk. intros E. apply N. destruct (filter (member c) ids); [reflexivity|discriminate].
    - rewrite members_mk. apply Forall_forall. intros x Hx. apply in_map_iff in Hx. destruct Hx as (p & <- & Hp). apply filter_In in Hp. unfold ParModel.waits. cbn [fst snd]. rewrite (A p (proj1 Hp) (proj2 Hp)). apply andb_true_intro. split; [apply comm_eqb_eq|apply op_eqb_eq]; reflexivity.
  Qed.
End Par.

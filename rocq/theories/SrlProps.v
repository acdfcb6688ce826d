(** C117 Responses of a design of experiments in one process. *)
From Verif Require Import Base ExprModel LcnModel LcnProofs SrlModel SrlSpec.
Local Open Scope list_scope.

Section C117.
  Context {V X S : Type}.
  Variable set_desvar : V -> txt -> X -> V.
  Variable solve : V -> V * outcome.
  Variable select : list txt -> V -> S.
  Variable ends : list (txt * X) -> outcome.
  Variable gives : list txt -> list (txt * X) -> S.
  Notation prep := (prep set_desvar).
  Notation run := (run set_desvar solve select).
  Notation run_serial := (run_serial set_desvar solve select).
  (** The model depends on nothing but the case: not on what the vectors held before. *)
  Hypothesis ends_ok : forall v c, snd (solve (prep v c)) = ends c.
  Hypothesis gives_ok : forall v c r, ends c = Done -> select r (fst (solve (prep v c))) = gives r c.

  Definition ready (d : driver S) (n : nat) (r : list txt) (es : list (entry S)) : Prop := d_load d = false /\ d_rec d = Some n /\ nth_error (d_recs d) n = Some (r, es).
  Lemma ready_save : forall d n r es v ok msg, ready d n r es -> ready (next (save select d v ok msg)) n r (es ++ [mkE (select r v) (d_iter d) ok msg]).
  Proof. intros d n r es v ok msg (H1 & H2 & H3). split; [exact H1|]. split; [exact H2|]. cbn [next save d_recs]. rewrite nth_error_map, H3. reflexivity. Qed.
  Lemma serial_ok : forall cases d v n r es, ready d n r es ->
    exists done rest new d' v' e, run_serial d v cases = (d', v', e) /\ cases = done ++ rest /\ ready d' n r (es ++ new) /\ entries_of ends gives r (d_iter d) done new /\
      (forall c, In c done -> ~ breaks ends c) /\ d_iter d' = (d_iter d + length done)%nat /\ d_resp d' = d_resp d /\ length (d_recs d') = length (d_recs d) /\
      match rest with [] => e = None | c :: _ => exists x, ends c = Other x /\ e = Some x end.
  Proof.
    induction cases as [|c cases IH]; intros d v n r es R.
    - exists [], [], [], d, v, None. split; [reflexivity|]. split; [reflexivity|]. split; [rewrite app_nil_r; exact R|]. split; [exact I|]. split; [intros c []|]. split; [cbn; lia|]. split; [reflexivity|]. split; reflexivity.
    - cbn [SrlModel.run_serial]. pose proof (ends_ok v c) as He. pose proof (gives_ok v c r) as Hg. destruct (solve (prep v c)) as [w o]. cbn [fst snd] in *. subst o.
      assert (K : forall ok msg, entry_of ends gives r (d_iter d) c (mkE (select r w) (d_iter d) ok msg) -> ~ breaks ends c ->
        exists done rest new d' v' e, run_serial (next (save select d w ok msg)) w cases = (d', v', e) /\ c :: cases = done ++ rest /\ ready d' n r (es ++ new) /\ entries_of ends gives r (d_iter d) done new /\
          (forall c, In c done -> ~ breaks ends c) /\ d_iter d' = (d_iter d + length done)%nat /\ d_resp d' = d_resp d /\ length (d_recs d') = length (d_recs d) /\ match rest with [] => e = None | c :: _ => exists x, ends c = Other x /\ e = Some x end).
      { intros ok msg He Hb. destruct (IH (next (save select d w ok msg)) w n r _ (ready_save d n r es w ok msg R)) as (done & rest & new & d' & v' & e & E & -> & R' & En & Hd & Hi & Hr & Hl & He'). exists (c :: done), rest, (mkE (select r w) (d_iter d) ok msg :: new), d', v', e. split; [exact E|]. split; [reflexivity|].
        split; [rewrite <- app_assoc in R'; exact R'|]. split; [split; [exact He|exact En]|]. split; [intros x [<-|Hx]; [exact Hb|apply Hd; exact Hx]|]. split; [rewrite Hi; cbn; lia|]. split; [exact Hr|]. split; [rewrite Hl; cbn; apply map_length|exact He']. }
      destruct (ends c) as [| |x] eqn:Ec.
      + apply K; [split; [reflexivity|]; rewrite Ec; repeat split; apply Hg; reflexivity|intros (y & F); congruence].
      + apply K; [split; [reflexivity|]; rewrite Ec; split; reflexivity|intros (y & F); congruence].
      + destruct R as (R1 & R2 & R3). rewrite R1. exists [], (c :: cases), [], d, w, (Some x). split; [reflexivity|]. split; [reflexivity|]. split; [rewrite app_nil_r; repeat split; assumption|]. split; [exact I|]. split; [intros y []|]. split; [cbn; lia|]. split; [reflexivity|]. split; [reflexivity|]. exists x. split; [exact Ec|reflexivity].
  Qed.

  (** a driver that was set up with responses *)
  Definition set_up (d : driver S) : Prop := d_load d = false /\ d_resp d <> [] /\ exists n es, d_rec d = Some n /\ nth_error (d_recs d) n = Some (d_resp d, es).
  Lemma setup_ready : forall d, d_resp d <> [] -> set_up (setup d).
  Proof.
    intros d H. unfold setup. destruct (d_resp d) as [|a l] eqn:E; [contradiction|]. split; [reflexivity|]. split; [discriminate|]. exists (length (d_recs d)), []. split; [reflexivity|]. cbn [d_recs d_resp]. rewrite nth_error_app2 by lia. rewrite Nat.sub_diag. reflexivity.
  Qed.
  Lemma reset_nth : forall n l r es, nth_error l n = Some (r, es) -> nth_error (reset_at (S:=S) n l) n = Some (r, []).
  Proof. induction n as [|n IH]; intros [|x l] r es H; try discriminate; cbn in *; [injection H as ->; reflexivity|apply (IH _ _ es); exact H]. Qed.
  (** The responses are those of the cases of the last run, one for each case in order, up to
      a case that ends with an exception other than AnalysisError, which the run raises. *)
  Theorem C117_responses : forall d v cases d' v' e, set_up d -> run d v cases = (d', v', e) ->
    exists done rest, cases = done ++ rest /\ entries_of ends gives (d_resp d) 0 done (get_responses d') /\ (forall c, In c done -> ~ breaks ends c) /\ d_iter d' = length done /\ set_up d' /\ d_resp d' = d_resp d /\
      match rest with [] => e = None | c :: _ => exists x, ends c = Other x /\ e = Some x end.
  Proof.
    intros d v cases d' v' e (L & NE & n & es & Hr & Hn) E. unfold SrlModel.run in E. rewrite Hr in E. match type of E with SrlModel.run_serial _ _ _ ?x _ _ = _ => set (d0 := x) in E end.
    assert (R : ready d0 n (d_resp d) []) by (split; [exact L|split; [reflexivity|cbn; apply (reset_nth _ _ _ es); exact Hn]]). destruct (serial_ok cases d0 v n _ _ R) as (done & rest & new & d1 & v1 & e1 & E1 & Ec & (R1 & R2 & R3) & En & Hd & Hi & Hre & Hl & He). rewrite E1 in E. injection E as <- <- <-.
    exists done, rest. split; [exact Ec|]. split; [unfold get_responses; rewrite R2, R3; exact En|]. split; [exact Hd|]. split; [exact Hi|]. cbn [d0 d_resp] in Hre. split; [split; [exact R1|]; rewrite Hre; split; [exact NE|]; exists n, ([] ++ new); split; assumption|]. split; [exact Hre|exact He].
  Qed.
  (** If no case breaks, all are run: *)
  Theorem C117_all : forall d v cases d' v' e, set_up d -> run d v cases = (d', v', e) -> (forall c, In c cases -> ~ breaks ends c) ->
    e = None /\ entries_of ends gives (d_resp d) 0 cases (get_responses d') /\ d_iter d' = length cases.
  Proof.
    intros d v cases d' v' e U E H. destruct (C117_responses d v cases d' v' e U E) as (done & rest & -> & En & _ & Hi & _ & _ & He). destruct rest as [|c rest]; [rewrite app_nil_r; repeat split; assumption|]. destruct He as (x & Hx & _). exfalso. apply (H c); [apply in_or_app; right; left; reflexivity|exists x; exact Hx].
  Qed.
  (** A second run with the same cases gives the same results again. *)
  Lemma entries_same : forall r cs i es es', entries_of ends gives r i cs es -> entries_of ends gives r i cs es' -> (forall c, In c cs -> ends c = Done) -> es = es'.
  Proof.
    intros r cs. induction cs as [|c cs IH]; intros i [|e es] [|e' es'] H H' D; try contradiction; [reflexivity|]. destruct H as [H1 H2]. destruct H' as [H1' H2']. f_equal; [|apply (IH (i + 1)%nat); [exact H2|exact H2'|intros x Hx; apply D; right; exact Hx]].
    destruct e as [a b c0 d0]. destruct e' as [a' b' c' d']. unfold entry_of in *. cbn in *. rewrite (D c (or_introl eq_refl)) in *. destruct H1 as (-> & -> & -> & ->). destruct H1' as (-> & -> & -> & ->). reflexivity.
  Qed.
  Theorem C117_rerun : forall d v cases d1 v1 e1 d2 v2 e2, set_up d -> run d v cases = (d1, v1, e1) -> run d1 v1 cases = (d2, v2, e2) -> (forall c, In c cases -> ends c = Done) -> get_responses d2 = get_responses d1.
  Proof.
    intros d v cases d1 v1 e1 d2 v2 e2 U E1 E2 D. assert (NB : forall c, In c cases -> ~ breaks ends c) by (intros c Hc (x & F); rewrite (D c Hc) in F; discriminate). destruct (C117_responses d v cases d1 v1 e1 U E1) as (_ & _ & _ & _ & _ & _ & U1 & Hr & _).
    destruct (C117_all d v cases d1 v1 e1 U E1 NB) as (_ & A1 & _). destruct (C117_all d1 v1 cases d2 v2 e2 U1 E2 NB) as (_ & A2 & _). rewrite Hr in A2. exact (entries_same _ _ _ _ _ A2 A1 D).
  Qed.
End C117.
Print Assumptions C117_responses.
Print Assumptions C117_all.
Print Assumptions C117_rerun.

(** Responses: no name twice; a refused list keeps the names before the repeated one. *)
Theorem C117_names : forall (S : Type) (names : list txt) (d d' : driver S) e, NoDup (d_resp d) -> add_response d names = (d', e) ->
  NoDup (d_resp d') /\ exists taken rest, names = taken ++ rest /\ d_resp d' = d_resp d ++ taken /\ match rest with [] => e = None | n :: _ => In n (d_resp d') /\ e = Some RuntimeError end.
Proof.
  intros S names. induction names as [|n names IH]; intros d d' e N E; cbn in E.
  - injection E as <- <-. split; [exact N|]. exists [], []. split; [reflexivity|]. split; [symmetry; apply app_nil_r|reflexivity].
  - destruct (existsb (teqb n) (d_resp d)) eqn:X.
    + injection E as <- <-. split; [exact N|]. exists [], (n :: names). split; [reflexivity|]. split; [symmetry; apply app_nil_r|]. split; [|reflexivity]. apply existsb_exists in X. destruct X as (m & Hm & T). destruct (teqb_spec n m) as [->|]; [exact Hm|discriminate].
    + assert (F : ~ In n (d_resp d)) by (intros H; assert (existsb (teqb n) (d_resp d) = true) by (apply existsb_exists; exists n; split; [exact H|apply teqb_refl]); congruence).
      assert (N' : NoDup (d_resp d ++ [n])) by (apply NoDup_Add with (a := n) (l := d_resp d); [rewrite <- (app_nil_r (d_resp d)) at 1; apply Add_app|split; assumption]).
      destruct (IH (mkD (d_resp d ++ [n]) (d_recs d) (d_rec d) (d_load d) (d_iter d)) _ _ N' E) as (I1 & taken & rest & -> & I2 & I3). split; [exact I1|]. exists (n :: taken), rest. split; [reflexivity|]. cbn [d_resp] in I2. rewrite <- app_assoc in I2. split; [exact I2|exact I3].
Qed.
Print Assumptions C117_names.
(** So a variable that is both objective and constraint is refused when responses are added
    automatically. *)
Theorem C117_auto_refuted : forall (S : Type) (d : driver S) n d1 d2 e2, add_response d [n] = (d1, None) -> add_response d1 [n] = (d2, e2) -> e2 = Some RuntimeError.
Proof.
  intros S d n d1 d2 e2 E1 E2. cbn in E1. destruct (existsb (teqb n) (d_resp d)); [discriminate|]. injection E1 as <-. cbn in E2. rewrite existsb_app in E2. cbn in E2. rewrite teqb_refl, orb_true_r in E2. injection E2 as _ <-. reflexivity.
Qed.
Print Assumptions C117_auto_refuted.

(** Each setup leaves one more recorder behind, which goes on recording and is never reset. *)
Theorem C117_setup_refuted : forall (S : Type) (d : driver S) k, d_resp d <> [] -> length (d_recs (Nat.iter k setup d)) = (length (d_recs d) + k)%nat.
Proof.
  intros S d k H. assert (P : d_resp (Nat.iter k setup d) = d_resp d /\ length (d_recs (Nat.iter k setup d)) = (length (d_recs d) + k)%nat); [|apply P]. induction k as [|k [I1 I2]]; [split; [reflexivity|cbn; lia]|]. cbn [Nat.iter]. change (Nat.iter (Datatypes.S k) setup d) with (setup (Nat.iter k setup d)). unfold setup at 1 3.
  destruct (d_resp (Nat.iter k setup d)) as [|a l] eqn:E; [rewrite <- I1 in H; contradiction|]. split; [exact I1|]. cbn [d_recs]. rewrite app_length. cbn [length]. lia.
Qed.
Print Assumptions C117_setup_refuted.
(** Without responses there are none. *)
Theorem C117_none : forall (V X S : Type) (sd : V -> txt -> X -> V) solve (select : list txt -> V -> S) d v cases, d_rec d = None -> get_responses (fst (fst (run sd solve select d v cases))) = [].
Proof.
  intros V X S sd solve select d v cases H. unfold get_responses. assert (E : forall cases (d : driver S) v, d_rec (fst (fst (run_serial sd solve select d v cases))) = d_rec d).
  { clear. induction cases as [|c cases IH]; intros d v; [reflexivity|]. cbn [run_serial]. destruct (solve (prep sd v c)) as [w [| |x]]; [rewrite IH; reflexivity|rewrite IH; reflexivity|]. destruct (d_load d); [rewrite IH; reflexivity|reflexivity]. }
  unfold run. rewrite E. cbn [d_rec]. rewrite H. reflexivity.
Qed.
Print Assumptions C117_none.

(** f(x) = 10/x with x = 0 an AnalysisError *)
Definition ex_set (v : nat * nat) (n : txt) (x : nat) : nat * nat := (x, snd v).
Definition ex_solve (v : nat * nat) : (nat * nat) * outcome := match fst v with O => (v, Analysis) | 9%nat => (v, Other ValueError) | _ => ((fst v, Nat.div 10 (fst v)), Done) end.
Definition ex_d : driver (list nat) := setup (mkD [t_ "y"] [] None true 7).
Example C117_ex :
  let r := run ex_set ex_solve (fun _ v => [snd v]) ex_d (0, 0)%nat [[(t_ "x", 2)]; [(t_ "x", 0)]; [(t_ "x", 5)]; [(t_ "x", 9)]; [(t_ "x", 1)]]%nat in
  get_responses (fst (fst r)) = [mkE [5]%nat 0 true false; mkE [5]%nat 1 false true; mkE [2]%nat 2 true false] /\ snd r = Some ValueError /\ set_up ex_d.
Proof. split; [vm_compute; reflexivity|]. split; [vm_compute; reflexivity|]. apply setup_ready. discriminate. Qed.

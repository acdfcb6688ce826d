(** C135: failing on all processes together. *)
From Verif Require Import Base BaseFacts MfcModel MfcSpec.
Local Open Scope string_scope.
Local Open Scope list_scope.
Local Open Scope nat_scope.

Lemma heads_checked : forall trace kind ps, (forall p r, In p ps -> p <> Ret r) -> heads kind (map (checked trace) ps) = match heads kind ps with Some (vs, ks) => Some (vs, map (fun k l => checked trace (k l)) ks) | None => None end.
Proof.
  intros trace kind. induction ps as [|p ps IH]; intros H; [reflexivity|]. destruct p as [r|o v k]; [exfalso; apply (H (Ret r) r); [left|]; reflexivity|]. cbn. destruct (o =? kind); [|reflexivity]. rewrite IH by (intros q r I; apply H; right; exact I). destruct (heads kind ps) as [[vs ks]|]; reflexivity.
Qed.
Lemma heads_no_ret : forall A kind (ps : list (prog A)) x, heads kind ps = Some x -> forall p r, In p ps -> p <> Ret r.
Proof. intros A kind. induction ps as [|q ps IH]; intros x H p r I; [destruct I|]. destruct q as [?|o v k]; cbn in H; [discriminate H|]. destruct (o =? kind); [|discriminate H]. destruct (heads kind ps) as [y|] eqn:E; [|discriminate H]. destruct I as [<-|I]; [discriminate|]. exact (IH y eq_refl p r I). Qed.
Lemma step_checked : forall trace ps qs, step ps = Some qs -> step (map (checked trace) ps) = Some (map (checked trace) qs).
Proof.
  intros trace [|[r|o v k] ps] qs H; cbn [step] in H; try discriminate H. destruct (heads o (Coll o v k :: ps)) as [[vs ks]|] eqn:E; [|discriminate H]. injection H as <-. unfold step. change (map (checked trace) (Coll o v k :: ps)) with (Coll o v (fun l => checked trace (k l)) :: map (checked trace) ps). cbv iota beta.
  change (Coll o v (fun l => checked trace (k l)) :: map (checked trace) ps) with (map (checked trace) (Coll o v k :: ps)). rewrite heads_checked by (exact (heads_no_ret _ _ _ _ E)). rewrite E. rewrite !map_map. reflexivity.
Qed.
Lemma exec_checked : forall trace ps qs, exec ps qs -> exec (map (checked trace) ps) (map (checked trace) qs).
Proof. intros trace ps qs H. induction H as [ps|ps qs rs S0 H IH]; [constructor|]. econstructor; [apply step_checked; exact S0|exact IH]. Qed.
Lemma exec_trans : forall A (a b c : list (prog A)), exec a b -> exec b c -> exec a c.
Proof. intros A a b c H. revert c. induction H as [ps|ps qs rs S0 H IH]; intros c H2; [exact H2|]. econstructor; [exact S0|]. apply IH. exact H2. Qed.

Definition text_of (trace : pyerr -> string) (r : res unit) : string := match r with Ok _ => "" | Err e => trace e end.
Lemma heads_rets : forall trace rs, heads 0 (map (checked trace) (map Ret rs)) = Some (map (text_of trace) rs, map (fun _ fails => Ret (first_fail 0 fails)) rs).
Proof. intros trace. induction rs as [|r rs IH]; [reflexivity|]. cbn [map]. destruct r as [u|e]; cbn; rewrite IH; reflexivity. Qed.
Lemma step_rets : forall trace rs, rs <> [] -> step (map (checked trace) (map Ret rs)) = Some (map (fun _ => Ret (first_fail 0 (map (text_of trace) rs))) rs).
Proof.
  intros trace rs N. assert (E : step (map (checked trace) (map Ret rs)) = match heads 0 (map (checked trace) (map Ret rs)) with Some (vs, ks) => Some (map (fun k => k vs) ks) | None => None end) by (destruct rs as [|[u|e] rs]; [contradiction|reflexivity|reflexivity]). rewrite E, heads_rets, map_map. reflexivity.
Qed.
Lemma first_fail_passed : forall trace rs i, (forall e, trace e <> "") -> (first_fail i (map (text_of trace) rs) = Passed <-> forall r, In r rs -> r = Ok tt).
Proof.
  intros trace rs i T. revert i. induction rs as [|r rs IH]; intros i; cbn; [split; [intros _ r []|reflexivity]|]. destruct r as [[]|e]; cbn.
  - rewrite IH. split; [intros H r [<-|I]; [reflexivity|exact (H r I)]|intros H r I; apply H; right; exact I].
  - destruct (String.eqb_spec (trace e) "") as [E|_]; [contradiction (T e E)|]. split; [discriminate|]. intros H. discriminate (H (Err e) (or_introl eq_refl)).
Qed.
Lemma first_fail_failed : forall trace rs i rank text, (forall e, trace e <> "") -> (first_fail i (map (text_of trace) rs) = Failed (i + rank) text <-> first_of trace rs rank text).
Proof.
  intros trace rs i rank text T. revert i rank. induction rs as [|r rs IH]; intros i rank; cbn.
  - split; [discriminate|]. intros (e & H & _). destruct rank; discriminate H.
  - destruct r as [[]|e]; cbn.
    + destruct rank as [|rank].
      * split; [|intros (e & [=] & _)]. intros H. exfalso. assert (G : forall l j q t, first_fail j l = Failed q t -> j <= q) by (induction l as [|f l IHl]; intros j q t Hf; cbn in Hf; [discriminate Hf|]; destruct (String.eqb f ""); [apply IHl in Hf; lia|injection Hf as -> _; lia]). apply G in H. lia.
      * replace (i + S rank) with (S i + rank) by lia. rewrite IH. split; intros (e & H & Ht & L); exists e; (split; [exact H|split; [exact Ht|]]).
        -- intros [|j] Hj; [reflexivity|]. apply (L j). lia.
        -- intros j Hj. apply (L (S j)). lia.
    + destruct (String.eqb_spec (trace e) "") as [E|_]; [contradiction (T e E)|]. split.
      * intros [= E <-]. assert (rank = 0) by lia. subst rank. exists e. split; [reflexivity|]. split; [reflexivity|]. intros j Hj. lia.
      * intros (e' & H & -> & L). destruct rank as [|rank]; [injection H as ->; rewrite Nat.add_0_r; reflexivity|]. discriminate (L 0 ltac:(lia)).
Qed.

Section Facts.
  Variable trace : pyerr -> string.
  Hypothesis trace_text : forall e, trace e <> "".
  (** If the statements end on every process, all processes go on or all raise, and then with the
      lowest failed rank and its text. *)
  Theorem C135_together : forall bodies rs, bodies <> [] -> exec bodies (map Ret rs) -> length rs = length bodies ->
    exists v, exec (map (fail_check trace true) bodies) (map (fun _ => Ret v) bodies)
      /\ (v = Passed <-> forall r, In r rs -> r = Ok tt)
      /\ forall rank text, v = Failed rank text <-> first_of trace rs rank text.
  Proof.
    intros bodies rs N H L. exists (first_fail 0 (map (text_of trace) rs)). split; [|split; [apply first_fail_passed; exact trace_text|intros rank text; apply (first_fail_failed trace rs 0 rank text trace_text)]].
    apply (exec_trans _ _ (map (checked trace) (map Ret rs))); [apply (exec_checked trace _ _ H)|]. assert (N' : rs <> []) by (intros ->; destruct bodies; [contradiction|discriminate L]).
    econstructor; [apply step_rets; exact N'|]. replace (map (fun _ => Ret (first_fail 0 (map (text_of trace) rs))) bodies) with (map (fun _ : res unit => Ret (first_fail 0 (map (text_of trace) rs))) rs); [constructor|].
    generalize (Ret (first_fail 0 (map (text_of trace) rs))) as x. clear - L. revert bodies L. induction rs as [|r rs IH]; intros [|b bodies] L x; try discriminate L; [reflexivity|]. cbn. f_equal. apply IH. injection L as L. exact L.
  Qed.
  (** But if one process fails while another waits in an operation of the statements, the failure
      is reported nowhere: all processes wait for ever. *)
  Theorem C135_waiting_refuted : forall bodies qs i j e o v k, exec bodies qs -> nth_error qs i = Some (Ret (Err e)) -> nth_error qs j = Some (Coll o v k) -> o <> 0 ->
    exists ws, exec (map (fail_check trace true) bodies) ws /\ step ws = None /\ forall w r, In w ws -> w <> Ret r.
  Proof.
    intros bodies qs i j e o v k H Hi Hj Ho. exists (map (checked trace) qs). split; [exact (exec_checked trace _ _ H)|]. split.
    - assert (Ci : nth_error (map (checked trace) qs) i = Some (Coll 0 (trace e) (fun fails => Ret (first_fail 0 fails)))) by (rewrite nth_error_map, Hi; reflexivity).
      assert (Cj : nth_error (map (checked trace) qs) j = Some (Coll o v (fun l => checked trace (k l)))) by (rewrite nth_error_map, Hj; reflexivity).
      assert (X : forall A (ps : list (prog A)) n kind o v k, nth_error ps n = Some (Coll o v k) -> o <> kind -> heads kind ps = None).
      { intros A ps. induction ps as [|p ps IH]; intros n kind o' v' k' Q D; [destruct n; discriminate Q|]. destruct n as [|n]; cbn in Q; [injection Q as ->; cbn; destruct (Nat.eqb_spec o' kind); [contradiction|reflexivity]|]. destruct p as [r|o2 v2 k2]; [reflexivity|]. cbn. destruct (o2 =? kind); [|reflexivity]. rewrite (IH n kind o' v' k' Q D). reflexivity. }
      unfold step. destruct (map (checked trace) qs) as [|[r|o1 v1 k1] ws] eqn:E; [reflexivity|reflexivity|].
      destruct (Nat.eq_dec o1 0) as [->|D]; [rewrite (X _ _ j 0 _ _ _ Cj Ho); reflexivity|]. rewrite (X _ _ i o1 _ _ _ Ci) by congruence. reflexivity.
    - intros w r I. apply in_map_iff in I. destruct I as (q & <- & _). destruct q as [[u|e']|o' v' k']; discriminate.
  Qed.
  (** Without MPI the exception is left alone. *)
  Theorem C135_alone : forall r, fail_check trace false (Ret r) = Ret (match r with Ok _ => Passed | Err e => Raised e end).
  Proof. intros [u|e]; reflexivity. Qed.
End Facts.
Theorem C135_any : forall exprs, any_proc_is_true exprs = true <-> In true exprs.
Proof.
  intros exprs. unfold any_proc_is_true. rewrite Nat.ltb_lt. assert (G : forall l n, 0 < fold_left (fun n (b : bool) => n + if b then 1 else 0) l n <-> 0 < n \/ In true l).
  { induction l as [|b l IH]; intros n; cbn; [tauto|]. rewrite IH. destruct b; split; intros H; [destruct H; tauto|left; lia|destruct H; [left; lia|tauto]|]. destruct H as [H|[H|H]]; [left; lia|discriminate H|tauto]. }
  rewrite G. split; [intros [H|H]; [lia|exact H]|tauto].
Qed.
Print Assumptions C135_together.
Print Assumptions C135_waiting_refuted.
Print Assumptions C135_alone.
Print Assumptions C135_any.

(** three processes with one operation; the last two fail after it, and the first would; then one
    fails before it *)
Definition mfc_trace (e : pyerr) : string := match e with KeyError => "key" | _ => "other" end.
Definition mfc_body (r : res unit) : prog (res unit) := Coll 1 "x" (fun l => if length l =? 3 then Ret r else Ret (Err ValueError)).
Example C135_ex : exec [mfc_body (Ok tt); mfc_body (Err KeyError); mfc_body (Err TypeError)] (map Ret [Ok tt; Err KeyError; Err TypeError])
  /\ exec (map (fail_check mfc_trace true) [mfc_body (Ok tt); mfc_body (Err KeyError); mfc_body (Err TypeError)]) [Ret (Failed 1 "key"); Ret (Failed 1 "key"); Ret (Failed 1 "key")]
  /\ first_of mfc_trace [Ok tt; Err KeyError; Err TypeError] 1 "key"
  /\ step (map (fail_check mfc_trace true) [mfc_body (Ok tt); Ret (Err KeyError)]) = None
  /\ any_proc_is_true [false; true; true] = true.
Proof.
  split; [|split; [|split; [|split; reflexivity]]].
  - eapply e_step; [reflexivity|]. cbn. constructor.
  - eapply e_step; [reflexivity|]. cbn. eapply e_step; [reflexivity|]. cbn. constructor.
  - exists KeyError. split; [reflexivity|]. split; [reflexivity|]. intros [|i] H; [reflexivity|lia].
Qed.

(** Lemmas about the rounds of a parallel design of experiments. *)
From Verif Require Import Base EvalSpec EvalProofs ParModel ParSpec ParProofs.
Local Open Scope nat_scope.

Lemma skipn_nth : forall X (l : list X) t, skipn t l = match nth_error l t with Some c => c :: skipn (S t) l | None => [] end.
Proof. intros X. induction l as [|x l IH]; intros [|t]; cbn; try reflexivity. apply IH. Qed.
Lemma firstn_nth : forall X (l : list X) t, firstn (S t) l = match nth_error l t with Some c => firstn t l ++ [c] | None => firstn t l end.
Proof. intros X. induction l as [|x l IH]; intros [|t]; try reflexivity. change (x :: firstn (S t) l = match nth_error l t with Some c => x :: (firstn t l ++ [c]) | None => x :: firstn t l end). rewrite IH. destruct (nth_error l t); reflexivity. Qed.
Lemma list_sum_zero : forall l, list_sum l = 0 <-> Forall (fun x => x = 0) l.
Proof. induction l as [|x l IH]; [split; [constructor|reflexivity]|]. change (list_sum (x :: l)) with (x + list_sum l). split; intros H; [constructor; [lia|apply IH; lia]|]. assert (x = 0) by (apply (Forall_inv H)). apply Forall_inv_tail in H. apply IH in H. lia. Qed.

(** ** the processes *)
Lemma pids_in : forall sizes g j, In (g, j) (pids sizes) <-> exists n, nth_error sizes g = Some n /\ j < n.
Proof.
  intros sizes g j. unfold pids. assert (K : forall l a, In (g, j) (flat_map (fun gn => map (pair (fst gn)) (seq 0 (snd gn))) (combine (seq a (length l)) l)) <-> exists n, a <= g /\ nth_error l (g - a) = Some n /\ j < n).
  { induction l as [|x l IH]; intros a; [cbn; split; [contradiction|intros (n & _ & H & _); destruct (g - a); discriminate]|]. cbn [length seq combine flat_map]. rewrite in_app_iff, IH. cbn [fst snd]. split.
    - intros [H|(n & L & H & J)]; [apply in_map_iff in H; destruct H as (k & E & H); injection E as -> ->; apply in_seq in H; exists x; rewrite Nat.sub_diag; cbn; repeat split; lia|]. exists n. repeat split; [lia| |exact J]. replace (g - a) with (S (g - S a)) by lia. exact H.
    - intros (n & L & H & J). destruct (Nat.eq_dec a g) as [-> |D]; [left; rewrite Nat.sub_diag in H; injection H as ->; apply in_map; apply in_seq; lia|]. right. exists n. repeat split; [lia| |exact J]. replace (g - a) with (S (g - S a)) in H by lia. exact H. }
  rewrite K. rewrite Nat.sub_0_r. split; intros (n & H); exists n; [tauto|]. split; [lia|tauto].
Qed.
Lemma case_one : forall a n, filter (member Case) (map (pair a) (seq 0 (S n))) = [(a, 0)].
Proof.
  intros a n. change (seq 0 (S n)) with (0 :: seq 1 n). cbn [map]. change (filter (member Case) ((a, 0) :: map (pair a) (seq 1 n))) with ((a, 0) :: filter (member Case) (map (pair a) (seq 1 n))). f_equal.
  assert (K : forall b, 1 <= b -> filter (member Case) (map (pair a) (seq b n)) = []); [|apply K; lia]. induction n as [|n IHn]; intros b Hb; [reflexivity|]. destruct b; [lia|]. cbn. apply IHn. lia.
Qed.
Lemma pids_case : forall sizes, Forall (fun n => 1 <= n) sizes -> filter (member Case) (pids sizes) = map (fun g => (g, 0)) (seq 0 (length sizes)).
Proof.
  intros sizes. unfold pids. assert (K : forall l a, Forall (fun n => 1 <= n) l -> filter (member Case) (flat_map (fun gn => map (pair (fst gn)) (seq 0 (snd gn))) (combine (seq a (length l)) l)) = map (fun g => (g, 0)) (seq a (length l))); [|apply K].
  clear sizes. induction l as [|n l IH]; intros a H; [reflexivity|]. cbn [length seq combine flat_map]. cbn [fst snd map]. rewrite filter_app, IH by exact (Forall_inv_tail H). apply Forall_inv in H. destruct n as [|n]; [lia|]. rewrite case_one. reflexivity.
Qed.
Lemma pids_first : forall sizes, Forall (fun n => 1 <= n) sizes -> sizes <> [] -> exists r, pids sizes = (0, 0) :: r.
Proof. intros [|n sizes] H N; [congruence|]. apply Forall_inv in H. destruct n as [|n]; [lia|]. unfold pids. cbn. eauto. Qed.

Definition reaches {S : Type} (step : S -> S -> Prop) (s : S) (P : S -> Prop) : Prop := exists f, exec step s f /\ (forall u, ~ step f u) /\ P f.
Section Rounds.
  Variable C : Type.
  Variable fatal : pid -> C -> bool.
  Variable recorders serial : bool.
  Variable nvars : nat.
  Variable cases : list C.
  Variable ndoe : nat.
  Notation step := (step fatal recorders serial nvars cases ndoe).
  Notation exec := (exec step).
  Variable sizes : list nat.
  Hypothesis szs : Forall (fun n => 1 <= n) sizes.
  Hypothesis some : sizes <> [].
  Variable mine : nat -> list C.
  Notation ids := (pids sizes).
  Notation mk := (mkst C ids).
  Notation real t p := (nth_error (mine (fst p)) t).
  Notation rec := (to_record mine (length sizes) recorders serial).
  Notation turn := (@turn C).

  Definition F0 t (p : pid) : pst C := turn p (skipn t (mine (fst p))) (firstn t (mine (fst p))) (rec t p).
  Definition F1 t (p : pid) : pst C := match real t p with Some c => PRun c (skipn (S t) (mine (fst p))) (firstn (S t) (mine (fst p))) (rec t p) | None => PDummy (firstn (S t) (mine (fst p))) (rec t p) end.
  Definition F2 t (lev : nat -> nat) (p : pid) : pst C :=
    match real t p with
    | Some c => save_vars recorders serial p (lev (fst p)) c (skipn (S t) (mine (fst p))) (firstn (S t) (mine (fst p))) (rec t p)
    | None => if recorders then PDumCase (firstn (S t) (mine (fst p))) (rec t p) else turn p [] (firstn (S t) (mine (fst p))) (rec t p)
    end.

  Lemma case_ne : filter (member Case) ids <> [].
  Proof. rewrite pids_case by exact szs. destruct sizes; [congruence|discriminate]. Qed.
  Lemma full_eq : filter (member Full) ids = ids.
  Proof. induction ids as [|p l IH]; [reflexivity|]. cbn. rewrite IH. reflexivity. Qed.
  Lemma full_ne : filter (member Full) ids <> [].
  Proof. rewrite full_eq. destruct (pids_first sizes szs some) as (r & ->). discriminate. Qed.
  Lemma id_lt : forall p, In p ids -> fst p < length sizes.
  Proof. intros [g j] H. apply pids_in in H. destruct H as (n & H & _). cbn. apply nth_error_Some. congruence. Qed.
  Lemma id_case : forall g, g < length sizes -> In (g, 0) ids.
  Proof. intros g H. apply pids_in. destruct (nth_error sizes g) as [n|] eqn:E; [|apply nth_error_None in E; lia]. exists n. split; [reflexivity|]. apply nth_error_In in E. rewrite Forall_forall in szs. apply szs in E. lia. Qed.

  (** the does have cases left; processes with rank > 0 in a doe have a case *)
  Lemma start_round : forall t, is_round mine (length sizes) t -> (forall p, In p ids -> snd p = 0 \/ real t p <> None) -> step (mk (F0 t)) (mk (F1 t)).
  Proof.
    intros t (g & Hg & Rg) Hj.
    apply (fire_all C fatal recorders serial nvars cases ndoe ids _ _ Case Sum (fun p => VNat (match skipn t (mine (fst p)) with [] => 0 | _ => 1 end))
      (fun p a => match a with RNat 0 => PDone (firstn t (mine (fst p))) (rec t p) | _ => match skipn t (mine (fst p)) with [] => PDummy (firstn t (mine (fst p))) (rec t p) | c :: l' => PRun c l' (firstn t (mine (fst p)) ++ [c]) (rec t p) end end)).
    - exact case_ne.
    - intros p Hp M. cbn in M. unfold F0, ParModel.turn. rewrite M. reflexivity.
    - intros p Hp M. cbn [respond]. rewrite map_map. cbn [snd nat_of].
      destruct (list_sum (map (fun x : pid => match skipn t (mine (fst x)) with [] => 0 | _ => 1 end) (filter (member Case) ids))) as [|n] eqn:E.
      + exfalso. apply list_sum_zero in E. rewrite Forall_map, Forall_forall in E. assert (K := E (g, 0)). cbn [fst] in K. rewrite skipn_nth in K. destruct (nth_error (mine g) t) eqn:X; [|congruence]. discriminate K. apply filter_In. split; [apply id_case; exact Hg|reflexivity].
      + unfold F1. rewrite (skipn_nth _ _ t), firstn_nth. destruct (real t p); reflexivity.
    - intros p Hp M. cbn in M. unfold F1, F0, ParModel.turn. rewrite M, (skipn_nth _ _ t), firstn_nth. destruct (Hj p Hp) as [Z|Z]; [rewrite Z in M; discriminate|]. destruct (real t p); [reflexivity|congruence].
  Qed.

  Lemma sum_fatal : forall t, list_sum (map (fun x : pid * val C => nat_of (snd x)) (map (fun q : pid => (q, VNat (match real t q with Some c => if fatal q c then 1 else 0 | None => 0 end) : val C)) (filter (member Full) ids))) = 0 <-> ~ fails_in mine fatal sizes t.
  Proof.
    intros t. rewrite full_eq, map_map. cbn [snd nat_of]. rewrite list_sum_zero, Forall_map, Forall_forall. split.
    - intros H (p & c & Hp & R & F). specialize (H p Hp). cbv beta in H. rewrite R, F in H. discriminate.
    - intros H p Hp. destruct (real t p) as [c|] eqn:R; [|reflexivity]. destruct (fatal p c) eqn:F; [|reflexivity]. exfalso. apply H. exists p, c. auto.
  Qed.
  Lemma run_round : forall t, ~ fails_in mine fatal sizes t -> step (mk (F1 t)) (mk (F2 t (fun _ => gathers recorders serial nvars))).
  Proof.
    intros t NF.
    apply (fire_all C fatal recorders serial nvars cases ndoe ids _ _ Full Sum (fun p => VNat (match real t p with Some c => if fatal p c then 1 else 0 | None => 0 end))
      (fun p a => match real t p with Some c => match a with RNat 0 => save_vars recorders serial p (gathers recorders serial nvars) c (skipn (S t) (mine (fst p))) (firstn (S t) (mine (fst p))) (rec t p) | _ => PFail (firstn (S t) (mine (fst p))) (rec t p) end
                  | None => if recorders then PDumCase (firstn (S t) (mine (fst p))) (rec t p) else turn p [] (firstn (S t) (mine (fst p))) (rec t p) end)).
    - exact full_ne.
    - intros p Hp _. unfold F1. destruct (real t p) as [c|]; reflexivity.
    - intros p Hp _. unfold F2. destruct (real t p) as [c|] eqn:R; [|reflexivity]. cbn [respond]. rewrite (proj2 (sum_fatal t) NF). reflexivity.
    - intros p Hp M. discriminate.
  Qed.
  Lemma fail_round : forall t, fails_in mine fatal sizes t -> full_round mine (length sizes) t -> step (mk (F1 t)) (mk (fun p => PFail (firstn (S t) (mine (fst p))) (rec t p))).
  Proof.
    intros t NF FR.
    apply (fire_all C fatal recorders serial nvars cases ndoe ids _ _ Full Sum (fun p => VNat (match real t p with Some c => if fatal p c then 1 else 0 | None => 0 end))
      (fun p a => match real t p with Some c => match a with RNat 0 => save_vars recorders serial p (gathers recorders serial nvars) c (skipn (S t) (mine (fst p))) (firstn (S t) (mine (fst p))) (rec t p) | _ => PFail (firstn (S t) (mine (fst p))) (rec t p) end
                  | None => if recorders then PDumCase (firstn (S t) (mine (fst p))) (rec t p) else turn p [] (firstn (S t) (mine (fst p))) (rec t p) end)).
    - exact full_ne.
    - intros p Hp _. unfold F1. destruct (real t p) as [c|]; reflexivity.
    - intros p Hp _. destruct (real t p) as [c|] eqn:R; [|destruct (FR (fst p) (id_lt p Hp) R)]. cbn [respond].
      destruct (list_sum (map (fun x : pid * val C => nat_of (snd x)) (map (fun q : pid => (q, VNat (match real t q with Some c => if fatal q c then 1 else 0 | None => 0 end) : val C)) (filter (member Full) ids)))) eqn:E; [|reflexivity].
      exfalso. apply (sum_fatal t) in E. contradiction.
    - intros p Hp M. discriminate.
  Qed.

  (** the gathers of variables, doe after doe *)
  Definition setl (lev : nat -> nat) g n x := if x =? g then n else lev x.
  Lemma vars_group : forall t g n lev, g < length sizes -> lev g = n -> exec (mk (F2 t lev)) (mk (F2 t (setl lev g 0))).
  Proof.
    intros t g n. induction n as [|n IH]; intros lev Hg L.
    - rewrite (mkst_ext C ids (F2 t (setl lev g 0)) (F2 t lev)); [constructor|]. intros p Hp. unfold F2, setl. destruct (real t p); [|reflexivity]. destruct (fst p =? g) eqn:E; [|reflexivity]. apply Nat.eqb_eq in E. rewrite E, L. reflexivity.
    - destruct (nth_error (mine g) t) as [c|] eqn:R.
      + apply exec_cons with (mk (F2 t (setl lev g n))).
        * apply (fire_all C fatal recorders serial nvars cases ndoe ids _ _ (Grp g) GatherVars (fun p => VCase (Some c)) (fun p _ => save_vars recorders serial p n c (skipn (S t) (mine (fst p))) (firstn (S t) (mine (fst p))) (rec t p))).
          -- intros E. assert (K : In (g, 0) (filter (member (Grp g)) ids)) by (apply filter_In; split; [apply id_case; exact Hg|cbn; apply Nat.eqb_refl]). rewrite E in K. destruct K.
          -- intros p Hp M. cbn in M. apply Nat.eqb_eq in M. unfold F2. rewrite M, R, L. unfold save_vars. cbn [Nat.eqb]. cbn [ParModel.act]. rewrite M. cbn [Nat.sub]. rewrite Nat.sub_0_r. reflexivity.
          -- intros p Hp M. cbn in M. unfold F2, setl. rewrite M. apply Nat.eqb_eq in M. rewrite M, R. reflexivity.
          -- intros p Hp M. cbn in M. unfold F2, setl. rewrite M. reflexivity.
        * rewrite (mkst_ext C ids (F2 t (setl lev g 0)) (F2 t (setl (setl lev g n) g 0))); [apply IH; [exact Hg|unfold setl; rewrite Nat.eqb_refl; reflexivity]|].
          intros p Hp. unfold F2, setl. destruct (fst p =? g); reflexivity.
      + rewrite (mkst_ext C ids (F2 t (setl lev g 0)) (F2 t lev)); [constructor|]. intros p Hp. unfold F2, setl. destruct (fst p =? g) eqn:E; [|reflexivity]. apply Nat.eqb_eq in E. rewrite E, R. reflexivity.
  Qed.
  Lemma vars_all : forall t lev, exec (mk (F2 t lev)) (mk (F2 t (fun _ => 0))).
  Proof.
    intros t lev. assert (K : forall gs lev, (forall g, In g gs -> g < length sizes) -> exec (mk (F2 t lev)) (mk (F2 t (fold_left (fun l g => setl l g 0) gs lev)))).
    { induction gs as [|g gs IH]; intros l H; [constructor|]. cbn. eapply exec_app; [apply (vars_group t g (l g)); [apply H; left; reflexivity|reflexivity]|apply IH; intros; apply H; right; assumption]. }
    rewrite (mkst_ext C ids (F2 t (fun _ => 0)) (F2 t (fold_left (fun l g => setl l g 0) (seq 0 (length sizes)) lev))); [apply K; intros g Hg; apply in_seq in Hg; lia|].
    intros p Hp. apply id_lt in Hp. unfold F2. destruct (real t p); [|reflexivity]. f_equal. assert (Z : forall gs l x, In x gs \/ l x = 0 -> fold_left (fun l g => setl l g 0) gs l x = 0).
    { induction gs as [|g gs IH]; intros l x [H|H]; cbn; try contradiction; [exact H| |]; apply IH; unfold setl; destruct (x =? g) eqn:E; auto. destruct H as [-> |H]; [rewrite Nat.eqb_refl in E; discriminate|auto]. }
    symmetry. apply Z. left. apply in_seq. lia.
  Qed.

  (** the cases are recorded *)
  Lemma rec_S : forall t p, In p ids -> rec (S t) p = rec t p ++ (if negb recorders then [] else if serial then (if (fst p =? 0) && (snd p =? 0) then round mine (length sizes) t else []) else match real t p with Some c => [c] | None => [] end).
  Proof.
    intros t p Hp. unfold to_record. destruct recorders; cbn [negb]; [|reflexivity]. destruct serial; [|rewrite firstn_nth; destruct (real t p); [reflexivity|rewrite app_nil_r; reflexivity]]. destruct ((fst p =? 0) && (snd p =? 0)); [|reflexivity]. rewrite seq_S, flat_map_app. cbn. rewrite app_nil_r. reflexivity.
  Qed.
  Lemma none_next : forall t X (l : list X), nth_error l t = None -> skipn (S t) l = [].
  Proof. intros t X l H. apply skipn_all2. apply nth_error_None in H. lia. Qed.
  Hypothesis root_first : forall t, is_round mine (length sizes) t -> nth_error (mine 0) t <> None.
  Lemma somes_round : forall t, somes (map (fun q : nat => nth_error (mine q) t) (seq 0 (length sizes))) = round mine (length sizes) t.
  Proof. intros t. unfold somes, round. induction (seq 0 (length sizes)) as [|g l IH]; [reflexivity|]. cbn. rewrite IH. reflexivity. Qed.
  Lemma record_round : forall t, is_round mine (length sizes) t -> (recorders = true -> serial = false -> full_round mine (length sizes) t) -> (forall p, In p ids -> snd p = 0 \/ real t p <> None) -> exec (mk (F2 t (fun _ => 0))) (mk (F0 (S t))).
  Proof.
    intros t IR HP Hj. destruct recorders eqn:HR; [destruct serial eqn:HS|].
    - apply exec_cons with (mk (F0 (S t))); [|constructor].
      apply (fire_all C fatal true true nvars cases ndoe ids _ _ Case Gather (fun p => VCase (real t p))
        (fun p a => match real t p with Some c => match a with RCases (Some cs) => turn p (skipn (S t) (mine (fst p))) (firstn (S t) (mine (fst p))) (to_record mine (length sizes) true true t p ++ somes cs) | _ => turn p (skipn (S t) (mine (fst p))) (firstn (S t) (mine (fst p))) (to_record mine (length sizes) true true t p) end | None => turn p [] (firstn (S t) (mine (fst p))) (to_record mine (length sizes) true true t p) end)).
      + exact case_ne.
      + intros p Hp M. cbn in M. unfold F2, save_vars, save. rewrite HR, HS. cbn [Nat.eqb]. rewrite M. destruct (real t p); reflexivity.
      + intros p Hp M. cbn in M. apply Nat.eqb_eq in M. unfold F0. rewrite (rec_S t p Hp), HR, HS. cbn [negb]. rewrite (pids_case _ szs), map_map. rewrite M. cbn [Nat.eqb]. rewrite andb_true_r.
        assert (Rs : forall l : list (pid * val C), l = map (fun x : nat => ((x, 0), VCase (real t (x, 0)) : val C)) (seq 0 (length sizes)) -> respond Gather l p = RCases (if fst p =? 0 then Some (map (fun g => nth_error (mine g) t) (seq 0 (length sizes))) else None)).
        { intros l El. assert (Em : map (fun x : pid * val C => case_in (snd x)) l = map (fun g => nth_error (mine g) t) (seq 0 (length sizes))) by (rewrite El, map_map; reflexivity). cbn [respond]. rewrite Em. pose proof (id_lt p Hp) as LG. destruct (length sizes) as [|G]; [lia|]. rewrite El. cbn [seq map]. cbn [fst snd]. rewrite M. cbn [Nat.eqb]. rewrite andb_true_r. destruct (fst p); reflexivity. }
        match goal with |- context [respond Gather ?l p] => rewrite (Rs l eq_refl) end. destruct (fst p =? 0) eqn:Z.
        * rewrite somes_round. apply Nat.eqb_eq in Z. destruct (real t p) as [c|] eqn:R; [reflexivity|]. rewrite Z in R. destruct (root_first t IR R).
        * rewrite app_nil_r. destruct (real t p) as [c|] eqn:R; [reflexivity|]. rewrite (none_next _ _ _ R). reflexivity.
      + intros p Hp M. cbn in M. destruct (Hj p Hp) as [Z|Z]; [rewrite Z in M; discriminate|]. unfold F2, F0, save_vars, save. rewrite (rec_S t p Hp), HR, HS, M. cbn [negb]. rewrite andb_false_r, app_nil_r. destruct (real t p); [reflexivity|congruence].
    - rewrite (mkst_ext C ids _ (F0 (S t))); [constructor|]. intros p Hp. unfold F2, F0, save_vars, save. rewrite (rec_S t p Hp), HR, HS. cbn [negb Nat.eqb]. assert (K := HP eq_refl eq_refl (fst p) (id_lt p Hp)). destruct (real t p); [reflexivity|congruence].
    - rewrite (mkst_ext C ids _ (F0 (S t))); [constructor|]. intros p Hp. unfold F2, F0, save_vars, save. rewrite (rec_S t p Hp), HR. cbn [negb Nat.eqb]. rewrite app_nil_r. destruct (real t p) eqn:R; [reflexivity|]. rewrite (none_next _ _ _ R). reflexivity.
  Qed.

  (** the last round *)
  Lemma end_rounds : forall t, ~ is_round mine (length sizes) t -> step (mk (F0 t)) (mk (fun p => PDone (mine (fst p)) (rec t p))).
  Proof.
    intros t NR. assert (N : forall p, In p ids -> real t p = None) by (intros p Hp; destruct (real t p) eqn:R; [|reflexivity]; exfalso; apply NR; exists (fst p); split; [apply id_lt; exact Hp|congruence]).
    assert (Fn : forall p, In p ids -> firstn t (mine (fst p)) = mine (fst p)) by (intros p Hp; apply firstn_all2; apply nth_error_None; apply N; exact Hp).
    apply (fire_all C fatal recorders serial nvars cases ndoe ids _ _ Case Sum (fun p => VNat 0) (fun p a => match a with RNat 0 => PDone (firstn t (mine (fst p))) (rec t p) | _ => PDummy (firstn t (mine (fst p))) (rec t p) end)).
    - exact case_ne.
    - intros p Hp M. cbn in M. unfold F0, ParModel.turn. rewrite M, skipn_nth, (N p Hp). reflexivity.
    - intros p Hp M. cbn [respond]. assert (Z : list_sum (map (fun x : pid * val C => nat_of (snd x)) (map (fun q : pid => (q, VNat 0 : val C)) (filter (member Case) ids))) = 0) by (apply list_sum_zero; rewrite map_map; cbn; apply Forall_map; apply Forall_forall; reflexivity). rewrite Z, (Fn p Hp). reflexivity.
    - intros p Hp M. cbn in M. unfold F0, ParModel.turn. rewrite M, skipn_nth, (N p Hp), (Fn p Hp). reflexivity.
  Qed.

  Lemma short_real : forall t, short_single mine sizes t -> forall p, In p ids -> snd p = 0 \/ real t p <> None.
  Proof. intros t D [g j] Hp. apply pids_in in Hp. destruct Hp as (k & E & L). cbn [fst snd]. destruct (nth_error (mine g) t) eqn:R; [right; discriminate|]. specialize (D g k E R). left. lia. Qed.
  Lemma rounds : forall n, (forall t, t < n -> is_round mine (length sizes) t /\ ~ fails_in mine fatal sizes t /\ (full_round mine (length sizes) t \/ (short_single mine sizes t /\ (recorders = true -> serial = true)))) -> exec (mk (F0 0)) (mk (F0 n)).
  Proof.
    induction n as [|n IH]; intros H; [constructor|]. eapply exec_app; [apply IH; intros t L; apply H; lia|]. destruct (H n) as (IR & NF & D); [lia|].
    assert (Hj : forall p, In p ids -> snd p = 0 \/ real n p <> None).
    { intros p Hp. destruct D as [D|[D _]]; [right; apply D; apply id_lt; exact Hp|]. apply short_real; assumption. }
    eapply exec_cons; [apply start_round; assumption|]. eapply exec_cons; [apply run_round; exact NF|]. eapply exec_app; [apply vars_all|]. apply record_round; [exact IR| |exact Hj]. intros HR HS. destruct D as [D|[_ D]]; [exact D|]. rewrite (D HR) in HS. discriminate.
  Qed.
  Lemma mk_finished : forall f, (forall p, In p ids -> exists a b, f p = PDone a b \/ f p = PFail a b) -> finished fatal recorders serial nvars cases ndoe (mk f).
  Proof. intros f H p x I. apply in_map_iff in I. destruct I as (q & E & I). injection E as <- <-. destruct (H q I) as (a & b & [-> | ->]); reflexivity. Qed.

  (** every execution of the experiment *)
  Lemma rounds_done : forall n, ~ is_round mine (length sizes) n -> (forall t, t < n -> is_round mine (length sizes) t /\ ~ fails_in mine fatal sizes t /\ (full_round mine (length sizes) t \/ (short_single mine sizes t /\ (recorders = true -> serial = true)))) ->
      reaches step (mk (F0 0)) (all_done mine (length sizes) recorders serial n sizes).
  Proof.
    intros n NR H. eexists. split; [|split; [|reflexivity]].
    - eapply exec_snoc; [apply rounds; exact H|apply end_rounds; exact NR].
    - apply finished_final. apply mk_finished. intros p _. eauto.
  Qed.
  Lemma rounds_failed : forall n, fails_in mine fatal sizes n -> full_round mine (length sizes) n -> (forall t, t < n -> ~ fails_in mine fatal sizes t) -> (forall g g', g < length sizes -> g' < length sizes -> length (mine g) <= S (length (mine g'))) ->
      reaches step (mk (F0 0)) (all_failed mine (length sizes) recorders serial n sizes).
  Proof.
    intros n FN FR H EV. assert (G : 0 < length sizes) by (destruct sizes; [congruence|cbn; lia]).
    assert (FL : forall t, t <= n -> full_round mine (length sizes) t) by (intros t L g Hg; specialize (FR g Hg); apply nth_error_Some in FR; apply nth_error_Some; lia).
    eexists. split; [|split; [|reflexivity]].
    - eapply exec_app; [apply (rounds n)|].
      + intros t L. split; [exists 0; split; [exact G|apply FL; [lia|exact G]]|]. split; [apply H; exact L|]. left. apply FL. lia.
      + eapply exec_cons; [apply start_round|].
        * exists 0. split; [exact G|apply FR; exact G].
        * intros p Hp. right. apply FR. apply id_lt. exact Hp.
        * eapply exec_cons; [apply fail_round; assumption|constructor].
    - apply finished_final. apply mk_finished. intros p _. eauto.
  Qed.

  (** ** how it can hang *)
  Notation finished := (finished fatal recorders serial nvars cases ndoe).
  Lemma hangs : forall s t, exec s t -> (forall u, ~ step t u) -> ~ finished t -> reaches step s (fun x => ~ finished x).
  Proof.
    intros s t E T N. exists t. auto.
  Qed.
  Lemma stuck : forall f, (forall c o, exists p, In p ids /\ member c p = true /\ (forall v k, ParModel.act fatal recorders serial nvars cases ndoe p (f p) <> Some (c, o, v, k)) \/ forall p, In p ids -> member c p = false) -> forall u, ~ step (mk f) u.
  Proof.
    intros f H u (c & o & E). destruct (fire_inv C fatal recorders serial nvars cases ndoe _ _ _ _ E) as (N & W & _). rewrite members_mk in N, W. destruct (H c o) as (p & [(Hp & M & A)|A]).
    - rewrite Forall_forall in W. specialize (W (p, f p)). destruct (waits_eq C fatal recorders serial nvars cases ndoe c o (p, f p)) as (v & k & E2); [apply W; apply in_map_iff; exists p; split; [reflexivity|apply filter_In; auto]|]. exact (A v k E2).
    - apply N. destruct (filter (member c) ids) as [|q l] eqn:Q; [reflexivity|]. assert (I : In q (filter (member c) ids)) by (rewrite Q; left; reflexivity). apply filter_In in I. rewrite (A q (proj1 I)) in I. destruct I. discriminate.
  Qed.
  Lemma grp_case : forall g, In (g, 0) ids \/ forall p, In p ids -> member (Grp g) p = false.
  Proof.
    intros g. destruct (Nat.lt_ge_cases g (length sizes)) as [L|L]; [left; apply id_case; exact L|]. right. intros p Hp. apply id_lt in Hp. cbn. apply Nat.eqb_neq. lia.
  Qed.
  Lemma G0 : 0 < length sizes. Proof. destruct sizes; [congruence|cbn; lia]. Qed.
  Definition F1' t (p : pid) : pst C := if snd p =? 0 then F1 t p else F0 t p.
  Lemma start_any : forall t, is_round mine (length sizes) t -> step (mk (F0 t)) (mk (F1' t)).
  Proof.
    intros t (g & Hg & Rg).
    apply (fire_all C fatal recorders serial nvars cases ndoe ids _ _ Case Sum (fun p => VNat (match skipn t (mine (fst p)) with [] => 0 | _ => 1 end))
      (fun p a => match a with RNat 0 => PDone (firstn t (mine (fst p))) (rec t p) | _ => match skipn t (mine (fst p)) with [] => PDummy (firstn t (mine (fst p))) (rec t p) | c :: l' => PRun c l' (firstn t (mine (fst p)) ++ [c]) (rec t p) end end)).
    - exact case_ne.
    - intros p Hp M. cbn in M. unfold F0, ParModel.turn. rewrite M. reflexivity.
    - intros p Hp M. cbn [respond]. rewrite map_map. cbn [snd nat_of].
      destruct (list_sum (map (fun x : pid => match skipn t (mine (fst x)) with [] => 0 | _ => 1 end) (filter (member Case) ids))) as [|n] eqn:E.
      + exfalso. apply list_sum_zero in E. rewrite Forall_map, Forall_forall in E. assert (K := E (g, 0)). cbn [fst] in K. rewrite skipn_nth in K. destruct (nth_error (mine g) t) eqn:X; [|congruence]. discriminate K. apply filter_In. split; [apply id_case; exact Hg|reflexivity].
      + unfold F1'. cbn in M. rewrite M. unfold F1. rewrite (skipn_nth _ _ t), firstn_nth. destruct (real t p); reflexivity.
    - intros p Hp M. cbn in M. unfold F1'. rewrite M. reflexivity.
  Qed.
  (** a doe without a case, with more than one process *)
  Lemma short_hangs : forall n, (forall t, t < n -> is_round mine (length sizes) t /\ ~ fails_in mine fatal sizes t /\ (full_round mine (length sizes) t \/ (short_single mine sizes t /\ (recorders = true -> serial = true)))) ->
      is_round mine (length sizes) n -> ~ short_single mine sizes n -> reaches step (mk (F0 0)) (fun x => ~ finished x).
  Proof.
    intros n H IR NS. assert (B : exists q, In q ids /\ snd q <> 0 /\ real n q = None).
    { assert (D : forall gs, (forall g, In g gs -> g < length sizes) -> (exists q, In q ids /\ snd q <> 0 /\ real n q = None) \/ forall g k, In g gs -> nth_error sizes g = Some k -> nth_error (mine g) n = None -> k = 1).
      { induction gs as [|g gs IH]; intros L; [right; intros g k []|]. destruct IH as [IH|IH]; [intros; apply L; right; assumption|left; exact IH|]. destruct (nth_error (mine g) n) eqn:R; [right; intros g' k' [<- |I] E1 E2; [congruence|eapply IH; eassumption]|].
        destruct (nth_error sizes g) as [k|] eqn:E; [|right; intros g' k' [<- |I] E1 E2; [congruence|eapply IH; eassumption]].
        destruct (Nat.le_gt_cases k 1) as [L1|L1]; [right; intros g' k' [<- |I] E1 E2; [assert (k' = k) by congruence; subst; rewrite Forall_forall in szs; pose proof (szs k (nth_error_In _ _ E)); lia|eapply IH; eassumption]|].
        left. exists (g, 1). split; [apply pids_in; exists k; auto|]. split; [discriminate|exact R]. }
      destruct (D (seq 0 (length sizes))) as [D1|D1]; [intros g I; apply in_seq in I; lia|exact D1|]. exfalso. apply NS. intros g k E R. apply (D1 g k); [|exact E|exact R]. apply in_seq. split; [lia|]. apply nth_error_Some. congruence. }
    destruct B as (q & Hq & Jq & Rq). apply Nat.eqb_neq in Jq.
    apply hangs with (mk (F1' n)); [eapply exec_snoc; [apply rounds; exact H|apply start_any; exact IR]| |].
    - assert (A0 : forall g, In (g, 0) ids -> forall c o v k, ParModel.act fatal recorders serial nvars cases ndoe (g, 0) (F1' n (g, 0)) = Some (c, o, v, k) -> c = Full).
      { intros g Hg c o v k E. unfold F1', F1 in E. cbn [snd Nat.eqb] in E. destruct (nth_error (mine (fst (g, 0))) n); cbn in E; congruence. }
      apply stuck. intros [| |g] o.
      + exists q. left. split; [exact Hq|]. split; [reflexivity|]. intros v k E. unfold F1', F0, ParModel.turn in E. rewrite Jq, skipn_nth, Rq in E. discriminate.
      + exists (0, 0). left. split; [apply id_case; exact G0|]. split; [reflexivity|]. intros v k E. apply A0 in E; [discriminate|apply id_case; exact G0].
      + exists (g, 0). destruct (grp_case g) as [I|I]; [left|right; exact I]. split; [exact I|]. split; [cbn; apply Nat.eqb_refl|]. intros v k E. apply A0 in E; [discriminate|exact I].
    - intros F. assert (I : In (0, 0) ids) by (apply id_case; exact G0). specialize (F (0, 0) (F1' n (0, 0))). assert (K : In ((0, 0), F1' n (0, 0)) (mk (F1' n))) by (apply in_map_iff; exists (0, 0); auto). specialize (F K). unfold F1', F1 in F. cbn [snd Nat.eqb] in F. destruct (nth_error (mine (fst (0, 0))) n); discriminate.
  Qed.
  (** a fatal failure while a doe has no case *)
  Lemma fail_hangs : forall n, (forall t, t < n -> is_round mine (length sizes) t /\ ~ fails_in mine fatal sizes t /\ (full_round mine (length sizes) t \/ (short_single mine sizes t /\ (recorders = true -> serial = true)))) ->
      fails_in mine fatal sizes n -> ~ full_round mine (length sizes) n -> short_single mine sizes n -> reaches step (mk (F0 0)) (fun x => ~ finished x).
  Proof.
    intros n H FN NF SS. assert (Hj := short_real n SS).
    assert (IR : is_round mine (length sizes) n) by (destruct FN as (p & c & Hp & R & _); exists (fst p); split; [apply id_lt; exact Hp|congruence]).
    assert (B : exists g, g < length sizes /\ nth_error (mine g) n = None).
    { assert (D : forall gs, (exists g, In g gs /\ nth_error (mine g) n = None) \/ forall g, In g gs -> nth_error (mine g) n <> None).
      { induction gs as [|g gs [(x & I & R)|IH]]; [right; intros g []|left; exists x; split; [right; exact I|exact R]|]. destruct (nth_error (mine g) n) eqn:R; [right; intros x [<- |I]; [congruence|apply IH; exact I]|left; exists g; split; [left; reflexivity|exact R]]. }
      destruct (D (seq 0 (length sizes))) as [(g & I & R)|D1]; [exists g; apply in_seq in I; split; [lia|exact R]|]. exfalso. apply NF. intros g Hg. apply D1. apply in_seq. lia. }
    destruct B as (g & Hg & Rg).
    set (f := fun p : pid => match real n p with Some _ => PFail (firstn (S n) (mine (fst p))) (rec n p) | None => if recorders then PDumCase (firstn (S n) (mine (fst p))) (rec n p) else turn p [] (firstn (S n) (mine (fst p))) (rec n p) end).
    apply hangs with (mk f).
    - eapply exec_snoc; [eapply exec_snoc; [apply rounds; exact H|apply start_round; assumption]|].
      apply (fire_all C fatal recorders serial nvars cases ndoe ids _ _ Full Sum (fun p => VNat (match real n p with Some c => if fatal p c then 1 else 0 | None => 0 end))
        (fun p a => match real n p with Some c => match a with RNat 0 => save_vars recorders serial p (gathers recorders serial nvars) c (skipn (S n) (mine (fst p))) (firstn (S n) (mine (fst p))) (rec n p) | _ => PFail (firstn (S n) (mine (fst p))) (rec n p) end
                    | None => if recorders then PDumCase (firstn (S n) (mine (fst p))) (rec n p) else turn p [] (firstn (S n) (mine (fst p))) (rec n p) end)).
      + exact full_ne.
      + intros p Hp _. unfold F1. destruct (real n p) as [c|]; reflexivity.
      + intros p Hp _. unfold f. destruct (real n p) as [c|] eqn:R; [|reflexivity]. cbn [respond].
        destruct (list_sum (map (fun x : pid * val C => nat_of (snd x)) (map (fun q : pid => (q, VNat (match real n q with Some c => if fatal q c then 1 else 0 | None => 0 end) : val C)) (filter (member Full) ids)))) eqn:E; [|reflexivity].
        exfalso. apply (sum_fatal n) in E. contradiction.
      + intros p Hp M. discriminate.
    - assert (R0 := root_first n IR). assert (F00 : ParModel.act fatal recorders serial nvars cases ndoe (0, 0) (f (0, 0)) = None) by (unfold f; cbn [fst]; destruct (nth_error (mine 0) n); [reflexivity|congruence]).
      assert (Df : forall h c o v k, ParModel.act fatal recorders serial nvars cases ndoe (h, 0) (f (h, 0)) = Some (c, o, v, k) -> c = Case).
      { intros h c o v k E. unfold f in E. cbn [fst] in E. destruct (nth_error (mine h) n); [discriminate|]. destruct recorders; cbn in E; congruence. }
      apply stuck. intros [| |h] o.
      + exists (0, 0). left. split; [apply id_case; exact G0|]. split; [reflexivity|]. intros v k E. rewrite F00 in E. discriminate.
      + exists (0, 0). left. split; [apply id_case; exact G0|]. split; [reflexivity|]. intros v k E. rewrite F00 in E. discriminate.
      + exists (h, 0). destruct (grp_case h) as [I|I]; [left|right; exact I]. split; [exact I|]. split; [cbn; apply Nat.eqb_refl|]. intros v k E. apply Df in E. discriminate.
    - intros F. assert (K : In ((g, 0), f (g, 0)) (mk f)) by (apply in_map_iff; exists (g, 0); split; [reflexivity|apply id_case; exact Hg]). specialize (F _ _ K). unfold f in F. cbn [fst] in F. rewrite Rg in F. destruct recorders; discriminate.
  Qed.
  (** only parallel recorders, while a doe has no case *)
  Lemma parallel_hangs : forall n, (forall t, t < n -> is_round mine (length sizes) t /\ ~ fails_in mine fatal sizes t /\ (full_round mine (length sizes) t \/ (short_single mine sizes t /\ (recorders = true -> serial = true)))) ->
      is_round mine (length sizes) n -> ~ fails_in mine fatal sizes n -> ~ full_round mine (length sizes) n -> short_single mine sizes n -> recorders = true -> serial = false -> (forall p : pid, In p ids -> real (S n) p = None) -> reaches step (mk (F0 0)) (fun x => ~ finished x).
  Proof.
    intros n H IR FN NF SS HR HS LA. assert (Hj := short_real n SS).
    assert (B : exists g, g < length sizes /\ nth_error (mine g) n = None).
    { assert (D : forall gs, (exists g, In g gs /\ nth_error (mine g) n = None) \/ forall g, In g gs -> nth_error (mine g) n <> None).
      { induction gs as [|g gs [(x & I & R)|IH]]; [right; intros g []|left; exists x; split; [right; exact I|exact R]|]. destruct (nth_error (mine g) n) eqn:R; [right; intros x [<- |I]; [congruence|apply IH; exact I]|left; exists g; split; [left; reflexivity|exact R]]. }
      destruct (D (seq 0 (length sizes))) as [(g & I & R)|D1]; [exists g; apply in_seq in I; split; [lia|exact R]|]. exfalso. apply NF. intros g Hg. apply D1. apply in_seq. lia. }
    destruct B as (g & Hg & Rg).
    apply hangs with (mk (F2 n (fun _ => 0))).
    - eapply exec_app; [apply rounds; exact H|]. eapply exec_cons; [apply start_round; assumption|]. eapply exec_cons; [apply run_round; exact FN|]. apply vars_all.
    - assert (A0 : forall p, In p ids -> forall c o v k, ParModel.act fatal recorders serial nvars cases ndoe p (F2 n (fun _ => 0) p) = Some (c, o, v, k) -> c = Case).
      { intros p Hp c o v k E. unfold F2, save_vars, save in E. rewrite HR, HS in E. cbn [Nat.eqb] in E. destruct (real n p) eqn:R; [|cbn in E; congruence]. unfold ParModel.turn in E. destruct (snd p =? 0); [cbn in E; congruence|]. rewrite skipn_nth in E. rewrite (LA p Hp) in E; discriminate. }
      apply stuck. intros [| |h] o.
      + exists (0, 0). left. split; [apply id_case; exact G0|]. split; [reflexivity|]. intros v k E. apply A0 in E; [discriminate|apply id_case; exact G0].
      + destruct (op_eqb o Gather) eqn:O.
        * apply op_eqb_eq in O. subst o. exists (0, 0). left. split; [apply id_case; exact G0|]. split; [reflexivity|]. intros v k E. unfold F2, save_vars, save in E. rewrite HR, HS in E. cbn [Nat.eqb fst] in E. assert (R0 := root_first n IR). destruct (nth_error (mine 0) n); [|congruence]. cbn in E. discriminate.
        * exists (g, 0). left. split; [apply id_case; exact Hg|]. split; [reflexivity|]. intros v k E. unfold F2 in E. rewrite HR in E. cbn [fst] in E. rewrite Rg in E. cbn in E. injection E as <- _ _. discriminate.
      + exists (h, 0). destruct (grp_case h) as [I|I]; [left|right; exact I]. split; [exact I|]. split; [cbn; apply Nat.eqb_refl|]. intros v k E. apply A0 in E; [discriminate|exact I].
    - intros F. assert (K : In ((g, 0), F2 n (fun _ => 0) (g, 0)) (mk (F2 n (fun _ => 0)))) by (apply in_map_iff; exists (g, 0); split; [reflexivity|apply id_case; exact Hg]). specialize (F _ _ K). unfold F2 in F. cbn [fst] in F. rewrite Rg, HR in F. discriminate.
  Qed.
End Rounds.

(** The profiler (C102). *)
From Coq Require Import Permutation.
From Verif Require Import Base BaseFacts PrfModel PrfSpec PrfProofs PrfProofs2 PrfProofs3 PrfProofs4 PrfProofs5.
Local Open Scope string_scope.
Local Open Scope nat_scope.
Local Open Scope list_scope.

Definition deep_enough (fuel : nat) (xs : list process) : Prop := forall c, In c (all_calls xs) -> length (c_path c) <= fuel.

Lemma process_ok : forall fuel xs, Forall good_process xs -> deep_enough fuel xs ->
    exists out, process_profile fuel (map file_of xs) = Ok out /\ tree_ok (all_calls xs) (sumq (fun x => profiled_time (x_prog x) (x_end x)) xs) out /\
      (n_time (fst (fst out)) == sumq (fun c => if (length (c_path c) =? 1)%nat then c_elapsed c else 0%Q) (all_calls xs) - sumq c_ovr (all_calls xs))%Q.
Proof.
  intros fuel xs G D. destruct (read_files_ok (1 <? length xs) xs [] [] [] 0%Q (Forall_nil _) G finv_nil) as (f & t & tot & E & I & Et). cbn [app] in I. fold (all_calls xs) in I.
  destruct (finish_ok (all_calls xs) (all_wf xs G) (all_closed xs) f t tot I fuel) as (out & Eo & T & R); [intros p (c & Ic & <-); exact (D c Ic)|].
  exists out. split; [|split; [|exact R]].
  - unfold process_profile. rewrite map_length, E. cbn [bind]. exact Eo.
  - destruct out as [[root tmp] T']. destruct T as (A1 & A2 & A3 & A4 & A5 & A6). split; [exact A1|]. split; [exact A2|]. split; [exact A3|]. split; [exact A4|]. split; [|exact A6].
    rewrite A5, Et. apply Qplus_0_l.
Qed.

(** For all programs, with the profiler turned on and off anywhere, whose profiled calls do not
    raise, on any number of processes: the tree has a node for every call path, with its calls,
    its time without the overhead of the calls within it, and its children. *)
Theorem C102_tree_partial : forall fuel xs, Forall good_process xs -> deep_enough fuel xs ->
    exists out, process_profile fuel (map file_of xs) = Ok out /\ tree_ok (all_calls xs) (sumq (fun x => profiled_time (x_prog x) (x_end x)) xs) out.
Proof. intros fuel xs G D. destruct (process_ok fuel xs G D) as (out & E & T & _). exists out. split; assumption. Qed.
Print Assumptions C102_tree_partial.

(** With a clock that does not run backwards, no time is negative, and the times of the children
    add up to no more than the time of the node. *)
Theorem C102_times : forall fuel xs root tmp totals, Forall good_process xs -> deep_enough fuel xs -> Forall (fun x => exists lo, timed lo (x_prog x) (x_end x)) xs ->
    process_profile fuel (map file_of xs) = Ok (root, tmp, totals) ->
    forall k nd, sget tmp k = Some nd -> (0 <= n_time nd)%Q /\ (kids_time tmp (n_children nd) <= n_time nd)%Q.
Proof.
  intros fuel xs root tmp totals G D T E k nd Gk. destruct (process_ok fuel xs G D) as (out & E' & Tk & _). rewrite E in E'. injection E' as <-. destruct Tk as (A1 & A2 & A3 & _).
  set (C := all_calls xs) in *. pose proof (all_wf xs G) as W. pose proof (all_closed xs) as Cl. pose proof (all_within xs T) as Wi. fold C in W, Cl, Wi.
  assert (Ik : In k (dkeys tmp)) by exact (dget_some_in_keys String.eqb String.eqb_eq _ _ _ Gk). apply A1 in Ik. destruct Ik as (p & Cp & ->).
  destruct (A3 p Cp) as (nd' & Gn & _ & _ & Et & Kp & _). rewrite Gk in Gn. injection Gn as <-. destruct (cwf C W p Cp) as [Np _]. destruct (kids_names C W p _ Kp) as (ND & NI & Ek). rewrite Et. split.
  - apply (time_nonneg C W Cl Wi); [|exact Cp]. intros q Cq. destruct (A3 q Cq) as (nq & _ & _ & _ & _ & Kq & _). exists (n_children nq). exact Kq.
  - eapply Qle_trans; [|exact (kids_le C W Cl Wi p _ Np ND NI)]. unfold kids_time. rewrite Ek at 1. rewrite sumq_map. apply sumq_le. intros n I. apply NI in I. destruct (A3 (p ++ [n]) I) as (nn & Gn & _ & _ & En & _). rewrite Gn, En. apply Qle_refl.
Qed.
Print Assumptions C102_times.

(** The root is different: from the sum of the times of its children the overhead of the
    outermost calls is taken off, which is not in that sum. *)
Theorem C102_root : forall fuel xs root tmp totals, Forall good_process xs -> deep_enough fuel xs -> process_profile fuel (map file_of xs) = Ok (root, tmp, totals) ->
    (n_time root == kids_time tmp (n_children root) - sumq (fun c => if (length (c_path c) =? 1)%nat then c_ovr c else 0%Q) (all_calls xs))%Q.
Proof.
  intros fuel xs root tmp totals G D E. destruct (process_ok fuel xs G D) as (out & E' & Tk & R). rewrite E in E'. injection E' as <-. destruct Tk as (A1 & A2 & A3 & A4 & _). cbn [fst] in R.
  set (C := all_calls xs) in *. pose proof (all_wf xs G) as W. pose proof (all_closed xs) as Cl. fold C in W, Cl. destruct (kids_names C W [] _ A4) as (ND & NI & Ek).
  assert (X : forall g : pcall -> Q, (sumq (fun c => if (length (c_path c) =? 1)%nat then g c else 0%Q) C == sumq (fun c => if same [] (removelast (c_path c)) then g c else 0%Q) C)%Q).
  { intros g. apply sumq_ext. intros c Ic. pose proof (proj1 (Forall_forall _ _) W c Ic) as [Nc _]. destruct (c_path c) as [|a [|b r]]; [congruence|reflexivity|reflexivity]. }
  assert (K : (kids_time tmp (n_children root) == sumq (fun n => time_of C ([] ++ [n])) (map nm (n_children root)))%Q).
  { unfold kids_time. rewrite Ek at 1. rewrite sumq_map. apply sumq_ext. intros n I. apply NI in I. destruct (A3 ([] ++ [n]) I) as (nn & Gn & _ & _ & En & _). rewrite Gn. exact En. }
  set (ns := map nm (n_children root)) in *.
  assert (Neg : forall (g h : string -> Q) l, (sumq (fun a => g a - h a) l == sumq g l - sumq h l)%Q) by (intros g h l; induction l as [|a l IH]; [rewrite !sumq_nil; ring|]; rewrite !sumq_cons, IH; ring).
  rewrite R, K. unfold time_of. rewrite Neg. unfold elapsed. rewrite (one_level C W c_elapsed [] ns ND NI). rewrite !X.
  assert (O : (sumq c_ovr C == sumq (fun c => if same [] (removelast (c_path c)) then c_ovr c else 0%Q) C + sumq (fun n => overhead_below C ([] ++ [n])) ns)%Q).
  { rewrite <- (one_level C W c_ovr [] ns ND NI), <- sumq_add. rewrite (sumq_ext (fun a => _ + _)%Q (fun n => sumq (fun c => if under ([] ++ [n]) (c_path c) then c_ovr c else 0%Q) C)); [|intros n _; symmetry; apply under_sum].
    rewrite (partition C Cl c_ovr [] ns ND NI). apply sumq_ext. intros c Ic. assert (Y : below [] (c_path c) = true); [|rewrite Y; reflexivity]. apply below_iff. destruct (c_path c) as [|n r] eqn:Ec; [|exists n, r; reflexivity]. destruct (proj1 (Forall_forall _ _) W c Ic). congruence. }
  rewrite O. ring.
Qed.
Print Assumptions C102_root.

(** The grand totals have the calls and the time of every method, where the method is what comes
    after the last dot. *)
Theorem C102_grand : forall fuel xs root tmp totals by_time, Forall good_process xs -> deep_enough fuel xs -> process_profile fuel (map file_of xs) = Ok (root, tmp, totals) ->
    (forall l, Permutation (by_time l) l) -> forall m,
    (sget (grand_totals by_time totals) m = None <-> ~ exists c, In c (all_calls xs) /\ method (last (c_path c) "") = m) /\
    forall c t, sget (grand_totals by_time totals) m = Some (c, t) -> c = number (fun c => is_method m (last (c_path c) "")) (all_calls xs) /\ (t == time_of_method (all_calls xs) m)%Q.
Proof.
  intros fuel xs root tmp totals by_time G D E Pt m. destruct (process_ok fuel xs G D) as (out & E' & Tk & _). rewrite E in E'. injection E' as <-. destruct Tk as (A1 & A2 & A3 & A4 & A5 & A6 & A7).
  set (C := all_calls xs) in *. pose proof (all_wf xs G) as W. pose proof (all_closed xs) as Cl. fold C in W, Cl.
  assert (NI : forall n, In n (dkeys totals) <-> exists p, called C p /\ last p "" = n).
  { intros n. destruct (A7 n) as [N0 _]. split.
    - intros I. destruct (sget totals n) as [v|] eqn:Gn; [|exfalso; exact (proj1 (dget_none String.eqb String.eqb_eq _ _) Gn I)].
      assert (Ex : exists c, In c C /\ ends_in n (c_path c) = true).
      { destruct (existsb (fun c => ends_in n (c_path c)) C) eqn:Ex; [apply existsb_exists in Ex; exact Ex|]. exfalso. assert (Z : Some v = None); [|discriminate]. apply N0. intros (p & (c & Ic & <-) & Ep). assert (X : existsb (fun c => ends_in n (c_path c)) C = true) by (apply existsb_exists; exists c; split; [exact Ic|]; unfold ends_in; rewrite Ep; apply String.eqb_refl). congruence. }
      destruct Ex as (c & Ic & Ec). exists (c_path c). split; [exists c; split; [exact Ic|reflexivity]|]. apply String.eqb_eq in Ec. congruence.
    - intros Ex. destruct (sget totals n) as [v|] eqn:Gn; [exact (dget_some_in_keys String.eqb String.eqb_eq _ _ _ Gn)|]. exfalso. exact (proj1 N0 eq_refl Ex). }
  unfold grand_totals. destruct (grand_ok (by_time totals) m) as [GN GS]. split.
  - rewrite GN. assert (X : (exists x, In x (by_time totals) /\ method (fst x) = m) <-> exists c, In c C /\ method (last (c_path c) "") = m); [|rewrite X; reflexivity]. split.
    + intros ([n v] & I & Em). cbn in Em. apply (Permutation_in _ (Pt totals)) in I. assert (In n (dkeys totals)) as J by (apply in_map_iff; exists (n, v); split; [reflexivity|exact I]). apply NI in J. destruct J as (p & (c & Ic & <-) & Ep). exists c. split; [exact Ic|]. rewrite Ep. exact Em.
    + intros (c & Ic & Em). assert (J : In (last (c_path c) "") (dkeys totals)) by (apply NI; exists (c_path c); split; [exists c; split; [exact Ic|reflexivity]|reflexivity]). apply in_map_iff in J. destruct J as ([n v] & En & J). cbn in En. exists (n, v). split; [exact (Permutation_in _ (Permutation_sym (Pt totals)) J)|]. cbn. rewrite En. exact Em.
  - intros c t Gm. destruct (GS c t Gm) as [Et Ec]. rewrite (sumq_perm _ _ _ (Pt totals)) in Et. rewrite (sumq_perm _ _ _ (Pt totals)) in Ec.
    assert (TS : forall (h : Q * nat -> Q) (g : string -> Q), (forall n v, sget totals n = Some v -> (h v == g n)%Q) -> (sumq (fun x => if is_method m (fst x) then h (snd x) else 0%Q) totals == sumq (fun n => if is_method m n then g n else 0%Q) (dkeys totals))%Q).
    { intros h g Hh. rewrite (tot_sum (fun n v => if is_method m n then h v else 0%Q) totals A6). apply sumq_ext. intros n I. destruct (sget totals n) as [v|] eqn:Gn; [destruct (is_method m n); [exact (Hh n v Gn)|reflexivity]|]. exfalso. exact (proj1 (dget_none String.eqb String.eqb_eq _ _) Gn I). }
    split.
    + apply qn_inj. rewrite Ec. rewrite (TS (fun v => qn (snd v)) (fun n => qn (number (fun c => ends_in n (c_path c)) C))); [apply (method_count C _ A6 NI)|]. intros n [tn cn] Gn. destruct (proj2 (A7 n) tn cn Gn) as [_ ->]. reflexivity.
    + rewrite Et. rewrite (TS (fun v => fst v) (time_of_name C)); [apply (method_time C W Cl _ A6 NI)|]. intros n [tn cn] Gn. destruct (proj2 (A7 n) tn cn Gn) as [En _]. exact En.
Qed.
Print Assumptions C102_grand.

(** A run of 100 units: "c.run" is called twice within "p.run", with overhead 1 and 2. *)
Definition ex_prog : prog := Start 0 (Call "p.run" 1 2 (Call "c.run" 3 4 Done 10 false (Call "c.run" 12 14 Done 20 false Done)) 30 false (Stop 31 Done)).
Definition ex_proc (ext : string) : process := mkProc (Some ext) ex_prog 100.
Lemma ex_good : forall ext, no_comma ext -> good_process (ex_proc ext).
Proof.
  intros ext N. split; [|intros d E; cbn in E; congruence]. cbn. intros c [<-|[<-|[<-|[]]]]; (split; [|reflexivity]); repeat constructor; unfold no_comma; cbn; intros X; repeat (destruct X as [X|X]; [discriminate|]); exact X.
Qed.
Example C102_ex : match process_profile 5 [file_of (ex_proc ".0")] with
  | Ok (root, tmp, totals) => map (fun x => (fst x, n_children (snd x), n_count (snd x), Qred (n_time (snd x)))) tmp = [("p.run", ["p.run,c.run"], 1, 25%Q); ("p.run,c.run", [], 2, 12%Q)] /\ n_children root = ["p.run"] /\ Qred (n_tot_time root) = 31%Q
  | Err _ => False
  end.
Proof. vm_compute. repeat split. Qed.
Example C102_ex_applies : Forall good_process [ex_proc ".0"; ex_proc ".1"] /\ deep_enough 2 [ex_proc ".0"; ex_proc ".1"] /\ Forall (fun x => exists lo, timed lo (x_prog x) (x_end x)) [ex_proc ".0"; ex_proc ".1"].
Proof.
  split; [|split].
  - constructor; [|constructor; [|constructor]]; apply ex_good; unfold no_comma; cbn; intros X; repeat (destruct X as [X|X]; [discriminate|]); exact X.
  - intros c I. cbn in I. repeat (destruct I as [<-|I]; [cbn; lia|]). destruct I.
  - assert (T : exists lo, timed lo ex_prog 100) by (exists 0%Q; repeat (constructor; try (unfold Qle; cbn; lia))). constructor; [exact T|constructor; [exact T|constructor]].
Qed.

(** The time of the root is less than that of its child. *)
Theorem C102_root_refuted : exists x root tmp totals, good_process x /\ (exists lo, timed lo (x_prog x) (x_end x)) /\ process_profile 5 [file_of x] = Ok (root, tmp, totals) /\ (n_time root < kids_time tmp (n_children root))%Q.
Proof.
  exists (ex_proc ".0"). do 3 eexists. split; [apply ex_good; unfold no_comma; cbn; intros X; repeat (destruct X as [X|X]; [discriminate|]); exact X|]. split; [exists 0%Q; repeat (constructor; try (unfold Qle; cbn; lia))|]. split; [vm_compute; reflexivity|]. vm_compute. reflexivity.
Qed.
Print Assumptions C102_root_refuted.

(** With several processes the grand totals are by process, not by method: what comes after the
    last dot is the number of the process. *)
Theorem C102_grand_refuted : exists xs root tmp totals, Forall good_process xs /\ process_profile 5 (map file_of xs) = Ok (root, tmp, totals) /\
    map fst (grand_totals (fun l => l) totals) = ["0"; "1"] /\ (exists x c, In x xs /\ In c (calls_of (x_prog x)) /\ method (last (c_path c) "") = "run").
Proof.
  exists [ex_proc ".0"; ex_proc ".1"]. do 3 eexists. split; [apply C102_ex_applies|]. split; [vm_compute; reflexivity|]. split; [vm_compute; reflexivity|]. eexists. eexists. split; [left; reflexivity|]. split; [left; reflexivity|]. vm_compute. reflexivity.
Qed.
Print Assumptions C102_grand_refuted.

(** A profiled call that raises, and whose exception is caught, stays on the stack: the calls after it are
    filed under it. *)
Definition raising : prog := Start 0 (Call "p.run" 1 2 (Call "c.run" 3 4 Done 10 true (Call "d.run" 12 14 Done 20 false Done)) 30 false (Stop 31 Done)).
Theorem C102_raise_path_refuted : exists p c, In c (calls_of p) /\ c_raised c = false /\ c_path c = ["p.run"; "d.run"] /\
    ~ In (text (c_path c)) (map fst (p_funcs (exec p pst0))) /\ In "p.run,c.run,d.run" (map fst (p_funcs (exec p pst0))).
Proof.
  exists raising. eexists. split; [right; right; left; reflexivity|]. split; [reflexivity|]. split; [reflexivity|]. vm_compute. split; [|tauto]. intros X. repeat (destruct X as [X|X]; [discriminate|]). exact X.
Qed.
Print Assumptions C102_raise_path_refuted.
(** and the profile cannot be processed, as there is no record of the call that raised *)
Theorem C102_raise_refuted : exists x, (forall c, In c (calls_of (x_prog x)) -> Forall no_comma (c_path c)) /\ (exists lo, timed lo (x_prog x) (x_end x)) /\ process_profile 5 [file_of x] = Err KeyError.
Proof.
  exists (mkProc (Some ".0") raising 100). split; [|split; [exists 0%Q; repeat (constructor; try (unfold Qle; cbn; lia))|vm_compute; reflexivity]].
  cbn. intros c [<-|[<-|[<-|[]]]]; repeat constructor; unfold no_comma; cbn; intros X; repeat (destruct X as [X|X]; [discriminate|]); exact X.
Qed.
Print Assumptions C102_raise_refuted.

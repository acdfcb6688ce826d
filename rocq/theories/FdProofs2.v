(** More proofs for C26, C27 and C60: identity blocks, process ids, complex step. *)
From Coq Require Import Field_theory Field Ring.
From Verif Require Import Base BaseFacts TransferModel TransferSpec TransferProofs FdModel FdSpec FdProofs.
Local Open Scope nat_scope.

(** ** parallel FD ids *)
Lemma nth_map_seq : forall {A} (g : nat -> A) d n k, k < n -> nth k (map g (seq 0 n)) d = g k.
Proof.
  intros A g d n k H. rewrite (nth_indep _ d (g 0)) by (rewrite map_length, seq_length; assumption).
  rewrite map_nth. rewrite seq_nth by assumption. reflexivity.
Qed.

Lemma fd_ids_cover : forall num size, (1 <= num <= size)%Z ->
    exists ids, fd_ids num size = Ok ids /\ length ids = Z.to_nat size /\ (forall id, (id < Z.to_nat num)%nat <-> In id ids).
Proof.
  intros num size [H1 H2]. unfold fd_ids. assert (E : (num <? 1)%Z = false) by (apply Z.ltb_ge; lia). rewrite E.
  destruct (distrib_total num size H1) as (sizes & offs & Hd & Hl & _). rewrite Hd. cbn [bind]. eexists. split; [reflexivity|].
  assert (Hsz : sizes = map (fun k => if (Z.of_nat k <? size mod num)%Z then (size / num + 1)%Z else (size / num)%Z) (seq 0 (Z.to_nat num))).
  { unfold evenly_distrib_idxs in Hd. destruct (num =? 0)%Z; [discriminate|]. injection Hd. auto. }
  assert (Hq : (1 <= size / num)%Z) by (apply Z.div_le_lower_bound; lia).
  assert (Hm : (0 <= size mod num < num)%Z) by (apply Z.mod_pos_bound; lia).
  split.
  - assert (G : forall (g : nat -> nat) (l : list nat), length (concat (map (fun k => repeat k (g k)) l)) = list_sum (map g l)).
    { induction l as [|x l IH]; [reflexivity|]. simpl. rewrite app_length, repeat_length, IH. reflexivity. }
    rewrite G. clear G.
    assert (G2 : forall n, (n <= Z.to_nat num)%nat -> Z.of_nat (list_sum (map (fun k => Z.to_nat (nth k sizes 0%Z)) (seq 0 n))) =
                 (Z.of_nat n * (size / num) + Z.min (Z.of_nat n) (size mod num))%Z).
    { induction n as [|n IH]; intros Hn; [simpl; lia|]. rewrite seq_S, map_app, list_sum_app, Nat2Z.inj_add, IH by lia. cbn [Nat.add map list_sum fold_right].
      change (list_sum [Z.to_nat (nth n sizes 0%Z)]) with (Z.to_nat (nth n sizes 0%Z) + 0).
      rewrite Hsz at 1. rewrite nth_map_seq by lia. rewrite Nat2Z.inj_add, (Nat2Z.inj_succ n), Z.mul_succ_l. destruct (Z.ltb_spec (Z.of_nat n) (size mod num)%Z); rewrite Z2Nat.id by lia; simpl Z.of_nat; lia. }
    apply Nat2Z.inj. rewrite G2 by lia. rewrite !Z2Nat.id by lia. rewrite Z.min_r by lia.
    pose proof (Z.div_mod size num). lia.
  - intros id. split.
    + intros Hid. apply in_concat. exists (repeat id (Z.to_nat (nth id sizes 0%Z))). split.
      * apply in_map_iff. exists id. split; [reflexivity|]. apply in_seq. lia.
      * rewrite Hsz, nth_map_seq by assumption. match goal with |- In _ (repeat _ ?N) => destruct N eqn:E2 end.
        -- destruct (Z.of_nat id <? size mod num)%Z; lia.
        -- left. reflexivity.
    + intros Hi. apply in_concat in Hi. destruct Hi as (l & Hl1 & Hl2). apply in_map_iff in Hl1. destruct Hl1 as (k & <- & Hk).
      apply repeat_spec in Hl2. subst k. apply in_seq in Hk. lia.
Qed.

Section Proofs.
  Context {F : Type} (F0 F1 : F) (fadd fmul fsub : F -> F -> F) (fopp : F -> F) (fdiv : F -> F -> F) (finv : F -> F)
    (flt : F -> F -> bool).
  Hypothesis Fth : field_theory F0 F1 fadd fmul fsub fopp fdiv finv (@eq F).
  Add Field Ff2 : Fth.
  Infix "+!" := fadd (at level 50, left associativity).
  Infix "*!" := fmul (at level 40, left associativity).
  Infix "-!" := fsub (at level 50, left associativity).
  Notation st := (@st F).

  (** ** identity blocks *)
  Section Pass.
    Context (total : bool) (run : st -> st) (outs : list fout) (passes : list fpass).
    Hypothesis Hpn : NoDup (map q_name passes).
    Hypothesis Hpass : forall o q, In o outs -> In q passes -> q_name q <> o_name o.
    Notation dget2 := (dget key2_eqb).
    Notation fd_idxs := (fd_idxs F0 F1 fadd fmul fsub fopp finv flt total run 1 0).
    Notation fd_param := (fd_param F0 F1 fadd fmul fsub fopp finv flt total run 1 0).

    (** the column for index idx *)
    Definition pcol (f : @fparam F) (qn : string) (l : list nat) (idx : nat) (old : list F) : list F :=
      if (match f_src f with Some s => String.eqb qn s | None => false end)
      then match index_of idx l with Some row => set_nth old row F1 | None => old end
      else old.

    Lemma set_nth_same_col : forall (m : list (list F)) c x, nth_error m c = Some x -> set_nth m c x = m.
    Proof. induction m; intros [|c] x H; simpl in *; try discriminate; [congruence|]. f_equal. apply IHm. assumption. Qed.

    Lemma pass_fold : forall ps (f : @fparam F) col idx J q l m x, NoDup (map q_name ps) -> In q ps -> q_idxs q = Some l ->
        dget2 J (q_name q, f_name f) = Some m -> nth_error m col = Some x ->
        dget2 (fold_left (pass_one F1 f col idx) ps J) (q_name q, f_name f) = Some (set_nth m col (pcol f (q_name q) l idx x)).
    Proof.
      induction ps as [|q' ps IH]; intros f col idx J q l m x Hd Hq Hl Hm Hx; [contradiction|]. simpl in *.
      apply NoDup_cons_iff in Hd. destruct Hd as [Hd1 Hd2]. destruct Hq as [->|Hq].
      - rewrite passes_other by (right; assumption).
        unfold pass_one, pcol. destruct (match f_src f with Some s => (q_name q =? s)%string | None => false end).
        + rewrite Hl. destruct (index_of idx l) as [row|].
          * rewrite Hm, Hx. rewrite (dget_dset key2_eqb key2_eqb_eq). assert (E : key2_eqb (q_name q, f_name f) (q_name q, f_name f) = true) by (apply key2_eqb_eq; reflexivity).
            rewrite E. reflexivity.
          * rewrite Hm. rewrite set_nth_same_col by assumption. reflexivity.
        + rewrite Hm. rewrite set_nth_same_col by assumption. reflexivity.
      - apply IH; auto. rewrite <- Hm. apply pass_other. right. intros E. apply Hd1. rewrite <- E. apply in_map. assumption.
    Qed.

    Lemma pass_loop : forall (f : @fparam F) q l idxs col cache (L : @loop F) m, In q passes -> q_idxs q = Some l ->
        dget2 (l_jac L) (q_name q, f_name f) = Some m -> length m = col + length idxs ->
        exists m', dget2 (l_jac (fd_idxs cache outs passes f col idxs L)) (q_name q, f_name f) = Some m' /\ length m' = length m /\
          forall c, nth_error m' c = if Nat.leb col c then match nth_error idxs (c - col) with
                                       | Some idx => option_map (pcol f (q_name q) l idx) (nth_error m c)
                                       | None => None end else nth_error m c.
    Proof.
      intros f q l. induction idxs as [|idx idxs IH]; intros col cache L m Hq Hl Hm Hlen.
      - simpl. exists m. split; [assumption|]. split; [reflexivity|]. intros c. destruct (Nat.leb col c) eqn:E; [|reflexivity].
        apply Nat.leb_le in E. assert (N : nth_error m c = None) by (apply nth_error_None; simpl in Hlen; lia).
        rewrite N. destruct (c - col); reflexivity.
      - cbn [FdModel.fd_idxs]. cbv zeta. rewrite Nat.mod_1_r. cbn [Nat.eqb].
        destruct (nth_error m col) as [x|] eqn:Ex; [|apply nth_error_None in Ex; simpl in Hlen; lia].
        match goal with |- context [FdModel.fd_idxs _ _ _ _ _ _ _ _ _ _ _ _ _ _ _ _ _ _ ?LL] => set (L1 := LL) end.
        assert (H1 : dget2 (l_jac L1) (q_name q, f_name f) = Some (set_nth m col (pcol f (q_name q) l idx x))).
        { unfold L1. cbn [l_jac]. apply pass_fold; auto.
          rewrite fold_set_col_other; [assumption|]. right. intros HI. apply in_map_iff in HI. destruct HI as (o & E & Ho).
          apply (Hpass o q); auto. }
        destruct (IH (S col) cache L1 _ Hq Hl H1) as (m' & B1 & B2 & B3); [rewrite set_nth_length; simpl in Hlen; lia|].
        exists m'. split; [exact B1|]. split; [rewrite B2; apply set_nth_length|].
        intros c. rewrite B3. rewrite nth_error_set_nth by (simpl in Hlen; lia). destruct (Nat.eqb_spec c col) as [->|Hne].
        + rewrite Nat.leb_refl, Nat.sub_diag. assert (E : Nat.leb (S col) col = false) by (apply Nat.leb_gt; lia). rewrite E.
          simpl. rewrite Ex. reflexivity.
        + destruct (Nat.leb (S col) c) eqn:E1.
          * apply Nat.leb_le in E1. assert (E2 : Nat.leb col c = true) by (apply Nat.leb_le; lia). rewrite E2.
            replace (c - col) with (S (c - S col)) by lia. reflexivity.
          * apply Nat.leb_gt in E1. assert (E2 : Nat.leb col c = false) by (apply Nat.leb_gt; lia). rewrite E2. reflexivity.
    Qed.

    Lemma alloc_pass : forall (f : @fparam F) J q l, In q passes -> q_idxs q = Some l ->
        dget2 (alloc F0 f outs passes J) (q_name q, f_name f) = Some (repeat (repeat F0 (length l)) (length (f_idxs f))).
    Proof.
      intros f J q l Hq Hl. unfold alloc.
      match goal with |- context [fold_left ?G outs J] => set (J1 := fold_left G outs J) end. clearbody J1. revert J1.
      assert (G : forall ps J, ~ In (q_name q) (map q_name ps) -> dget2 (fold_left (fun J q => dset key2_eqb J (q_name q, f_name f)
                 (repeat (repeat F0 (match q_idxs q with Some l => length l | None => q_size q end)) (length (f_idxs f)))) ps J) (q_name q, f_name f)
                 = dget2 J (q_name q, f_name f)).
      { induction ps as [|q' ps IH]; intros J' H; [reflexivity|]. simpl in *. rewrite IH by tauto. rewrite (dget_dset key2_eqb key2_eqb_eq).
        rewrite key2_ne; [reflexivity|]. intros E. injection E as E. apply H. left. congruence. }
      clear Hpass. revert Hq Hpn. generalize passes. induction passes0 as [|q' ps IH]; intros Hq Hd J1; [contradiction|]. simpl in *.
      apply NoDup_cons_iff in Hd. destruct Hd as [Hd1 Hd2]. destruct Hq as [->|Hq]; [|apply IH; assumption].
      rewrite G by assumption. rewrite (dget_dset key2_eqb key2_eqb_eq). rewrite key2_refl. rewrite Hl. reflexivity.
    Qed.

    Lemma other_params : forall params cache (L : @loop F) u p, ~ In p (map f_name params) ->
        dget2 (l_jac (fold_left (fd_param cache outs passes) params L)) (u, p) = dget2 (l_jac L) (u, p).
    Proof.
      induction params as [|f params IH]; intros cache L u p H; [reflexivity|]. simpl in *. rewrite IH by tauto. unfold FdModel.fd_param.
      assert (G : forall idxs col (L : @loop F), dget2 (l_jac (fd_idxs cache outs passes f col idxs L)) (u, p) = dget2 (l_jac L) (u, p)).
      { induction idxs as [|idx idxs IHx]; intros col L'; [reflexivity|]. cbn [FdModel.fd_idxs]. cbv zeta. rewrite IHx.
        destruct (l_count L' mod 1 =? 0); [|reflexivity]. cbn [l_jac]. rewrite passes_other by (left; intros E; apply H; left; congruence).
        apply fold_set_col_other. left. intros E; apply H; left; congruence. }
      rewrite G. cbn [l_jac]. apply (alloc_other F0 flt). left. intros E; apply H; left; congruence.
    Qed.

    Lemma index_of_spec : forall l i r, index_of i l = Some r -> nth_error l r = Some i.
    Proof.
      induction l as [|x l IH]; intros i r H; simpl in H; [discriminate|]. destruct (Nat.eqb_spec i x) as [->|].
      - injection H as <-. reflexivity.
      - destruct (index_of i l) eqn:E; simpl in H; [|discriminate]. injection H as <-. simpl. apply IH. assumption.
    Qed.
    Lemma index_of_none : forall l i, index_of i l = None -> ~ In i l.
    Proof.
      induction l as [|x l IH]; intros i H; simpl in H; [auto|]. destruct (i =? x) eqn:Eix; [discriminate|]. apply Nat.eqb_neq in Eix.
      destruct (index_of i l) eqn:E; simpl in H; [discriminate|]. intros [HI|HI]; [congruence|]. exact (IH i E HI).
    Qed.

    Lemma pass_identity : forall params s0 f q l c idx t row, NoDup (map f_name params) -> In f params -> In q passes -> q_idxs q = Some l -> NoDup l ->
        nth_error (f_idxs f) c = Some idx -> nth_error l t = Some row ->
        jac_entry (fst (fd_serial F0 F1 fadd fmul fsub fopp finv flt total run outs passes params s0)) (q_name q) (f_name f) t c =
        Some (if (match f_src f with Some s => String.eqb (q_name q) s | None => false end && Nat.eqb row idx)%bool then F1 else F0).
    Proof.
      intros params s0 f q l c idx t row Hd Hf Hq Hl Hdl Hc Ht. unfold fd_serial, jac_entry, fd_local. cbn [fst].
      assert (G : forall (L : @loop F) cache, exists m', dget2 (l_jac (fold_left (fd_param cache outs passes) params L)) (q_name q, f_name f) = Some m' /\
                nth_error m' c = Some (pcol f (q_name q) l idx (repeat F0 (length l)))).
      { induction params as [|f' params IH]; intros L cache; [contradiction|]. simpl in Hd. apply NoDup_cons_iff in Hd. destruct Hd as [Hd1 Hd2].
        cbn [fold_left]. destruct Hf as [->|Hf]; [|apply IH; assumption]. rewrite other_params by assumption. unfold FdModel.fd_param.
        destruct (pass_loop f q l (f_idxs f) 0 cache (mkL (l_st L) (l_count L) (alloc F0 f outs passes (l_jac L)) (l_cols L)) _ Hq Hl (alloc_pass f (l_jac L) q l Hq Hl))
          as (m' & B1 & B2 & B3); [rewrite repeat_length; reflexivity|].
        exists m'. split; [exact B1|]. rewrite B3. rewrite Nat.sub_0_r. cbn [Nat.leb]. rewrite Hc.
        assert (Hcl : c < length (f_idxs f)) by (apply nth_error_Some; congruence).
        rewrite (nth_error_nth' _ (repeat F0 (length l))) by (rewrite repeat_length; assumption). rewrite nth_repeat. reflexivity. }
      destruct (G (mkL s0 0 [] []) (res_of total s0)) as (m' & B1 & B2). rewrite B1, B2.
      assert (Htl : t < length l) by (apply nth_error_Some; congruence).
      unfold pcol. destruct (match f_src f with Some s => (q_name q =? s)%string | None => false end); cbn [andb].
      - destruct (index_of idx l) as [r|] eqn:E.
        + pose proof (index_of_spec _ _ _ E) as Er. assert (Hrl : r < length l) by (apply nth_error_Some; congruence).
          rewrite nth_error_set_nth by (rewrite repeat_length; assumption). destruct (Nat.eqb_spec t r) as [->|Hne].
          * assert (row = idx) by congruence. subst. rewrite Nat.eqb_refl. reflexivity.
          * destruct (Nat.eqb_spec row idx) as [->|_].
            -- exfalso. apply Hne. apply (proj1 (NoDup_nth_error l) Hdl); [assumption|congruence].
            -- rewrite (nth_error_nth' _ F0) by (rewrite repeat_length; assumption). rewrite nth_repeat. reflexivity.
        + apply index_of_none in E. destruct (Nat.eqb_spec row idx) as [->|_]; [exfalso; apply E; eapply nth_error_In; eassumption|].
          rewrite (nth_error_nth' _ F0) by (rewrite repeat_length; assumption). rewrite nth_repeat. reflexivity.
      - rewrite (nth_error_nth' _ F0) by (rewrite repeat_length; assumption). rewrite nth_repeat. reflexivity.
    Qed.
    Lemma set_nth_len : forall A (l : list A) i x, length (set_nth l i x) = length l.
    Proof. induction l as [|a l IH]; intros [|i] x; cbn; auto. Qed.
    Lemma pass_shape : forall params s0 f q l, NoDup (map f_name params) -> In f params -> In q passes -> q_idxs q = Some l ->
        jac_shape (fst (fd_serial F0 F1 fadd fmul fsub fopp finv flt total run outs passes params s0)) (q_name q) (f_name f) (length l) (length (f_idxs f)).
    Proof.
      intros params s0 f q l Hd Hf Hq Hl. unfold fd_serial, jac_shape, fd_local. cbn [fst].
      assert (G : forall (L : @loop F) cache, exists m', dget2 (l_jac (fold_left (fd_param cache outs passes) params L)) (q_name q, f_name f) = Some m' /\
                length m' = length (f_idxs f) /\ Forall (fun col => length col = length l) m').
      { induction params as [|f' params IH]; intros L cache; [contradiction|]. simpl in Hd. apply NoDup_cons_iff in Hd. destruct Hd as [Hd1 Hd2].
        cbn [fold_left]. destruct Hf as [->|Hf]; [|apply IH; assumption]. rewrite other_params by assumption. unfold FdModel.fd_param.
        destruct (pass_loop f q l (f_idxs f) 0 cache (mkL (l_st L) (l_count L) (alloc F0 f outs passes (l_jac L)) (l_cols L)) _ Hq Hl (alloc_pass f (l_jac L) q l Hq Hl))
          as (m' & B1 & B2 & B3); [rewrite repeat_length; reflexivity|].
        exists m'. split; [exact B1|]. split; [rewrite B2; apply repeat_length|]. apply Forall_forall. intros x Hx. apply In_nth_error in Hx. destruct Hx as [c Hc].
        rewrite B3 in Hc. cbn [Nat.leb] in Hc. rewrite Nat.sub_0_r in Hc. destruct (nth_error (f_idxs f) c) as [idx|] eqn:Ei; [|discriminate].
        assert (Hcl : c < length (f_idxs f)) by (apply nth_error_Some; congruence).
        rewrite (nth_error_nth' _ (repeat F0 (length l))) in Hc by (rewrite repeat_length; assumption). rewrite nth_repeat in Hc. cbn in Hc.
        assert (E : x = pcol f (q_name q) l idx (repeat F0 (length l))) by congruence. subst x. unfold pcol.
        destruct (match f_src f with Some s => (q_name q =? s)%string | None => false end); [destruct (index_of idx l)|]; rewrite ?set_nth_len; apply repeat_length. }
      destruct (G (mkL s0 0 [] []) (res_of total s0)) as (m' & B1 & B2 & B3). exists m'. repeat split; assumption.
    Qed.
  End Pass.

  (** ** without indices the identity block is one by one, whatever the size *)
  Lemma pass_no_indices : forall (x y h : F),
      let q := mkPass "x"%string 2 None in
      let f := mkFP "c.x"%string (Some "x"%string) InU 0 [0; 1] h false Forward in
      dget key2_eqb (fst (fd_serial F0 F1 fadd fmul fsub fopp finv flt true (group_solve 2 (fun v => v)) [] [q] [f] (mkSt [x; y] [x; y; x; y] [])))
        ("x", "c.x")%string = Some [[F1]].
  Proof. intros x y h. reflexivity. Qed.

  (** parameters after the total derivatives of a group *)
  Lemma params_perturbed : forall (x h : F), h <> F0 ->
      let f := mkFP "c.x"%string (Some "x"%string) InU 0 [0] h false Forward in
      let s0 := mkSt [x] [x; x] [] in
      group_solve 1 (fun v => v) s0 = s0 /\
      s_p (snd (fd_serial F0 F1 fadd fmul fsub fopp finv flt true (group_solve 1 (fun v => v)) [mkFO "y"%string 1 [0]] [] [f] s0)) = [x +! h] /\
      [x +! h] <> s_p s0.
  Proof.
    intros x h Hh f s0. split; [reflexivity|]. split; [reflexivity|]. simpl. intros E. injection E as E. apply Hh.
    transitivity (x +! h -! x); [ring|]. rewrite E. ring.
  Qed.

  (** two processes, identity blocks are not exchanged *)
  Lemma pass_parallel : forall (x y h : F),
      let q := mkPass "x"%string 2 (Some [0; 1]) in
      let f := mkFP "c.x"%string (Some "x"%string) InU 0 [0; 1] h false Forward in
      let s0 := mkSt [x; y] [x; y; x; y] [] in
      dget key2_eqb (fd_parallel F0 F1 fadd fmul fsub fopp finv flt true (group_solve 2 (fun v => v)) 2 [0; 1] [] [q] [f] s0 0)
        ("x", "c.x")%string = Some [[F1; F0]; [F0; F0]] /\
      dget key2_eqb (fst (fd_serial F0 F1 fadd fmul fsub fopp finv flt true (group_solve 2 (fun v => v)) [] [q] [f] s0))
        ("x", "c.x")%string = Some [[F1; F0]; [F0; F1]].
  Proof. intros x y h. split; reflexivity. Qed.

  (** ** parallel equals serial *)
  Lemma parallel_serial : forall total run ins asked phi s0, evaluates F0 total run ins asked phi s0 ->
      in_vectors ins s0 -> not_inputs total ins asked s0 -> NoDup ins ->
      forall outs passes params, (forall k, asked_by outs k -> asked k) -> NoDup (map o_name outs) ->
      (forall o q, In o outs -> In q passes -> q_name q <> o_name o) ->
      steps_inputs ins params -> NoDup (map f_name params) ->
      forall num size ids me, (1 <= num <= size)%Z -> fd_ids num size = Ok ids -> me < Z.to_nat size ->
      forall f o, In f params -> In o outs ->
      exists m, dget key2_eqb (fd_parallel F0 F1 fadd fmul fsub fopp finv flt total run (Z.to_nat num) ids outs passes params s0 me) (o_name o, f_name f) = Some m /\
                dget key2_eqb (fst (fd_serial F0 F1 fadd fmul fsub fopp finv flt total run outs passes params s0)) (o_name o, f_name f) = Some m.
  Proof.
    intros total run ins asked phi s0 Hev H1 H2 H3 outs passes params H4 H5 H6 H7 H8 num size ids me Hn Hids Hme f o Hf Ho.
    destruct (fd_ids_cover num size Hn) as (ids' & E1 & E2 & E3). assert (ids' = ids) by congruence. subst ids'.
    destruct (serial_spec F0 F1 fadd fmul fsub fopp fdiv finv flt Fth total run ins asked phi s0 Hev H1 H2 H3 outs passes H4 H5 H6 params H7 H8) as (_ & S2 & _).
    eexists. split; [|apply S2; assumption].
    destruct (Z.eq_dec num 1) as [->|Hne].
    - assert (Hall : forall id, In id ids -> id = 0) by (intros id Hi; apply E3 in Hi; change (Z.to_nat 1) with 1 in Hi; lia).
      unfold fd_parallel. change (Z.to_nat 1) with 1. rewrite nth_error_map.
      destruct (nth_error ids me) as [my|] eqn:Eme; [|apply nth_error_None in Eme; lia]. simpl option_map.
      assert (my = 0) by (apply Hall; eapply nth_error_In; eassumption). subst my.
      assert (Hc : forall id L, l_cols (fd_local F0 F1 fadd fmul fsub fopp finv flt total run 1 id outs passes L s0) = []).
      { intros id L. unfold fd_local. assert (G : forall L (LL : @loop F), l_cols LL = [] -> l_cols (fold_left (fd_param F0 F1 fadd fmul fsub fopp finv flt total run 1 id (res_of total s0) outs passes) L LL) = []).
        { induction L0 as [|f0 L0 IH]; intros LL HLL; [assumption|]. simpl. apply IH. unfold fd_param.
          assert (G : forall idxs col (L : @loop F), l_cols L = [] -> l_cols (fd_idxs F0 F1 fadd fmul fsub fopp finv flt total run 1 id (res_of total s0) outs passes f0 col idxs L) = []).
          { induction idxs as [|i0 idxs IHx]; intros col L' HL'; [assumption|]. cbn [fd_idxs]. cbv zeta. apply IHx.
            destruct (l_count L' mod 1 =? id); simpl; assumption. }
          apply G. assumption. }
        apply G. reflexivity. }
      assert (Hm : forall all r JC, (forall cs, In cs all -> cs = []) -> merge_ranks (F:=F) me r all JC = JC).
      { induction all as [|cs all IH]; intros r JC Ha; [reflexivity|]. simpl. rewrite (Ha cs (or_introl eq_refl)). simpl.
        destruct (r =? me); apply IH; intros cs' Hcs'; apply Ha; right; assumption. }
      rewrite Hm.
      + simpl. apply S2; assumption.
      + intros cs Hcs. apply in_map_iff in Hcs. destruct Hcs as (L & <- & HL). apply in_map_iff in HL. destruct HL as (id & <- & _). apply Hc.
    - apply (parallel_spec F0 F1 fadd fmul fsub fopp fdiv finv flt Fth total run ins asked phi s0 Hev H1 H2 H3 outs passes H4 H5 H6 params H7 H8); auto.
      + lia.
      + rewrite E2. assumption.
      + intros id Hid. apply E3. assumption.
  Qed.

  (** ** complex step *)
  Notation cx := (@cx F).

  Lemma cadd_at_length : forall (l : list cx) i d, length (cadd_at fadd i d l) = length l.
  Proof. induction l; intros [|i] d; simpl; auto. Qed.
  Lemma nth_cadd_at : forall l i (d : cx) k z, i < length l -> nth k (cadd_at fadd i d l) z = if Nat.eqb k i then cadd fadd (nth k l z) d else nth k l z.
  Proof.
    induction l as [|x l IH]; intros i d k z H; simpl in H; [lia|]. destruct i; destruct k; simpl; try reflexivity. apply IH. lia.
  Qed.
  Lemma cadd_at_cancel : forall (l : list cx) i h, cadd_at fadd i (F0, fopp h) (cadd_at fadd i (F0, h) l) = l.
  Proof.
    induction l as [|[a b] l IH]; intros [|i] h; simpl; try reflexivity; f_equal; auto. unfold cadd. simpl. f_equal; ring.
  Qed.

  Definition zeros (n : nat) : list F := repeat F0 n.
  Lemma zip_neg : forall l : list F, zip fadd (map fopp l) l = zeros (length l).
  Proof. induction l; simpl; [reflexivity|]. unfold zeros. simpl. f_equal; [ring|assumption]. Qed.
  Lemma zip_sub_zeros : forall l : list F, zip fsub l (zeros (length l)) = l.
  Proof. induction l; simpl; [reflexivity|]. f_equal; [ring|assumption]. Qed.

  Lemma cs_loop_spec : forall es before after h sv fuel j s cols, h <> F0 -> Forall (fun ex => pdeg ex <= 2) es ->
      (forall z, In z (before ++ sv ++ after) -> snd z = F0) -> j + fuel = length sv ->
      let x := map fst (before ++ sv ++ after) in
      let '(s', sv', cols') := cs_loop F0 fadd fmul fsub fopp finv (cpoly_out F0 fadd fmul fsub fopp es) before after h sv j fuel s cols in
      s_p s' = s_p s /\ s_u s' = s_u s /\ sv' = sv /\ (fuel <> 0 -> s_r s' = zeros (length (s_u s))) /\ (fuel = 0 -> s' = s) /\
      cols' = cols ++ map (fun i => map (fun ex => peval fadd fmul fopp (at_list F0 x) (pderiv F0 F1 Nat.eqb (length before + i) ex)) es) (seq j fuel).
  Proof.
    intros es before after h sv fuel. induction fuel as [|fuel IH]; intros j s cols Hh He Hz Hj.
    - cbn. repeat split; try congruence. rewrite app_nil_r. reflexivity.
    - intros x. cbn [cs_loop]. rewrite cadd_at_cancel. rewrite zip_neg, zip_sub_zeros.
      match goal with |- context [cs_loop _ _ _ _ _ _ _ _ _ _ _ _ _ ?SS ?CC] => specialize (IH (S j) SS CC Hh He Hz); set (S1 := SS) in *; set (C1 := CC) in * end.
      cbv zeta in IH. fold x in IH.
      destruct (cs_loop F0 fadd fmul fsub fopp finv (cpoly_out F0 fadd fmul fsub fopp es) before after h sv (S j) fuel S1 C1) as [[s' sv'] cols'].
      destruct IH as (I1 & I2 & I3 & I4 & I5 & I6); [lia|].
      split; [rewrite I1; reflexivity|]. split; [rewrite I2; reflexivity|]. split; [assumption|]. split; [|split; [intros; discriminate|]].
      + intros _. destruct (Nat.eq_dec fuel 0) as [E|E]; [rewrite (I5 E); reflexivity|rewrite (I4 E); reflexivity].
      + rewrite I6. unfold C1. rewrite <- app_assoc. f_equal. cbn [seq map app]. f_equal. unfold cpoly_out. rewrite map_map.
        apply map_ext_in. intros ex Hex. rewrite Forall_forall in He.
        rewrite (complex_taylor F0 F1 fadd fmul fsub fopp fdiv finv Fth Nat.eqb ex (length before + j) (at_list F0 x) _ h (He ex Hex)).
        * cbn [snd]. field. assumption.
        * intros w. unfold at_list, x.
          assert (Hfst : forall (l : list cx) k, nth k (map fst l) F0 = fst (nth k l (F0, F0))) by (intros l k; exact (map_nth fst l (F0, F0) k)).
          assert (Hpair : forall z : F * F, snd z = F0 -> z = (fst z, F0)) by (intros [z1 z2]; simpl; congruence).
          rewrite Hfst.
          assert (Hs0 : snd (nth w (before ++ sv ++ after) (F0, F0)) = F0).
          { destruct (Nat.ltb_spec w (length (before ++ sv ++ after))); [apply Hz, nth_In; assumption|rewrite nth_overflow by assumption; reflexivity]. }
          destruct (Nat.ltb_spec w (length before)) as [Hw|Hw].
          -- rewrite !app_nth1 in * by assumption. assert (E : Nat.eqb w (length before + j) = false) by (apply Nat.eqb_neq; lia). rewrite E.
             exact (Hpair _ Hs0).
          -- rewrite app_nth2 in * by assumption. rewrite (app_nth2 before) in * by assumption.
             destruct (Nat.ltb_spec (w - length before) (length sv)) as [Hw2|Hw2].
             ++ rewrite app_nth1 in * by (rewrite ?cadd_at_length; assumption). rewrite (app_nth1 sv) in * by assumption.
                assert (Hjl : j < length sv) by lia. rewrite nth_cadd_at by exact Hjl. unfold FdModel.cx in *. destruct (Nat.eqb_spec (w - length before) j) as [E|E].
                ** assert (E2 : Nat.eqb w (length before + j) = true) by (apply Nat.eqb_eq; lia). rewrite E2. unfold cadd. cbn [fst snd]. rewrite Hs0. f_equal; ring.
                ** assert (E2 : Nat.eqb w (length before + j) = false) by (apply Nat.eqb_neq; lia). rewrite E2. exact (Hpair _ Hs0).
             ++ rewrite app_nth2 in * by (rewrite ?cadd_at_length; assumption). rewrite (app_nth2 sv) in * by assumption. rewrite cadd_at_length.
                assert (E2 : Nat.eqb w (length before + j) = false) by (apply Nat.eqb_neq; lia). rewrite E2. exact (Hpair _ Hs0).
  Qed.

  Lemma complex_step_exact : forall es a n h s, h <> F0 -> Forall (fun ex => pdeg ex <= 2) es -> a + n <= length (s_p s) ->
      let '(s', m) := complex_step F0 fadd fmul fsub fopp finv (cpoly_out F0 fadd fmul fsub fopp es) a n h s in
      s_p s' = s_p s /\ s_u s' = s_u s /\
      m = map (fun i => map (fun ex => peval fadd fmul fopp (at_list F0 (s_p s)) (pderiv F0 F1 Nat.eqb (a + i) ex)) es) (seq 0 n).
  Proof.
    intros es a n h s Hh He Hle. unfold complex_step.
    set (ps := map (cx_of F0) (s_p s)).
    assert (Hlp : length ps = length (s_p s)) by apply map_length.
    assert (Hsplit : firstn a ps ++ firstn n (skipn a ps) ++ skipn (a + n) ps = ps).
    { rewrite <- (firstn_skipn a ps) at 4. f_equal. rewrite <- (firstn_skipn n (skipn a ps)) at 2. f_equal.
      rewrite Nat.add_comm. clear. revert a. induction ps; intros [|a0]; simpl; rewrite ?skipn_nil; auto.
      - rewrite Nat.add_0_r. reflexivity.
      - rewrite Nat.add_succ_r. simpl. apply IHps. }
    assert (Hz : forall z, In z (firstn a ps ++ firstn n (skipn a ps) ++ skipn (a + n) ps) -> snd z = F0).
    { rewrite Hsplit. intros z Hz. apply in_map_iff in Hz. destruct Hz as (x & <- & _). reflexivity. }
    pose proof (cs_loop_spec es (firstn a ps) (skipn (a + n) ps) h (firstn n (skipn a ps)) n 0 s [] Hh He Hz) as G.
    cbv zeta in G. destruct (cs_loop F0 fadd fmul fsub fopp finv (cpoly_out F0 fadd fmul fsub fopp es) (firstn a ps) (skipn (a + n) ps) h (firstn n (skipn a ps)) 0 n s []) as [[s' sv'] m].
    destruct G as (G1 & G2 & G3 & G4 & G5 & G6); [rewrite firstn_length, skipn_length; lia|].
    split; [assumption|]. split; [assumption|]. rewrite G6. cbn [app]. clear G3 Hz G4 G5. unfold FdModel.cx in *. rewrite Hsplit.
    assert (Ef : map fst ps = s_p s) by (unfold ps; rewrite map_map; simpl; apply map_id). rewrite Ef.
    rewrite firstn_length_le by lia. reflexivity.
  Qed.
  Lemma complex_step_resids : forall f a n h s, n <> 0 -> a + n <= length (s_p s) ->
      s_r (fst (complex_step F0 fadd fmul fsub fopp finv f a n h s)) = zeros (length (s_u s)).
  Proof.
    intros f a n h s Hn Hle. unfold complex_step.
    assert (G : forall fuel before after sv j s cols, fuel <> 0 ->
       s_r (fst (fst (cs_loop F0 fadd fmul fsub fopp finv f before after h sv j fuel s cols))) = zeros (length (s_u s))).
    { induction fuel as [|fuel IH]; intros before after sv j s1 cols Hf; [congruence|]. cbn [cs_loop]. rewrite zip_neg, zip_sub_zeros.
      destruct (Nat.eq_dec fuel 0) as [->|E]; [reflexivity|]. rewrite IH by assumption. reflexivity. }
    match goal with |- context [cs_loop ?a ?b ?c ?d ?e ?g ?f1 ?bb ?aa ?h1 ?sv ?j ?n1 ?s1 ?cc] => pose proof (G n bb aa sv 0 s cc Hn) as G1; destruct (cs_loop a b c d e g f1 bb aa h1 sv j n1 s1 cc) as [[s' sv'] m] end.
    exact G1.
  Qed.

  (** ** ExecComp *)
  Section Exec.
    Context (unknowns params : list (string * list F)) (p : string) (i : nat) (h : F) (pvals : list F).
    Hypothesis Hp : sget params p = Some pvals.
    Hypothesis Hi : i < length pvals.
    Hypothesis Hh : h <> F0.

    Definition env : pv -> cx := fun v => (param_env F0 params v, if pv_eqb v (p, i) then h else F0).
    Notation pce := (pceval F0 fadd fmul fsub fopp env).
    Definition pch : list (string * list cx) := [(p, cadd_at fadd i (F0, h) (map (cx_of F0) pvals))].

    Definition agree (uch : list (string * list cx)) (done : list (string * list (pexpr F pv))) : Prop :=
      forall n, sget uch n = option_map (map pce) (sget done n).

    Lemma stepped_values : forall n v, sget params n = Some v ->
        tmp_get F0 pch params n = Some (map pce (map (fun k => PV (n, k)) (seq 0 (length v)))).
    Proof.
      intros n v Hv. unfold tmp_get, pch. simpl. unfold sget in *. rewrite map_map. simpl.
      destruct (String.eqb_spec n p) as [->|Hne].
      - simpl. f_equal. assert (v = pvals) by congruence. subst v. apply nth_error_ext_list. intros c. rewrite nth_error_map.
        destruct (Nat.ltb_spec c (length pvals)) as [Hc|Hc].
        + rewrite (nth_error_nth' (seq 0 (length pvals)) 0) by (rewrite seq_length; assumption). rewrite seq_nth by assumption. simpl.
          rewrite (nth_error_nth' _ (F0, F0)) by (rewrite cadd_at_length, map_length; assumption). f_equal.
          rewrite nth_cadd_at by (rewrite map_length; assumption). unfold env, param_env, pv_eqb. cbn [fst snd]. unfold sget. rewrite Hp.
          rewrite String.eqb_refl. cbn [andb].
          assert (Hnth : nth c (map (cx_of F0) pvals) (F0, F0) = (nth c pvals F0, F0)) by (change (F0, F0) with (cx_of F0 F0); rewrite map_nth; reflexivity).
          rewrite Hnth. destruct (Nat.eqb c i); [|reflexivity]. unfold cadd. simpl. f_equal; ring.
        + assert (N1 : nth_error (seq 0 (length pvals)) c = None) by (apply nth_error_None; rewrite seq_length; assumption).
          assert (N2 : nth_error (cadd_at fadd i (F0, h) (map (cx_of F0) pvals)) c = None) by (apply nth_error_None; rewrite cadd_at_length, map_length; assumption).
          rewrite N1, N2. reflexivity.
      - simpl. rewrite Hv. simpl. f_equal. apply nth_error_ext_list. intros c. rewrite !nth_error_map.
        destruct (Nat.ltb_spec c (length v)) as [Hc|Hc].
        + rewrite (nth_error_nth' (seq 0 (length v)) 0) by (rewrite seq_length; assumption). rewrite seq_nth by assumption. simpl.
          rewrite (nth_error_nth' _ F0) by assumption. simpl. f_equal. unfold env, param_env, pv_eqb, cx_of. cbn [fst snd]. unfold sget. rewrite Hv.
          apply String.eqb_neq in Hne. rewrite Hne. reflexivity.
        + assert (N1 : nth_error (seq 0 (length v)) c = None) by (apply nth_error_None; rewrite seq_length; assumption).
          assert (N2 : nth_error v c = None) by (apply nth_error_None; assumption). rewrite N1, N2. reflexivity.
    Qed.

    Lemma get_agree : forall uch done n, agree uch done ->
        up_get F0 uch unknowns pch params n = option_map (map pce) (sym_get done unknowns params n).
    Proof.
      intros uch done n Ha. unfold up_get, sym_get. unfold tmp_get at 1. rewrite (Ha n). destruct (sget done n) as [v|]; [reflexivity|]. cbn [option_map].
      destruct (sget unknowns n) as [v|] eqn:Eu.
      - simpl. rewrite map_map. reflexivity.
      - cbn [option_map]. destruct (sget params n) as [v|] eqn:Ep.
        + rewrite (stepped_values n v Ep). reflexivity.
        + simpl. unfold tmp_get, pch. simpl. unfold sget in *. simpl. destruct (String.eqb_spec n p) as [->|]; [congruence|]. simpl. rewrite Ep. reflexivity.
    Qed.

    Lemma ceval_agree : forall uch done e, agree uch done ->
        ceval_s F0 fadd fmul fsub fopp (up_get F0 uch unknowns pch params) e = option_map pce (sym_s (sym_get done unknowns params) e).
    Proof.
      intros uch done e Ha. induction e; simpl.
      - reflexivity.
      - rewrite (get_agree uch done name Ha). destruct (sym_get done unknowns params name); [|reflexivity]. simpl. rewrite nth_error_map. reflexivity.
      - rewrite IHe1, IHe2. destruct (sym_s (sym_get done unknowns params) e1), (sym_s (sym_get done unknowns params) e2); reflexivity.
      - rewrite IHe1, IHe2. destruct (sym_s (sym_get done unknowns params) e1), (sym_s (sym_get done unknowns params) e2); reflexivity.
      - rewrite IHe. destruct (sym_s (sym_get done unknowns params) e); reflexivity.
    Qed.
    Lemma all_agree : forall uch done es, agree uch done ->
        all_some (map (ceval_s F0 fadd fmul fsub fopp (up_get F0 uch unknowns pch params)) es) =
        option_map (map pce) (all_some (map (sym_s (sym_get done unknowns params)) es)).
    Proof.
      intros uch done es Ha. induction es as [|e es IH]; [reflexivity|]. cbn [map all_some]. rewrite (ceval_agree _ _ _ Ha), IH.
      destruct (sym_s (sym_get done unknowns params) e); [|reflexivity]. simpl.
      destruct (all_some (map (sym_s (sym_get done unknowns params)) es)); reflexivity.
    Qed.
    Lemma agree_sset : forall uch done y v, agree uch done -> agree (sset uch y (map pce v)) (sset done y v).
    Proof. intros uch done y v Ha n. rewrite !sget_sset. destruct (String.eqb n y); [reflexivity|]. apply Ha. Qed.

    Lemma exec_agree : forall code uch done, agree uch done ->
        match exec_all F0 fadd fmul fsub fopp unknowns params pch code uch, sym_all unknowns params code done with
        | Some uch', Some done' => agree uch' done'
        | None, None => True
        | _, _ => False
        end.
    Proof.
      induction code as [|[y es] code IH]; intros uch done Ha; [exact Ha|]. cbn [exec_all sym_all].
      rewrite (all_agree uch done es Ha). destruct (all_some (map (sym_s (sym_get done unknowns params)) es)) as [v|]; [|exact I].
      cbn [option_map]. apply IH. apply agree_sset. assumption.
    Qed.

    Lemma all_some_map : forall {X Y} (g : X -> option Y) l r, all_some (map g l) = Some r -> forall k x, nth_error l k = Some x -> exists y, g x = Some y /\ nth_error r k = Some y.
    Proof.
      induction l as [|a l IH]; intros r H [|k] x Hk; simpl in *; try discriminate.
      - injection Hk as ->. destruct (g x) as [y|]; [|discriminate]. destruct (all_some (map g l)); [|discriminate]. injection H as <-. exists y. auto.
      - destruct (g a) as [y|]; [|discriminate]. destruct (all_some (map g l)) as [r'|]; [|discriminate]. injection H as <-. simpl. apply IH; auto.
    Qed.

    Lemma exec_exact : forall code columns done k u t e, exec_column F0 fadd fmul fsub fopp finv unknowns params code h p i = Some columns ->
        sym_all unknowns params code [] = Some done -> nth_error (map fst unknowns) k = Some u -> sym_out unknowns params done u t = Some e -> pdeg e <= 2 ->
        exists col, nth_error columns k = Some (u, col) /\
          nth_error col t = Some (peval fadd fmul fopp (param_env F0 params) (pderiv F0 F1 pv_eqb (p, i) e)).
    Proof.
      intros code columns done k u t e Hc Hs Hk Ho Hd. unfold exec_column in Hc. rewrite Hp in Hc. fold pch in Hc.
      pose proof (exec_agree code [] [] (fun n => eq_refl)) as G. rewrite Hs in G.
      destruct (exec_all F0 fadd fmul fsub fopp unknowns params pch code []) as [uch|]; [|contradiction].
      destruct (all_some_map _ _ _ Hc k u Hk) as ([u' col] & H1 & H2).
      destruct (tmp_get F0 uch unknowns u) as [v|] eqn:Ev; [|discriminate]. simpl in H1. injection H1 as <- <-.
      eexists. split; [exact H2|]. rewrite nth_error_map.
      assert (Ev2 : Some v = option_map (map pce) (sym_get done unknowns params u)).
      { rewrite <- (get_agree uch done u G). unfold up_get. rewrite Ev. reflexivity. }
      unfold sym_out in Ho. destruct (sym_get done unknowns params u) as [l|]; [|discriminate]. simpl in Ev2. injection Ev2 as ->.
      rewrite nth_error_map, Ho. simpl. f_equal.
      assert (Hpv : forall a b, pv_eqb a b = true <-> a = b).
      { intros [a1 a2] [b1 b2]. unfold pv_eqb. simpl. rewrite andb_true_iff, String.eqb_eq, Nat.eqb_eq. split; [intros [-> ->]; reflexivity|intros E; injection E; auto]. }
      rewrite (complex_taylor F0 F1 fadd fmul fsub fopp fdiv finv Fth pv_eqb e (p, i) (param_env F0 params) env h Hd (fun w => eq_refl)).
      cbn [snd]. field. assumption.
    Qed.
  End Exec.

  Lemma comp_restored : forall f outs passes params (s0 : st) num id,
      (forall x, length x = length (s_p s0) -> length (f x) = length (s_u s0)) ->
      l_st (fd_local F0 F1 fadd fmul fsub fopp finv flt false (comp_apply fadd fsub fopp f) num id outs passes params s0) = s0.
  Proof. intros. eapply fd_restores; [exact Fth|]. eapply comp_keeps; eassumption. Qed.
End Proofs.

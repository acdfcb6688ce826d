(** Lemmas for delivery: the transfers of a group hand every owned parameter the
    entries of its source. *)
From Coq Require Import Permutation.
From Verif Require Import Base BaseFacts TransferModel TransferSpec TransferProofs PathModel VecModel
  WireModel WireSpec WireProofs.
Local Open Scope string_scope.
Local Open Scope nat_scope.
Local Open Scope list_scope.

Lemma nodup_app : forall A (a b : list A), NoDup a -> NoDup b -> (forall x, In x a -> In x b -> False) -> NoDup (a ++ b).
Proof.
  induction a as [|x a IH]; intros b N M D; simpl; [exact M|].
  inversion N; subst. constructor.
  - rewrite in_app_iff. intros [H|H]; [contradiction|]. eapply D; [left; reflexivity|exact H].
  - apply IH; auto. intros y Y Z. eapply D; [right; exact Y|exact Z].
Qed.

Lemma unique_key : forall V (l : list (string * V)) k v v', NoDup (map fst l) -> In (k, v) l -> In (k, v') l -> v = v'.
Proof.
  intros V l k v v' N I J. apply (in_sget _ _ _ _ N) in I. apply (in_sget _ _ _ _ N) in J. congruence.
Qed.

Lemma nodup_filter_fst : forall V (f : string * V -> bool) l, NoDup (map fst l) -> NoDup (map fst (filter f l)).
Proof.
  induction l as [|x l IH]; intros N; simpl in *; [constructor|]. inversion N; subst.
  destruct (f x); [|auto]. simpl. constructor; [|auto].
  intros H. apply in_map_iff in H. destruct H as (y & E & H). apply filter_In in H. rewrite <- E in *.
  match goal with X : ~ In _ _ |- _ => apply X end. apply in_map. apply H.
Qed.

Lemma shift_length : forall o l, length (shift o l) = length l.
Proof. intros. unfold shift. apply map_length. Qed.

Lemma shift_iota_nodup : forall o n, NoDup (shift o (iota n)).
Proof.
  intros o n. unfold shift, iota. rewrite map_map. apply FinFun.Injective_map_NoDup; [|apply seq_NoDup].
  intros a b H. lia.
Qed.

Lemma in_shift_iota : forall o n i, In i (shift o (iota n)) <-> (Z.of_nat o <= i < Z.of_nat (o + n))%Z.
Proof.
  intros o n i. unfold shift, iota. rewrite map_map, in_map_iff. split.
  - intros (k & <- & H). apply in_seq in H. lia.
  - intros H. exists (Z.to_nat (i - Z.of_nat o)). split; [lia|]. apply in_seq. lia.
Qed.

Lemma nth_error_slice : forall A (v : list A) a b k, nth_error (slice_val v (a, b)) k
  = if Nat.ltb k (b - a) then nth_error v (a + k) else None.
Proof.
  intros A v a b k. unfold slice_val. simpl. destruct (Nat.ltb_spec k (b - a)) as [L|L].
  - assert (G : forall (l : list A) n i, i < n -> nth_error (firstn n l) i = nth_error l i).
    { induction l as [|x l IH]; intros [|n] [|i] H; simpl; auto; try lia. apply IH. lia. }
    assert (S : forall (l : list A) n i, nth_error (skipn n l) i = nth_error l (n + i)).
    { induction l as [|x l IH]; intros [|n] i; simpl; auto. destruct i; reflexivity. }
    rewrite G by exact L. apply S.
  - apply nth_error_None. rewrite firstn_length. lia.
Qed.

Lemma slice_length : forall A (v : list A) a b, a <= b -> b <= length v -> length (slice_val v (a, b)) = b - a.
Proof. intros A v a b H L. unfold slice_val. simpl. rewrite firstn_length, skipn_length. lia. Qed.

Lemma list_ext : forall A (l l' : list A), (forall k, nth_error l k = nth_error l' k) -> l = l'.
Proof.
  induction l as [|x l IH]; intros [|y l'] H; auto.
  - specialize (H 0). discriminate.
  - specialize (H 0). discriminate.
  - pose proof (H 0) as H0. simpl in H0. inversion H0. f_equal. apply IH. intros k. exact (H (S k)).
Qed.

Section Delivery.
  Variables (path : string) (junk : nat -> Z) (rel mine : string -> bool) (conns : list conn)
            (params unknowns : list (string * meta)) (udat : list (string * acc)).
  Hypothesis legal : legal_group rel mine conns params unknowns.
  Hypothesis Hst : stores rel unknowns udat.
  Hypothesis Hpk : packed 0 udat.

  Notation us := (u_sizes rel unknowns).

  Section Dat.
    Variables (dat : list (string * tacc)) (n : nat).
    Hypothesis Htp : tpacked 0 dat n.
    Hypothesis Hnames : map fst dat = map fst (filter (fun x => (rel (fst x) && mine (fst x))%bool) params).
    Hypothesis Hall : Forall (fun x => stored_ok rel mine conns params unknowns (fst x) (snd x)) dat.

    Notation ps := (p_sizes dat).

    Lemma nd_dat : NoDup (map fst dat).
    Proof. rewrite Hnames. apply nodup_filter_fst. apply legal. Qed.

    Lemma active_info : forall c, In c conns -> active rel mine c = true ->
      exists t s a k, In (fst c, t) params /\ In (snd c, s) unknowns /\ In (fst c, a) dat /\
        a = setup_var t s k /\ (by_object s t \/ by_vector s t).
    Proof.
      intros [par unk] C A. unfold active in A. simpl in *.
      apply andb_true_iff in A. destruct A as [M A]. apply andb_true_iff in A. destruct A as [Ru Rp].
      destruct legal as (N1 & N2 & N3 & L1 & L2).
      assert (I : In par (map fst params)).
      { apply L1; [exact M|]. apply (in_map fst) in C. exact C. }
      apply in_map_iff in I. destruct I as ([q t] & E & I). simpl in E. subst q.
      assert (D : In par (map fst dat)).
      { rewrite Hnames. apply in_map_iff. exists (par, t). split; [reflexivity|]. apply filter_In. split; [exact I|].
        simpl. rewrite Rp, M. reflexivity. }
      apply in_map_iff in D. destruct D as ([q a] & E & D). simpl in E. subst q.
      rewrite Forall_forall in Hall. destruct (Hall _ D) as (t' & src & s & k & I' & _ & _ & C' & U & Ea & B).
      simpl in *. pose proof (unique_key _ _ _ _ _ N2 I I') as <-. pose proof (unique_key _ _ _ _ _ N1 C C') as <-.
      exists t, s, a, k. auto.
    Qed.

    Lemma vec_info : forall c, In c conns -> active rel mine c = true -> isvec unknowns c = true ->
      exists t s a k x uo po, In (fst c, t) params /\ In (snd c, s) unknowns /\ In (fst c, a) dat /\
        a = setup_var t s k /\ by_vector s t /\ sget udat (snd c) = Some x /\
        a_slice x = Some (uo, uo + m_size s) /\ uo + m_size s <= total 0 udat /\
        t_slice a = Some (po, po + vec_size_of s t) /\ po + vec_size_of s t <= n /\
        global_idxs junk us ps (snd c) (fst c) s (t_meta a) = Ok (shift uo (args s t), shift po (iota (vec_size_of s t))).
    Proof.
      intros c C A V. destruct (active_info c C A) as (t & s & a & k & I & U & D & E & B).
      destruct legal as (N1 & N2 & N3 & _ & _).
      unfold isvec in V. rewrite (in_sget _ _ _ _ N3 U) in V. apply negb_true_iff in V.
      destruct B as [B|B].
      { destruct B as (B & _). rewrite B in V. discriminate. }
      unfold active in A. apply andb_true_iff in A. destruct A as [M A]. apply andb_true_iff in A. destruct A as [Ru Rp].
      destruct (u_offset rel unknowns udat 0 (snd c) s Hst Hpk N3 U Ru V) as (x & uo & X1 & X2 & X3 & X4 & X5).
      destruct (setup_var_by_vector t s k B) as (F1 & F2 & F3 & F4). rewrite <- E in F1, F2, F3, F4.
      destruct (p_offset dat 0 n (fst c) a Htp nd_dat D F1) as (po & Y1 & Y2 & Y3). simpl in *.
      rewrite F2 in *.
      exists t, s, a, k, x, uo, po. repeat (split; [assumption|]).
      rewrite E. apply global_ok; assumption.
    Qed.

    Lemma workable_all : forall c, In c conns -> active rel mine c = true -> workable unknowns junk us ps dat c.
    Proof.
      intros c C A. destruct (active_info c C A) as (t & s & a & k & I & U & D & E & B).
      exists s, a. split; [apply in_sget; [apply legal|exact U]|]. split; [apply in_sget; [exact nd_dat|exact D]|].
      intros V. destruct (vec_info c C A V) as (t' & s' & a' & k' & x & uo & po & _ & U' & D' & _ & _ & _ & _ & _ & _ & _ & G).
      pose proof (unique_key _ _ _ _ _ (proj1 (proj2 (proj2 legal))) U U') as <-.
      pose proof (unique_key _ _ _ _ _ nd_dat D D') as <-. eauto.
    Qed.

    Definition good (c : conn) : Prop := In c conns /\ active rel mine c = true /\ isvec unknowns c = true.
    Notation po_of := (pairof unknowns junk us ps dat).

    (** the index lists of a connection, with everything known about it *)
    Lemma pair_info : forall c, good c ->
      exists t s a x uo po, In (fst c, t) params /\ In (snd c, s) unknowns /\ In (fst c, a) dat /\
        by_vector s t /\ sget udat (snd c) = Some x /\
        a_slice x = Some (uo, uo + m_size s) /\ uo + m_size s <= total 0 udat /\
        t_slice a = Some (po, po + vec_size_of s t) /\ po + vec_size_of s t <= n /\
        po_of c = (shift uo (args s t), shift po (iota (vec_size_of s t))).
    Proof.
      intros c (C & A & V). destruct (vec_info c C A V) as (t & s & a & k & x & uo & po & I & U & D & E & B & X & S & L & T & M & G).
      exists t, s, a, x, uo, po. repeat (split; [assumption|]).
      unfold pairof. rewrite (in_sget _ _ _ _ (proj1 (proj2 (proj2 legal))) U), (in_sget _ _ _ _ nd_dat D), G. reflexivity.
    Qed.

    Lemma legal_pairs : forall L N M, N = total 0 udat -> M = n -> (forall q, In q L -> exists c, good c /\ q = po_of c) ->
      legal_conns N M L.
    Proof.
      intros L N M -> -> H. unfold legal_conns. apply Forall_forall. intros q Q.
      destruct (H q Q) as (c & G & ->). destruct (pair_info c G) as (t & s & a & x & uo & po & _ & _ & _ & B & _ & _ & Lu & _ & Lp & ->).
      simpl. rewrite !shift_length, iota_length, args_length. split; [reflexivity|]. split; [|split].
      - intros E. apply (f_equal (@length Z)) in E. rewrite shift_length, args_length in E. simpl in E.
        pose proof (vec_size_pos s t B). lia.
      - apply Forall_forall. intros i I. unfold shift in I. apply in_map_iff in I. destruct I as (j & <- & J).
        pose proof (args_ok s t B) as Ok. rewrite Forall_forall in Ok. specialize (Ok j J). unfold idx_ok in Ok.
        unfold in_range. lia.
      - apply Forall_forall. intros i I. apply in_shift_iota in I. unfold in_range. lia.
    Qed.

    Lemma snd_entries : forall c, good c -> exists t s a po, In (fst c, t) params /\ In (snd c, s) unknowns /\ In (fst c, a) dat /\
        t_slice a = Some (po, po + vec_size_of s t) /\
        map snd (combine (fst (po_of c)) (snd (po_of c))) = shift po (iota (vec_size_of s t)).
    Proof.
      intros c G. destruct (pair_info c G) as (t & s & a & x & uo & po & I & U & D & B & _ & _ & _ & T & _ & E).
      exists t, s, a, po. repeat (split; [assumption|]). rewrite E. simpl. apply combine_snd.
      rewrite !shift_length, iota_length, args_length. reflexivity.
    Qed.

    Lemma entries_in : forall cs i, (forall c, In c cs -> good c) -> In i (map snd (entries (map po_of cs))) ->
      exists c a s e, In c cs /\ In (fst c, a) dat /\ t_slice a = Some (s, e) /\ (Z.of_nat s <= i < Z.of_nat e)%Z.
    Proof.
      induction cs as [|c cs IH]; intros i H I; [destruct I|].
      unfold entries in I. simpl in I. rewrite map_app in I. apply in_app_or in I. destruct I as [I|I].
      - destruct (snd_entries c (H c (or_introl eq_refl))) as (t & s & a & po & _ & _ & D & T & E). rewrite E in I.
        apply in_shift_iota in I. exists c, a, po, (po + vec_size_of s t). simpl. auto.
      - destruct (IH i) as (c' & a & s & e & C & X); auto. { intros; apply H; right; assumption. }
        exists c', a, s, e. simpl. auto.
    Qed.

    Lemma distinct_pairs : forall cs, (forall c, In c cs -> good c) -> NoDup (map fst cs) ->
      targets_distinct (map po_of cs).
    Proof.
      unfold targets_distinct. induction cs as [|c cs IH]; intros H N; [constructor|].
      simpl in N. inversion N as [|? ? N1 N2]; subst.
      unfold entries. simpl. rewrite map_app.
      destruct (snd_entries c (H c (or_introl eq_refl))) as (t & s & a & po & _ & _ & D & T & E). rewrite E.
      apply nodup_app.
      - apply shift_iota_nodup.
      - apply IH; [|exact N2]. intros; apply H; right; assumption.
      - intros i I J. apply in_shift_iota in I.
        destruct (entries_in cs i) as (c' & a' & s' & e' & C & D' & T' & R); [intros; apply H; right; assumption|exact J|].
        assert (Ne : fst c <> fst c'). { intros E'. apply N1. rewrite E'. apply in_map. exact C. }
        pose proof (tpacked_disjoint dat 0 n _ _ _ _ _ _ _ _ Htp nd_dat D D' Ne T T'). lia.
    Qed.

    (** one transfer *)
    Lemma deliver_list : forall A (uvec pvec : list A) L cs, length uvec = total 0 udat -> length pvec = n ->
      (forall c, In c cs -> good c) -> NoDup (map fst cs) -> Permutation L (map po_of cs) ->
      exists sc pvec', make_scatters true (map fst L) (map snd L) = Ok sc /\
        transfer_fwd sc uvec pvec = Ok pvec' /\ length pvec' = length pvec /\
        (forall c t s a x sl usl, In c cs -> In (fst c, t) params -> In (snd c, s) unknowns -> In (fst c, a) dat ->
           sget udat (snd c) = Some x -> a_slice x = Some usl -> t_slice a = Some sl ->
           delivered (m_idx t) (slice_val uvec usl) (slice_val pvec' sl)) /\
        (forall p a sl, In (p, a) dat -> t_slice a = Some sl -> ~ In p (map fst cs) ->
           slice_val pvec' sl = slice_val pvec sl).
    Proof.
      intros A uvec pvec L cs Lu Lp G N P.
      assert (In1 : forall q, In q L -> exists c, good c /\ q = po_of c).
      { intros q Q. apply (Permutation_in _ P) in Q. apply in_map_iff in Q. destruct Q as (c & <- & C). exists c. auto. }
      assert (Lg : legal_conns (length uvec) (length pvec) L) by (apply legal_pairs; auto).
      assert (Td : targets_distinct L).
      { unfold targets_distinct. eapply Permutation_NoDup; [|apply (distinct_pairs cs G N)].
        apply Permutation_map. unfold entries. apply Permutation_flat_map. apply Permutation_sym. exact P. }
      destruct (forward_correct A true L uvec pvec Lg Td) as (sc & pv & M & T & Ln & Del & Fr).
      exists sc, pv. split; [exact M|]. split; [exact T|]. split; [exact Ln|]. split.
      - intros c t s a x [s1 e1] [us1 ue1] C I U D X Ax Ta.
        destruct (pair_info c (G c C)) as (t' & s' & a' & x' & uo & po & I' & U' & D' & B & X' & Au & Lu' & Tp & Lp' & E).
        pose proof (unique_key _ _ _ _ _ (proj1 (proj2 legal)) I I') as <-.
        pose proof (unique_key _ _ _ _ _ (proj1 (proj2 (proj2 legal))) U U') as <-.
        pose proof (unique_key _ _ _ _ _ nd_dat D D') as <-.
        rewrite X in X'. inversion X'; subst x'. rewrite Ax in Au. inversion Au; subst us1 ue1.
        rewrite Ta in Tp. inversion Tp; subst s1 e1. clear X' Au Tp.
        assert (Ent : forall k i, nth_error (args s t) k = Some i ->
                  nth_error pv (po + k) = nth_error uvec (uo + Z.to_nat i)).
        { intros k i H.
          assert (Hk : k < vec_size_of s t). { rewrite <- args_length. apply nth_error_Some. congruence. }
          assert (Hi : idx_ok (m_size s) i).
          { pose proof (args_ok s t B) as Ok. rewrite Forall_forall in Ok. apply Ok. apply nth_error_In in H. exact H. }
          unfold idx_ok in Hi.
          pose proof (Del (i + Z.of_nat uo)%Z (Z.of_nat k + Z.of_nat po)%Z) as Dl.
          replace (Z.to_nat (Z.of_nat k + Z.of_nat po)) with (po + k) in Dl by lia.
          replace (Z.to_nat (i + Z.of_nat uo)) with (uo + Z.to_nat i) in Dl by lia.
          apply Dl. unfold entries. apply in_flat_map. exists (po_of c). split.
          { apply (Permutation_in _ (Permutation_sym P)). apply in_map. exact C. }
          rewrite E. simpl. apply (nth_error_In _ k).
          assert (Cn : forall (X Y : list Z) k x y, nth_error X k = Some x -> nth_error Y k = Some y ->
                   nth_error (combine X Y) k = Some (x, y)).
          { clear. induction X as [|x0 X IH]; intros [|y0 Y] [|k] x y HX HY; simpl in *; try discriminate.
            - congruence.
            - apply IH; assumption. }
          apply Cn; rewrite shift_nth.
          - rewrite H. reflexivity.
          - rewrite iota_nth by exact Hk. reflexivity. }
        unfold delivered. destruct (m_idx t) as [l|] eqn:Ix.
        + assert (Ea : args s t = l) by (unfold args; rewrite Ix; reflexivity).
          assert (Ev : vec_size_of s t = length l) by (unfold vec_size_of; rewrite Ix; reflexivity).
          rewrite Ea, Ev in *. split.
          * rewrite slice_length by lia. lia.
          * intros k i H.
            assert (Hi : idx_ok (m_size s) i).
            { pose proof (args_ok s t B) as Ok. rewrite Ea in Ok. rewrite Forall_forall in Ok. apply Ok.
              apply nth_error_In in H. exact H. }
            unfold idx_ok in Hi. split; [lia|].
            assert (Hk : k < length l) by (apply nth_error_Some; congruence).
            destruct (nth_error uvec (uo + Z.to_nat i)) as [v|] eqn:Ev'.
            2:{ apply nth_error_None in Ev'. lia. }
            exists v. rewrite !nth_error_slice.
            replace (Nat.ltb (Z.to_nat i) (uo + m_size s - uo)) with true by (symmetry; apply Nat.ltb_lt; lia).
            replace (Nat.ltb k (po + length l - po)) with true by (symmetry; apply Nat.ltb_lt; lia).
            split; [exact Ev'|]. rewrite (Ent k i H). exact Ev'.
        + assert (Ea : args s t = iota (m_size s)) by (unfold args; rewrite Ix; reflexivity).
          assert (Ev : vec_size_of s t = m_size s) by (unfold vec_size_of; rewrite Ix; reflexivity).
          rewrite Ev in *. apply list_ext. intros k. rewrite !nth_error_slice.
          replace (uo + m_size s - uo) with (m_size s) by lia. replace (po + m_size s - po) with (m_size s) by lia.
          destruct (Nat.ltb_spec k (m_size s)) as [Hk|Hk]; [|reflexivity].
          rewrite (Ent k (Z.of_nat k)). { rewrite Nat2Z.id. reflexivity. }
          rewrite Ea. apply iota_nth. exact Hk.
      - intros p a [s e] D T' Nin. apply list_ext. intros k. rewrite !nth_error_slice.
        destruct (Nat.ltb_spec k (e - s)) as [Hk|Hk]; [|reflexivity].
        apply Fr. intros J.
        assert (J' : In (Z.of_nat (s + k)) (map snd (entries (map po_of cs)))).
        { eapply Permutation_in; [|exact J]. apply Permutation_map. unfold entries. apply Permutation_flat_map. exact P. }
        destruct (entries_in cs _ G J') as (c & a' & s' & e' & C & D' & T'' & R).
        assert (Ne : p <> fst c). { intros ->. apply Nin. apply in_map. exact C. }
        pose proof (tpacked_disjoint dat 0 n _ _ _ _ _ _ _ _ Htp nd_dat D D' Ne T' T''). lia.
    Qed.
  End Dat.

  Definition sel (ts : string) (c : conn) : bool :=
    (String.eqb ts "" || String.eqb ts (nearest_child path (fst c)))%bool.

  Lemma delivery : exists w, setup_group path junk rel mine conns params unknowns = Ok w /\
    map fst (g_dat w) = map fst (filter (fun x => (rel (fst x) && mine (fst x))%bool) params) /\
    (forall p a s e, sget (g_dat w) p = Some a -> t_slice a = Some (s, e) -> s <= e /\ e <= g_psize w) /\
    (forall p q a b s1 e1 s2 e2, sget (g_dat w) p = Some a -> sget (g_dat w) q = Some b -> p <> q ->
       t_slice a = Some (s1, e1) -> t_slice b = Some (s2, e2) -> e1 <= s2 \/ e2 <= s1) /\
    forall A ts (uvec pvec : list A), length uvec = total 0 udat -> length pvec = g_psize w ->
      exists pvec', transfer_data w ts uvec pvec = Ok pvec' /\ length pvec' = length pvec /\
        (forall p t src s, In (p, t) params -> mine p = true -> rel p = true -> In (p, src) conns -> rel src = true ->
           In (src, s) unknowns -> by_vector s t -> ts = "" \/ nearest_child path p = ts ->
           exists a sl x usl, sget (g_dat w) p = Some a /\ t_slice a = Some sl /\
             sget udat src = Some x /\ a_slice x = Some usl /\
             delivered (m_idx t) (slice_val uvec usl) (slice_val pvec' sl)) /\
        (forall p a sl, sget (g_dat w) p = Some a -> t_slice a = Some sl ->
           ts <> "" -> nearest_child path p <> ts -> slice_val pvec' sl = slice_val pvec sl).
  Proof.
    unfold setup_group.
    destruct (layout_ok rel mine conns params unknowns legal params 0 (incl_refl _)) as (dat & n & E & Htp & Hn & Ha).
    rewrite E. cbn [bind].
    destruct (loop_ok rel mine unknowns path junk us (p_sizes dat) dat conns []) as (xd & S & B & Gk & Gf).
    { intros c C A. eapply workable_all; eauto. }
    { constructor. }
    rewrite S. cbn [bind]. exists (mkWired dat n xd). simpl. split; [reflexivity|]. split; [exact Hn|].
    pose proof (nd_dat dat Hn) as Nd. split; [|split].
    - intros p a s e D T. apply sget_in in D.
      destruct (t_pbo a) eqn:Pb.
      + exfalso. rewrite Forall_forall in Ha. destruct (Ha _ D) as (t & src & s' & k & _ & _ & _ & _ & _ & Ea & Bb). simpl in *.
        destruct Bb as [Bb|Bb].
        * destruct (setup_var_by_object t s' k Bb) as (_ & F & _). congruence.
        * destruct (setup_var_by_vector t s' k Bb) as (F & _). congruence.
      + destruct (p_offset dat 0 n p a Htp Nd D Pb) as (o & _ & F & L). rewrite F in T. inversion T; subst. lia.
    - intros p q a b s1 e1 s2 e2 D1 D2 Ne T1 T2. apply sget_in in D1. apply sget_in in D2.
      exact (tpacked_disjoint dat 0 n p q a b s1 e1 s2 e2 Htp Nd D1 D2 Ne T1 T2).
    - intros A ts uvec pvec Lu Lp.
      set (cs := filter (fun c => (sel ts c && isvec unknowns c)%bool) (filter (active rel mine) conns)).
      assert (G : forall c, In c cs -> good c).
      { intros c C. unfold cs in C. apply filter_In in C. destruct C as [C1 C2]. apply filter_In in C1.
        apply andb_true_iff in C2. unfold good. tauto. }
      assert (N : NoDup (map fst cs)).
      { unfold cs. apply nodup_filter_fst, nodup_filter_fst. apply legal. }
      assert (X : exists L, Permutation L (map (pairof unknowns junk us (p_sizes dat) dat) cs) /\
                   transfer_data (mkWired dat n xd) ts uvec pvec
                   = let! sc := make_scatters true (map fst L) (map snd L) in transfer_fwd sc uvec pvec).
      { unfold transfer_data, select_xfer. simpl. destruct (String.eqb ts "") eqn:Ts.
        - destruct (full_app_pairs true xd B) as [P1 P2]. exists (pairs (full_xfer true xd)). split.
          + rewrite P1. specialize (Gf true). simpl in Gf. unfold gather in Gf. simpl in Gf. unfold want_all in Gf.
            unfold cs, sel. rewrite Ts. simpl. exact Gf.
          + unfold pairs. rewrite combine_fst, combine_snd by exact P2. reflexivity.
        - specialize (Gk ts true). simpl in Gk.
          assert (F : map (pairof unknowns junk us (p_sizes dat) dat) cs = want rel mine unknowns path junk us (p_sizes dat) dat true ts conns).
          { unfold cs, want, sel. rewrite Ts. reflexivity. }
          rewrite F. unfold xget in *. destruct (dget key_eqb xd (ts, true)) as [x|] eqn:Xg.
          + exists (pairs x). simpl in Gk. rewrite Gk. split; [apply Permutation_refl|].
            rewrite <- Gk. assert (Bx : balanced x) by (eapply xget_balanced; eauto).
            unfold pairs. rewrite combine_fst, combine_snd by exact Bx. reflexivity.
          + exists []. simpl in Gk. rewrite <- Gk. split; [apply Permutation_refl|]. reflexivity. }
      destruct X as (L & P & ->).
      destruct (deliver_list dat n Htp Hn Ha A uvec pvec L cs Lu Lp G N P) as (sc & pv & M & T & Ln & Del & Fr).
      rewrite M. cbn [bind]. exists pv. split; [exact T|]. split; [exact Ln|]. split.
      + intros p t src s I Mi R C Rs U Bv Hts.
        assert (Ac : active rel mine (p, src) = true) by (unfold active; simpl; rewrite Mi, R, Rs; reflexivity).
        assert (Vc : isvec unknowns (p, src) = true).
        { unfold isvec. simpl. rewrite (in_sget _ _ _ _ (proj1 (proj2 (proj2 legal))) U). destruct Bv as (Bv & _). rewrite Bv. reflexivity. }
        assert (Cs : In (p, src) cs).
        { unfold cs. apply filter_In. split; [apply filter_In; auto|]. rewrite Vc. unfold sel. simpl.
          destruct Hts as [->| ->]; [reflexivity|]. rewrite String.eqb_refl, orb_true_r. reflexivity. }
        destruct (pair_info dat n Htp Hn Ha (p, src) (G _ Cs)) as (t' & s' & a & x & uo & po & I' & U' & D' & B' & X' & Au & _ & Tp & _ & _).
        simpl in *.
        exists a, (po, po + vec_size_of s' t'), x, (uo, uo + m_size s').
        split; [apply in_sget; assumption|]. split; [exact Tp|]. split; [exact X'|]. split; [exact Au|].
        eapply (Del (p, src)); eauto.
      + intros p a sl D Ts Hts Hn'. apply sget_in in D. eapply Fr; [exact D|exact Ts|].
        intros J. apply in_map_iff in J. destruct J as (c & <- & J). unfold cs in J. apply filter_In in J.
        destruct J as [_ J]. apply andb_true_iff in J. destruct J as [J _]. unfold sel in J.
        apply orb_true_iff in J. destruct J as [J|J].
        * apply String.eqb_eq in J. contradiction.
        * apply String.eqb_eq in J. congruence.
  Qed.
End Delivery.

(** Proofs for PrfProps.v: the tree that process_profile builds. *)
From Coq Require Import Permutation Sorted Setoid.
From Verif Require Import Base BaseFacts PrfModel PrfSpec PrfProofs PrfProofs2.
Local Open Scope string_scope.
Local Open Scope nat_scope.
Local Open Scope list_scope.

Local Arguments Qplus : simpl never.
Local Arguments Qminus : simpl never.
Local Arguments Qmult : simpl never.
Local Arguments Qeq : simpl never.
Local Arguments Qle : simpl never.
Local Arguments sumq : simpl never.

Definition kid (p : list string) (k : string) : bool := same p (removelast (split_on comma k)).
Definition under (p q : list string) : bool := same p q || below p q.
Lemma under_iff : forall p q, under p q = true <-> exists r, q = p ++ r.
Proof.
  intros p q. unfold under. rewrite orb_true_iff, same_iff, below_iff. split.
  - intros [->|(n & r & ->)]; [exists []; rewrite app_nil_r; reflexivity|exists (n :: r); reflexivity].
  - intros ([|n r] & ->); [left; rewrite app_nil_r; reflexivity|right; exists n, r; reflexivity].
Qed.
Lemma app_len : forall a b, String.length (a ++ b)%string = String.length a + String.length b.
Proof. induction a as [|x a IH]; intros b; [reflexivity|]. cbn. rewrite IH. reflexivity. Qed.

Section Tree.
  Variable C : list pcall.
  Hypothesis W : Forall wf_call C.
  Hypothesis Cl : closed C.

  Lemma cwf : forall p, called C p -> p <> [] /\ Forall no_comma p.
  Proof. intros p. apply called_wf. exact W. Qed.
  Lemma csplit : forall p, called C p -> split_on comma (text p) = p.
  Proof. intros p Cp. destruct (cwf p Cp). apply split_text; assumption. Qed.
  Lemma cinj : forall p q, called C p -> called C q -> text p = text q -> p = q.
  Proof. intros p q Cp Cq E. rewrite <- (csplit p Cp), <- (csplit q Cq), E. reflexivity. Qed.
  Lemma cprefix : forall r p, p <> [] -> called C (p ++ r) -> called C p.
  Proof. induction r as [|x r IH] using rev_ind; intros p Np Cp; [rewrite app_nil_r in Cp; exact Cp|]. apply IH; [exact Np|]. rewrite app_assoc in Cp. apply (Cl _ x); [|exact Cp]. destruct p; [congruence|discriminate]. Qed.
  Lemma ccaller : forall p n, p <> [] -> called C (p ++ [n]) -> called C p.
  Proof. intros p n Np. exact (Cl p n Np). Qed.
  Lemma csnoc : forall p, called C p -> p = removelast p ++ [last p ""].
  Proof. intros p Cp. apply app_removelast_last. apply cwf. exact Cp. Qed.
  Lemma caller_leb : forall p n, p <> [] -> String.leb (text p) (text (p ++ [n])) = true /\ text p <> text (p ++ [n]).
  Proof.
    intros p n Np. rewrite text_snoc by exact Np. split; [apply leb_app|]. intros E. apply (f_equal String.length) in E. rewrite !app_len in E. cbn in E. lia.
  Qed.

  Section Build.
    Variables (funcs : list (string * (nat * Q * Q))) (tops : list string) (total : Q).
    Hypothesis F : finv C funcs tops.
    Let L := sort_paths funcs.
    Let ks := map fst L.

    Lemma ks_in : forall k, In k ks <-> exists p, called C p /\ k = text p.
    Proof.
      intros k. rewrite <- (fi_keys _ _ _ F). unfold ks, L, dkeys. split; apply Permutation_in; [|symmetry]; apply Permutation_map; apply sort_perm.
    Qed.
    Lemma ks_nodup : NoDup ks.
    Proof. unfold ks. apply (Permutation_NoDup (l := dkeys funcs)); [apply Permutation_map; symmetry; apply sort_perm|apply F]. Qed.
    Lemma ks_sorted : StronglySorted (fun a b => String.leb a b = true) ks.
    Proof.
      unfold ks. assert (S : StronglySorted by_path L) by apply sort_sorted. induction S; [constructor|]. cbn. constructor; [assumption|]. apply Forall_map. exact H.
    Qed.
    Lemma L_val : forall p, called C p -> exists n t o, In (text p, (n, t, o)) L /\ n = number (fun c => same p (c_path c)) C /\ (t == elapsed C p)%Q /\ (o == ovr_at C p)%Q.
    Proof.
      intros p Cp. destruct (fi_val _ _ _ F p Cp) as (n & t & o & G & V). exists n, t, o. split; [|exact V]. apply (Permutation_in _ (Permutation_sym (sort_perm funcs))). exact (dget_in String.eqb String.eqb_eq _ _ _ G).
    Qed.
    Lemma sorted_split : forall {A} (R : A -> A -> Prop) l1 l2, StronglySorted R (l1 ++ l2) -> forall a b, In a l1 -> In b l2 -> R a b.
    Proof.
      intros A R. induction l1 as [|x l1 IH]; intros l2 S a b Ia Ib; [destruct Ia|]. cbn in S. inversion S; subst. destruct Ia as [->|Ia]; [|exact (IH l2 H1 a b Ia Ib)].
      apply (proj1 (Forall_forall _ _) H2). apply in_or_app. right. exact Ib.
    Qed.

    Definition binv (l1 : list (string * (nat * Q * Q))) (tree : node) (tmp : list (string * node)) : Prop :=
      dkeys tmp = map fst l1 /\ n_children tree = filter (kid []) (map fst l1) /\ n_tot_time tree = total /\
      (n_time tree == sumq (fun x => if kid [] (fst x) then snd (fst (snd x)) else 0%Q) l1)%Q /\
      forall p n t o, called C p -> In (text p, (n, t, o)) l1 -> sget tmp (text p) = Some (mkNode (last p "") (filter (kid p) (map fst l1)) t o n 0 0).

    Lemma tops_iff : forall p, called C p -> existsb (String.eqb (text p)) tops = kid [] (text p).
    Proof.
      intros p Cp. unfold kid. rewrite csplit by exact Cp. apply eq_true_iff_eq. rewrite existsb_exists, same_iff. split.
      - intros (k & I & E). apply String.eqb_eq in E. subst k. apply (fi_tops _ _ _ F) in I. destruct I as (n & Cn & E). assert (p = [n]) as -> by (apply (cinj p [n] Cp Cn); exact E). reflexivity.
      - intros E. assert (Ep : p = [last p ""]) by (rewrite (csnoc p Cp) at 1; rewrite <- E; reflexivity). exists (text p). split; [|apply String.eqb_refl]. apply (fi_tops _ _ _ F). exists (last p ""). split; [rewrite <- Ep; exact Cp|rewrite Ep at 1; reflexivity].
    Qed.

    Lemma build_ok : forall l2 l1 tree tmp, L = l1 ++ l2 -> binv l1 tree tmp -> exists tree' tmp', build tops l2 tree tmp = Ok (tree', tmp') /\ binv L tree' tmp'.
    Proof.
      induction l2 as [|[k [[n t] o]] l2 IH]; intros l1 tree tmp EL B; [rewrite app_nil_r in EL; subst l1; exists tree, tmp; split; [reflexivity|exact B]|].
      destruct B as (Bk & Bc & Bt & Bm & Bn).
      assert (Ik : In k ks) by (unfold ks; rewrite EL, map_app; apply in_or_app; right; left; reflexivity). apply ks_in in Ik. destruct Ik as (p & Cp & ->).
      pose proof ks_nodup as ND. unfold ks in ND. rewrite EL, map_app in ND. cbn [map fst] in ND. pose proof ks_sorted as SS. unfold ks in SS. rewrite EL, map_app in SS. cbn [map fst] in SS.
      assert (Nk : ~ In (text p) (map fst l1)) by (intros I; apply NoDup_remove_2 in ND; apply ND; apply in_or_app; left; exact I).
      assert (Ntmp : ~ In (text p) (dkeys tmp)) by (rewrite Bk; exact Nk).
      cbn [build]. rewrite csplit by exact Cp. cbv zeta. set (nd := mkNode (last p "") [] t o n 0 0). set (tmp1 := sset tmp (text p) nd).
      assert (K1 : dkeys tmp1 = map fst (l1 ++ [(text p, (n, t, o))])) by (unfold tmp1, sset; rewrite (dkeys_dset_new String.eqb String.eqb_eq) by exact Ntmp; rewrite Bk, map_app; reflexivity).
      assert (EL' : L = (l1 ++ [(text p, (n, t, o))]) ++ l2) by (rewrite <- app_assoc; exact EL).
      (* no child of p comes before p *)
      assert (NoKid : filter (kid p) (map fst (l1 ++ [(text p, (n, t, o))])) = []).
      { assert (X : forall k, In k (map fst (l1 ++ [(text p, (n, t, o))])) -> kid p k = false).
        { intros k I. destruct (kid p k) eqn:E; [|reflexivity]. exfalso. assert (Ik : In k ks) by (unfold ks; rewrite EL', map_app; apply in_or_app; left; exact I).
          apply ks_in in Ik. destruct Ik as (q & Cq & ->). unfold kid in E. rewrite csplit in E by exact Cq. apply same_iff in E. destruct (caller_leb p (last q "")) as [Le Ne]; [apply cwf; exact Cp|]. rewrite E, <- (csnoc q Cq) in Le, Ne. rewrite <- E in Le, Ne.
          rewrite map_app in I. apply in_app_or in I. destruct I as [I|[I|[]]]; [|cbn in I; congruence].
          apply Ne. apply String.leb_antisym; [exact Le|]. apply (sorted_split _ _ _ SS); [exact I|left; reflexivity]. }
        clear - X. induction (map fst (l1 ++ [(text p, (n, t, o))])) as [|a l IH]; [reflexivity|]. cbn. rewrite X by (left; reflexivity). apply IH. intros b I. apply X. right. exact I. }
      rewrite (tops_iff p Cp). destruct (kid [] (text p)) eqn:Top.
      - apply IH with (l1 := l1 ++ [(text p, (n, t, o))]); [exact EL'|]. split; [exact K1|]. cbn [n_children n_tot_time n_time]. split; [rewrite Bc, map_app, filter_app; cbn [map fst filter]; rewrite Top; reflexivity|].
        split; [exact Bt|]. split; [rewrite sumq_app, sumq_cons, sumq_nil; cbn [fst snd]; rewrite Top, Bm; ring|]. intros q n' t' o' Cq I. apply in_app_or in I. destruct I as [I|[I|[]]].
        + assert (Ne : text q <> text p) by (intros E; apply Nk; rewrite <- E; apply in_map_iff; eexists; split; [|exact I]; reflexivity).
          unfold tmp1, sget, sset. rewrite (dget_dset_ne String.eqb String.eqb_eq) by exact Ne. rewrite (Bn q n' t' o' Cq I : dget String.eqb tmp (text q) = _).
          rewrite map_app, filter_app. cbn [map fst filter]. assert (X : kid q (text p) = false).
          { unfold kid in *. apply same_iff in Top. rewrite <- Top. destruct (same q []) eqn:E; [|reflexivity]. apply same_iff in E. destruct (cwf q Cq). contradiction. }
          rewrite X, app_nil_r. reflexivity.
        + injection I as E1 E2 E3 E4. assert (q = p) as -> by (apply cinj; auto). subst n' t' o'. rewrite NoKid. unfold tmp1, sget, sset. apply (dget_dset_eq String.eqb String.eqb_eq).
      - assert (Nr : removelast p <> []) by (unfold kid in Top; rewrite csplit in Top by exact Cp; intros E; rewrite E in Top; discriminate).
        set (q := removelast p) in *. assert (Ep : p = q ++ [last p ""]) by exact (csnoc p Cp). assert (Cq : called C q) by (apply (Cl q (last p "")); [exact Nr|rewrite <- Ep; exact Cp]).
        rewrite join_text. assert (Ne : text q <> text p) by (rewrite Ep; apply caller_leb; exact Nr). assert (Iq : In (text q) (map fst l1)).
        { assert (X : In (text q) ks) by (apply ks_in; exists q; split; [exact Cq|reflexivity]). unfold ks in X. rewrite EL, map_app in X. apply in_app_or in X. destruct X as [X|[X|X]]; [exact X|exfalso; apply Ne; symmetry; exact X|].
          exfalso. apply Ne. apply String.leb_antisym; [rewrite Ep; apply caller_leb; exact Nr|]. apply (sorted_split (fun a b => String.leb a b = true) (map fst l1 ++ [text p]) (map fst l2)); [rewrite <- app_assoc; exact SS|apply in_or_app; right; left; reflexivity|exact X]. }
        apply in_map_iff in Iq. destruct Iq as ([kq [[nq tq] oq]] & Ekq & Iq). cbn in Ekq. subst kq. pose proof (Bn q nq tq oq Cq Iq) as Gq.
        assert (G1 : sget tmp1 (text q) = Some (mkNode (last q "") (filter (kid q) (map fst l1)) tq oq nq 0 0)) by (unfold tmp1, sget, sset; rewrite (dget_dset_ne String.eqb String.eqb_eq) by exact Ne; exact Gq).
        rewrite G1. apply IH with (l1 := l1 ++ [(text p, (n, t, o))]); [exact EL'|].
        assert (Inq : In (text q) (dkeys tmp1)) by exact (dget_some_in_keys String.eqb String.eqb_eq _ _ _ G1).
        split; [unfold sset; rewrite (dkeys_dset_in String.eqb String.eqb_eq) by exact Inq; exact K1|]. split; [rewrite Bc, map_app, filter_app; cbn [map fst filter]; rewrite Top, app_nil_r; reflexivity|].
        split; [exact Bt|]. split; [rewrite sumq_app, sumq_cons, sumq_nil; cbn [fst snd]; rewrite Top, Bm; ring|]. intros u n' t' o' Cu I. unfold sget, sset. rewrite (dget_dset String.eqb String.eqb_eq). destruct (String.eqb_spec (text u) (text q)) as [E|Nu].
        + assert (u = q) as -> by (apply cinj; auto). apply in_app_or in I. destruct I as [I|[I|[]]]; [|injection I as E1; exfalso; apply Ne; symmetry; exact E1].
          assert (X : sget tmp (text q) = Some (mkNode (last q "") (filter (kid q) (map fst l1)) t' o' n' 0 0)) by exact (Bn q n' t' o' Cq I). rewrite Gq in X. injection X as E1 E2 E3. subst. unfold add_child. cbn [n_name n_children n_time n_ovr n_count n_tot_time n_tot_count].
          rewrite map_app, filter_app. cbn [map fst filter]. assert (Y : kid q (text p) = true) by (unfold kid; rewrite csplit by exact Cp; apply same_refl). rewrite Y. reflexivity.
        + apply in_app_or in I. destruct I as [I|[I|[]]].
          * assert (Np : text u <> text p) by (intros E; apply Nk; rewrite <- E; apply in_map_iff; eexists; split; [|exact I]; reflexivity).
            unfold tmp1, sset. rewrite (dget_dset_ne String.eqb String.eqb_eq) by exact Np. rewrite (Bn u n' t' o' Cu I : dget String.eqb tmp (text u) = _).
            rewrite map_app, filter_app. cbn [map fst filter]. assert (Y : kid u (text p) = false).
            { unfold kid. rewrite csplit by exact Cp. fold q. destruct (same u q) eqn:E; [|reflexivity]. apply same_iff in E. subst u. contradiction. }
            rewrite Y, app_nil_r. reflexivity.
          * injection I as E1 E2 E3 E4. assert (u = p) as -> by (apply cinj; auto). subst n' t' o'. rewrite NoKid. unfold tmp1, sset. apply (dget_dset_eq String.eqb String.eqb_eq).
    Qed.
  End Build.

  (** ** Overheads *)
  Lemma partition : forall (g : pcall -> Q) p ns, NoDup ns -> (forall n, In n ns <-> called C (p ++ [n])) ->
      (sumq (fun n => sumq (fun c => if under (p ++ [n]) (c_path c) then g c else 0%Q) C) ns == sumq (fun c => if below p (c_path c) then g c else 0%Q) C)%Q.
  Proof.
    intros g p ns ND H. rewrite sumq_swap. apply sumq_ext. intros c Ic. destruct (below p (c_path c)) eqn:E.
    - apply below_iff in E. destruct E as (n & r & E). assert (I : In n ns).
      { apply H. apply (cprefix r); [destruct p; discriminate|]. exists c. split; [exact Ic|]. rewrite E, <- app_assoc. reflexivity. }
      rewrite (sumq_one _ n ns ND I).
      + assert (X : under (p ++ [n]) (c_path c) = true) by (apply under_iff; exists r; rewrite E, <- app_assoc; reflexivity). rewrite X. reflexivity.
      + intros m _ Nm. destruct (under (p ++ [m]) (c_path c)) eqn:U; [|reflexivity]. apply under_iff in U. destruct U as (r' & U). rewrite E, <- app_assoc in U. apply app_inv_head in U. inversion U. congruence.
    - apply sumq_zero. intros n _. destruct (under (p ++ [n]) (c_path c)) eqn:U; [|reflexivity]. apply under_iff in U. destruct U as (r & U). exfalso.
      assert (X : below p (c_path c) = true) by (apply below_iff; exists n, r; rewrite U, <- app_assoc; reflexivity). congruence.
  Qed.
  Lemma under_sum : forall (g : pcall -> Q) p, (sumq (fun c => if under p (c_path c) then g c else 0%Q) C == sumq (fun c => if same p (c_path c) then g c else 0%Q) C + sumq (fun c => if below p (c_path c) then g c else 0%Q) C)%Q.
  Proof.
    intros g p. rewrite <- sumq_add. apply sumq_ext. intros c _. unfold under. destruct (same p (c_path c)) eqn:S; cbn [orb].
    - apply same_iff in S. rewrite <- S. unfold below. rewrite Nat.ltb_irrefl. cbn. ring.
    - destruct (below p (c_path c)); ring.
  Qed.
  Definition ovr_under (p : list string) : Q := sumq (fun c => if under p (c_path c) then c_ovr c else 0%Q) C.

  Section Remove.
    Variable base : list string -> node.
    Variable names : list string -> list string.
    Hypothesis names_nodup : forall p, NoDup (names p).
    Hypothesis names_in : forall p n, In n (names p) <-> called C (p ++ [n]).
    Hypothesis base_kids : forall p, called C p -> n_children (base p) = map (fun n => text (p ++ [n])) (names p).
    Hypothesis base_ovr : forall p, called C p -> (n_ovr (base p) == ovr_at C p)%Q.
    Definition fixed (p : list string) (nd : node) : Prop := exists q, nd = set_time (base p) q /\ (q == n_time (base p) - overhead_below C p)%Q.
    (** the dictionaries within p are those of [base], resp. corrected *)
    Definition raw_in (p : list string) (tmp : list (string * node)) : Prop := forall q, called C q -> under p q = true -> sget tmp (text q) = Some (base q).
    Definition done_in (p : list string) (tmp : list (string * node)) : Prop := forall q, called C q -> under p q = true -> exists nd, sget tmp (text q) = Some nd /\ fixed q nd.
    Definition kept (P : list string -> Prop) (tmp tmp' : list (string * node)) : Prop := dkeys tmp' = dkeys tmp /\ forall q, called C q -> ~ P q -> sget tmp' (text q) = sget tmp (text q).

    Lemma kids_ok' : forall rec p ns, NoDup ns -> (forall n, In n ns -> called C (p ++ [n])) ->
        (forall n tmp, In n ns -> raw_in (p ++ [n]) tmp -> exists o tmp', rec (text (p ++ [n])) tmp = Ok (o, tmp') /\ (o == ovr_under (p ++ [n]))%Q /\ done_in (p ++ [n]) tmp' /\ kept (fun q => under (p ++ [n]) q = true) tmp tmp') ->
        forall tot tmp, (forall n, In n ns -> raw_in (p ++ [n]) tmp) ->
        exists o tmp', kids_ovr rec (map (fun n => text (p ++ [n])) ns) tot tmp = Ok (o, tmp') /\ (o == tot + sumq (fun n => ovr_under (p ++ [n])) ns)%Q /\
          (forall n, In n ns -> done_in (p ++ [n]) tmp') /\ kept (fun q => exists n, In n ns /\ under (p ++ [n]) q = true) tmp tmp'.
    Proof.
      intros rec p. induction ns as [|n ns IH]; intros ND Cn R tot tmp Raw.
      - exists tot, tmp. split; [reflexivity|]. split; [rewrite sumq_nil; ring|]. split; [intros n []|]. split; [reflexivity|intros; reflexivity].
      - inversion ND; subst. destruct (R n tmp (or_introl eq_refl) (Raw n (or_introl eq_refl))) as (o & tmp1 & E & Eo & Dn & [Kk Kv]). cbn [map kids_ovr]. rewrite E. cbn [bind].
        assert (Dis : forall m q, In m ns -> under (p ++ [m]) q = true -> under (p ++ [n]) q = true -> False).
        { intros m q Im Um Un. apply under_iff in Um, Un. destruct Um as (r & ->). destruct Un as (r' & U). rewrite <- !app_assoc in U. apply app_inv_head in U. inversion U. subst. contradiction. }
        destruct (IH H2) with (tot := (tot + o)%Q) (tmp := tmp1) as (o' & tmp2 & E2 & Eo2 & D2 & [K2k K2v]).
        + intros m Im. apply Cn. right. exact Im.
        + intros m t' Im. apply R. right. exact Im.
        + intros m Im q Cq U. rewrite Kv; [|exact Cq|intros Un; exact (Dis m q Im U Un)]. apply (Raw m (or_intror Im)); assumption.
        + exists o', tmp2. split; [exact E2|]. split; [rewrite Eo2, sumq_cons, Eo; ring|]. split.
          * intros m [<-|Im]; [|exact (D2 m Im)]. intros q Cq U. rewrite K2v; [exact (Dn q Cq U)|exact Cq|]. intros (m & Im & Um). exact (Dis m q Im Um U).
          * split; [congruence|]. intros q Cq Nq. rewrite K2v; [apply Kv; [exact Cq|]|exact Cq|].
            -- intros U. apply Nq. exists n. split; [left; reflexivity|exact U].
            -- intros (m & Im & U). apply Nq. exists m. split; [right; exact Im|exact U].
    Qed.

    Lemma remove_ok : forall fuel p tmp, called C p -> (forall q, called C q -> length q < length p + fuel) -> raw_in p tmp ->
        exists o tmp', remove_child_ovr fuel (text p) tmp = Ok (o, tmp') /\ (o == ovr_under p)%Q /\ done_in p tmp' /\ kept (fun q => under p q = true) tmp tmp'.
    Proof.
      induction fuel as [|fuel IH]; intros p tmp Cp Lp Raw; [specialize (Lp p Cp); lia|]. cbn [remove_child_ovr].
      assert (Up : under p p = true) by (unfold under; rewrite same_refl; reflexivity). rewrite (Raw p Cp Up), (base_kids p Cp).
      assert (Sub : forall n q, under (p ++ [n]) q = true -> under p q = true) by (intros n q U; apply under_iff in U; destruct U as (r & ->); apply under_iff; exists ([n] ++ r); rewrite <- app_assoc; reflexivity).
      destruct (kids_ok' (remove_child_ovr fuel) p (names p) (names_nodup p)) with (tot := 0%Q) (tmp := tmp) as (o & tmp1 & E & Eo & D & [Kk Kv]).
      { intros n I. apply names_in. exact I. }
      { intros n t' I R. apply IH; [apply names_in; exact I| |exact R]. intros q Cq. specialize (Lp q Cq). rewrite app_length. cbn. lia. }
      { intros n I q Cq U. apply Raw; [exact Cq|exact (Sub n q U)]. }
      rewrite E. cbn [bind].
      assert (Eb : (o == overhead_below C p)%Q) by (rewrite Eo; unfold ovr_under; rewrite (partition c_ovr p (names p) (names_nodup p) (names_in p)); unfold overhead_below; ring).
      assert (Gp : sget tmp1 (text p) = Some (base p)).
      { rewrite Kv; [exact (Raw p Cp Up)|exact Cp|]. intros (n & _ & U). apply under_iff in U. destruct U as (r & U). apply (f_equal (@length string)) in U. rewrite !app_length in U. cbn in U. lia. }
      set (tmp2 := match map (fun n => text (p ++ [n])) (names p) with [] => tmp1 | _ :: _ => sset tmp1 (text p) (set_time (base p) (n_time (base p) - o)) end).
      assert (G2 : exists nd, sget tmp2 (text p) = Some nd /\ fixed p nd).
      { unfold tmp2. destruct (names p) as [|n ns] eqn:En; cbn [map].
        - exists (base p). split; [exact Gp|]. exists (n_time (base p)). split; [destruct (base p); reflexivity|]. rewrite <- Eb, Eo, sumq_nil. ring.
        - eexists. split; [apply (dget_dset_eq String.eqb String.eqb_eq)|]. eexists. split; [reflexivity|]. rewrite Eb. reflexivity. }
      assert (O2 : forall q, called C q -> q <> p -> sget tmp2 (text q) = sget tmp1 (text q)).
      { intros q Cq Nq. unfold tmp2. destruct (map (fun n => text (p ++ [n])) (names p)); [reflexivity|]. unfold sget, sset. apply (dget_dset_ne String.eqb String.eqb_eq). intros X. apply Nq. apply cinj; assumption. }
      exists (o + n_ovr (base p))%Q, tmp2. split; [reflexivity|]. split; [|split].
      - rewrite Eb, (base_ovr p Cp). unfold ovr_under. rewrite under_sum. unfold overhead_below, ovr_at. ring.
      - intros q Cq U. destruct (list_eq_dec string_dec q p) as [->|Nq]; [exact G2|]. rewrite O2 by assumption. apply under_iff in U. destruct U as ([|n r] & ->); [rewrite app_nil_r in Nq; congruence|].
        assert (Ue : under (p ++ [n]) (p ++ n :: r) = true) by (apply under_iff; exists r; rewrite <- app_assoc; reflexivity).
        apply (D n); [|exact Cq|exact Ue]. apply names_in. apply (cprefix r); [destruct p; discriminate|]. rewrite <- app_assoc. exact Cq.
      - split.
        + rewrite <- Kk. unfold tmp2. destruct (map (fun n => text (p ++ [n])) (names p)); [reflexivity|]. unfold sset. apply (dkeys_dset_in String.eqb String.eqb_eq). exact (dget_some_in_keys String.eqb String.eqb_eq _ _ _ Gp).
        + intros q Cq Nu. rewrite O2; [|exact Cq|intros ->; contradiction]. apply Kv; [exact Cq|]. intros (n & _ & U). apply Nu. exact (Sub n q U).
    Qed.
  End Remove.
End Tree.

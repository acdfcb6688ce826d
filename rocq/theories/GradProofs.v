(** Lemmas for GradProps.v. *)
From Coq Require Import Ring.
From Verif Require Import Base BaseFacts GradModel LinModel LinSpec LinProofs GradSpec.
Local Open Scope string_scope.
Local Open Scope nat_scope.
Local Open Scope list_scope.
Local Hint Resolve incl_refl : core.

Lemma foldr_app : forall A S (f : S -> A -> res S) l l' s, foldr f (l ++ l') s = (let! s' := foldr f l s in foldr f l' s').
Proof. induction l as [|x l IH]; intros l' s; simpl; auto. destruct (f s x); simpl; auto. Qed.
Lemma mapr_ok : forall A B (f : A -> res B) (g : A -> B) l, (forall x, In x l -> f x = Ok (g x)) -> mapr f l = Ok (map g l).
Proof. induction l as [|x l IH]; intros H; simpl; auto. rewrite H by now left. simpl. rewrite IH by (intros; apply H; now right). reflexivity. Qed.
Lemma mem_spec : forall l x, mem l x = true <-> In x l.
Proof.
  intros l x. unfold mem. rewrite existsb_exists. split.
  - intros [y [H E]]. apply String.eqb_eq in E. now subst.
  - intros H. exists x. split; auto. apply String.eqb_refl.
Qed.
Lemma mem_false : forall l x, mem l x = false <-> ~ In x l.
Proof. intros. rewrite <- mem_spec. destruct (mem l x); split; congruence. Qed.

(** a loop that establishes a growing invariant *)
Lemma foldr_inv : forall A S (f : S -> A -> res S) (Inv : list A -> S -> Prop) l s,
    (forall done x s, Inv done s -> In x l -> exists s', f s x = Ok s' /\ Inv (x :: done) s') ->
    Inv [] s -> exists s', foldr f l s = Ok s' /\ exists done, Inv done s' /\ forall x, In x l -> In x done.
Proof.
  intros A S f Inv l s Hstep H0.
  assert (G : forall l2 done s, incl l2 l -> Inv done s -> exists s', foldr f l2 s = Ok s' /\
            exists d, Inv d s' /\ incl done d /\ forall x, In x l2 -> In x d).
  { induction l2 as [|x l2 IH]; intros done s1 Hi H1; simpl.
    - exists s1. split; auto. exists done. repeat split; auto. intros x [].
    - destruct (Hstep done x s1 H1 (Hi x (or_introl eq_refl))) as [s2 [E H2]]. rewrite E. simpl.
      destruct (IH (x :: done) s2) as [s3 [E3 [d [H3 [H4 H5]]]]]; auto. { intros y Hy. apply Hi. now right. }
      exists s3. split; auto. exists d. repeat split; auto.
      + intros y Hy. apply H4. now right.
      + intros y [-> | Hy]; auto. apply H4. now left. }
  destruct (G l [] s (incl_refl _) H0) as [s' [E [d [H1 [_ H2]]]]]. eauto.
Qed.

Section Proofs.
  Context {F : Type} (F0 F1 : F) (fadd fmul fsub : F -> F -> F) (fopp : F -> F).
  Notation prob := (prob (F:=F)).

  (** ** positions *)
  Lemma place_ok : forall n k, k < n -> place n (Z.of_nat k) = Ok k.
  Proof.
    intros n k H. unfold place. replace (0 <=? Z.of_nat k)%Z with true by (symmetry; apply Z.leb_le; lia).
    replace (Z.of_nat k <? Z.of_nat n)%Z with true by (symmetry; apply Z.ltb_lt; lia). now rewrite Nat2Z.id.
  Qed.
  Lemma wanted_range : forall (p : prob) idx n k, var_ok p idx n -> In k (wanted p idx n) -> k < p_len p.
  Proof.
    intros p idx n k [st [sz [E [H1 H2]]]] H. unfold wanted in H. rewrite E in H. destruct (sget idx n) as [l|] eqn:El.
    - apply in_map_iff in H. destruct H as [z [<- Hz]]. destruct (H2 l eq_refl) as [_ [_ H3]]. rewrite Forall_forall in H3.
      specialize (H3 z Hz). lia.
    - apply in_seq in H. lia.
  Qed.
  Lemma local_ok : forall (p : prob) idx n, var_ok p idx n -> local_idxs p idx n = Ok (map Z.of_nat (wanted p idx n)).
  Proof.
    intros p idx n [st [sz [E [H1 H2]]]]. unfold local_idxs, wanted. rewrite E. destruct (sget idx n) as [l|] eqn:El; auto.
    destruct (H2 l eq_refl) as [H3 [H4 H5]]. replace (sz <? length l) with false by (symmetry; apply Nat.ltb_ge; lia).
    destruct l as [|z l]; [congruence|]. set (w := z :: l) in *.
    replace (existsb _ w) with false.
    - f_equal. rewrite map_map. apply map_ext_in. intros a Ha. rewrite Forall_forall in H5. specialize (H5 a Ha). lia.
    - symmetry. apply not_true_iff_false. intro Hx. apply existsb_exists in Hx. destruct Hx as [a [Ha Hx]]. apply Z.leb_le in Hx.
      rewrite Forall_forall in H5. specialize (H5 a Ha). lia.
  Qed.
  Lemma entries_ok : forall (p : prob) idx n, var_ok p idx n -> entries p idx n = Ok (length (wanted p idx n)).
  Proof.
    intros p idx n [st [sz [E [H1 H2]]]]. unfold entries, wanted. rewrite E. destruct (sget idx n) as [l|] eqn:El.
    - now rewrite map_length.
    - now rewrite seq_length.
  Qed.
  Lemma wanted_empty : forall (p : prob) idx n, var_ok p idx n -> wanted p idx n = [] ->
      sget idx n = None /\ exists st, p_var p n = Some (st, 0).
  Proof.
    intros p idx n [st [sz [E [H1 H2]]]] H. unfold wanted in H. rewrite E in H. destruct (sget idx n) as [l|] eqn:El.
    - destruct (H2 l eq_refl) as [H3 _]. destruct l; [congruence|discriminate].
    - split; auto. destruct sz; [eauto|discriminate].
  Qed.

  (** ** the loops, for any way of storing the result *)
  Section Loops.
    Context {JT : Type} (put : JT -> string -> string -> nat -> nat -> list F -> res JT).
    Variable p : prob.
    Variable fwd : bool.
    Variables in_idx out_idx : list (string * list Z).
    Variable skip : string -> string -> res bool.
    Variables inputs outputs : list string.
    (** value of the solution for position q of an input at position k of an output *)
    Variable V : nat -> nat -> F.
    Variable Good : JT -> list (string * nat * string) -> Prop.

    Hypothesis Hin : forall n, In n inputs -> var_ok p in_idx n.
    Hypothesis Hout : forall n, In n outputs -> var_ok p out_idx n.
    Hypothesis Hkey0 : p_keys p None = true.
    Hypothesis Hkeys : forall n, In n inputs -> of_interest p n -> p_keys p (Some n) = true.
    Hypothesis Hsol : forall v q u k key, In v inputs -> In q (wanted p in_idx v) -> In u outputs -> In k (wanted p out_idx u) ->
        key = None \/ key = Some v /\ keyed p v ->
        if p_rel p key u then p_solve p fwd key (minus_unit F0 F1 fopp q) k = V q k else V q k = F0.
    Hypothesis Hskip : forall v u, In v inputs -> In u outputs -> exists b, skip v u = Ok b.
    Hypothesis Gput : forall J S v q i u, Good J S -> In v inputs -> In u outputs -> nth_error (wanted p in_idx v) i = Some q ->
        skip v u = Ok false ->
        exists J', put J u v i (length (wanted p in_idx v)) (map (V q) (wanted p out_idx u)) = Ok J' /\ Good J' ((v, i, u) :: S).
    Hypothesis Gskip : forall J S v i u, Good J S -> In v inputs -> In u outputs ->
        skip v u = Ok true \/ wanted p out_idx u = [] -> Good J ((v, i, u) :: S).

    Lemma put_item_ok : forall J S key v q i u, Good J S -> In v inputs -> In u outputs ->
        nth_error (wanted p in_idx v) i = Some q -> key = None \/ key = Some v /\ keyed p v ->
        exists J', put_item F0 put p out_idx skip key v i (length (wanted p in_idx v)) (p_solve p fwd key (seed F0 F1 fopp q)) J u = Ok J' /\
                   Good J' ((v, i, u) :: S).
    Proof.
      intros J S key v q i u HG Hv Hu Hq Hk. unfold put_item. destruct (Hskip v u Hv Hu) as [b Eb]. rewrite Eb. simpl.
      destruct b; [exists J; split; auto; apply Gskip; auto|].
      pose proof (nth_error_In _ _ Hq) as Hqin.
      pose proof (fun k Hk' => Hsol v q u k key Hv Hqin Hu Hk' Hk) as Hs. destruct (p_rel p key u).
      - rewrite local_ok by auto. simpl. rewrite (mapr_ok _ _ _ (fun z => Z.to_nat z)).
        2:{ intros z Hz. apply in_map_iff in Hz. destruct Hz as [k [<- Hk2]]. rewrite Nat2Z.id. apply place_ok.
            eapply wanted_range; [apply Hout, Hu|exact Hk2]. }
        simpl. rewrite map_map. rewrite (map_ext _ (fun x => x)) by (intros; apply Nat2Z.id). rewrite map_id.
        destruct (wanted p out_idx u) as [|k0 ks] eqn:Ew; [exists J; split; auto; apply Gskip; auto|].
        rewrite <- Ew. rewrite (map_ext_in _ (V q)); [now apply Gput|].
        intros k Hk2. rewrite Ew in Hk2. exact (Hs k Hk2).
      - rewrite entries_ok by auto. simpl. destruct (Gput J S v q i u HG Hv Hu Hq Eb) as [J' [E G]]. exists J'. split; auto.
        rewrite <- E. f_equal. clear - Hs. induction (wanted p out_idx u) as [|k ks IH]; simpl; auto.
        rewrite IH by (intros; apply Hs; now right). now rewrite Hs by now left.
    Qed.

    Lemma put_solution_ok : forall J S grp v q i key, Good J S -> In v inputs -> nth_error (wanted p in_idx v) i = Some q ->
        (key = Some v /\ keyed p v) \/ (key = None /\ grp = [v]) ->
        exists J' S', put_solution F0 put p out_idx skip outputs grp i (length (wanted p in_idx v)) J (key, p_solve p fwd key (seed F0 F1 fopp q)) = Ok J' /\
          Good J' S' /\ incl S S' /\ forall u, In u outputs -> In (v, i, u) S'.
    Proof.
      intros J S grp v q i key HG Hv Hq Hk. unfold put_solution. simpl.
      replace (match key with Some v' => v' | None => hd "" grp end) with v by (destruct Hk as [[-> _]|[-> ->]]; reflexivity).
      assert (Hk' : key = None \/ key = Some v /\ keyed p v) by (destruct Hk as [Hk|[-> _]]; auto).
      destruct (foldr_inv _ _ (put_item F0 put p out_idx skip key v i (length (wanted p in_idx v)) (p_solve p fwd key (seed F0 F1 fopp q)))
                  (fun done J => Good J (map (fun u => (v, i, u)) done ++ S)) outputs J) as [J' [E [d [G H]]]]; auto.
      - intros done u J1 G Hu. exact (put_item_ok J1 _ key v q i u G Hv Hu Hq Hk').
      - exists J', (map (fun u => (v, i, u)) d ++ S). repeat split; auto.
        + intros x Hx. apply in_or_app. now right.
        + intros u Hu. apply in_or_app. left. apply in_map_iff. exists u. auto.
    Qed.

    (** a set of variables that can be solved for together *)
    Definition set_ok (grp : list string) (m : nat) : Prop :=
      grp <> [] /\ NoDup grp /\ incl grp inputs /\ (forall v, In v grp -> length (wanted p in_idx v) = m) /\
      (length grp = 1 \/ (In grp (p_pois p ++ p_qois p) /\ forall v, In v grp -> voi_key p v grp = Some v)).

    Lemma key_cases : forall v grp m, set_ok grp m -> In v grp -> voi_key p v grp = None /\ grp = [v] \/ voi_key p v grp = Some v /\ keyed p v.
    Proof.
      intros v grp m [_ [_ [_ [_ Hk]]]] Hv.
      assert (Hs : voi_key p v grp = Some v -> keyed p v).
      { unfold voi_key. destruct (mem _ v) eqn:E; [|discriminate]. destruct (p_lgs p) eqn:El; [|discriminate]. simpl.
        destruct (1 <? length grp) eqn:E1; simpl.
        - intros _. apply mem_spec, in_app_iff in E. repeat split; auto. right. apply Nat.ltb_lt in E1. destruct Hk as [Hk|[Hk _]]; [lia|]. eauto.
        - destruct (p_reduce p) eqn:Er; [|discriminate]. intros _. apply mem_spec, in_app_iff in E. repeat split; auto. }
      destruct Hk as [Hk|[Hk1 Hk2]]; [|right; auto]. destruct grp as [|w [|? ?]]; try discriminate. destruct Hv as [->|[]].
      destruct (voi_key p v [v]) as [x|] eqn:E; [|now left]. right.
      assert (x = v) as -> by (unfold voi_key in E; destruct (_ && _); congruence). auto.
    Qed.

    Lemma dset_fresh : forall (d : list (option string * list Z)) k v, ~ In k (map fst d) -> dset key_eqb d k v = d ++ [(k, v)].
    Proof.
      induction d as [|[k' v'] d IH]; intros k v H; simpl; auto. destruct (key_eqb k k') eqn:E.
      - exfalso. apply H. left. simpl. destruct k, k'; simpl in E; try discriminate; auto. apply String.eqb_eq in E. now subst.
      - f_equal. apply IH. intro Hx. apply H. now right.
    Qed.

    Lemma alloc_ok : forall grp m, set_ok grp m ->
        foldr (alloc p in_idx grp) grp ([], None, []) =
        Ok (map (fun v => (voi_key p v grp, map Z.of_nat (wanted p in_idx v))) grp, Some m, map Z.of_nat (wanted p in_idx (last grp ""))).
    Proof.
      intros grp m [Hne [Hnd [Hi [Hm Hk]]]].
      assert (Hkd : NoDup (map (fun v => voi_key p v grp) grp)).
      { destruct Hk as [Hl|Hk].
        - destruct grp as [|v [|w grp]]; try discriminate. constructor; [intros []|constructor].
        - destruct Hk as [_ Hk]. rewrite (map_ext_in _ Some) by exact Hk. clear - Hnd. induction grp as [|v grp IH]; simpl; constructor; inversion Hnd; subst; auto.
          intro Hx. apply in_map_iff in Hx. destruct Hx as [w [E Hw]]. inversion E; subst; auto. }
      assert (G : forall post pre, grp = pre ++ post ->
        foldr (alloc p in_idx grp) post
          (map (fun v => (voi_key p v grp, map Z.of_nat (wanted p in_idx v))) pre,
           match pre with [] => None | _ => Some m end, match pre with [] => [] | _ => map Z.of_nat (wanted p in_idx (last pre "")) end) =
        Ok (map (fun v => (voi_key p v grp, map Z.of_nat (wanted p in_idx v))) grp, Some m, map Z.of_nat (wanted p in_idx (last grp "")))).
      { induction post as [|v post IH]; intros pre Hg.
        - rewrite app_nil_r in Hg. subst pre. simpl. destruct grp; [congruence|reflexivity].
        - simpl. assert (Hv : In v grp) by (rewrite Hg; apply in_or_app; right; now left).
          assert (Hkv : p_keys p (voi_key p v grp) = true).
          { destruct (key_cases v grp m (conj Hne (conj Hnd (conj Hi (conj Hm Hk)))) Hv) as [[-> _]|[-> H]]; auto. apply Hkeys; auto. apply H. }
          rewrite Hkv, local_ok by auto. simpl.
          assert (Hl : (match map Z.of_nat (wanted p in_idx v) with
                        | _ :: _ => Ok (map Z.of_nat (wanted p in_idx v))
                        | [] => match sget in_idx v with
                                | Some l => Ok l
                                | None => match p_var p v with Some (_, size) => Ok (map Z.of_nat (seq 0 size)) | None => Err KeyError end
                                end
                        end) = Ok (map Z.of_nat (wanted p in_idx v))).
          { destruct (wanted p in_idx v) eqn:Ew; auto. destruct (wanted_empty p in_idx v (Hin v (Hi v Hv)) Ew) as [-> [st ->]]. reflexivity. }
          rewrite Hl. simpl. rewrite map_length, (Hm v Hv).
          assert (Hfresh : ~ In (voi_key p v grp) (map fst (map (fun v => (voi_key p v grp, map Z.of_nat (wanted p in_idx v))) pre))).
          { rewrite map_map. simpl. intro Hx. assert (Hkd2 := eq_ind _ (fun l => NoDup (map (fun v => voi_key p v grp) l)) Hkd _ Hg). simpl in Hkd2. rewrite map_app in Hkd2. simpl in Hkd2.
            apply NoDup_remove_2 in Hkd2. apply Hkd2. apply in_or_app. now left. }
          rewrite (dset_fresh _ _ _ Hfresh).
          specialize (IH (pre ++ [v])). rewrite <- app_assoc in IH. specialize (IH Hg).
          rewrite map_app in IH. simpl in IH. rewrite last_last in IH.
          destruct pre as [|w pre]; simpl in IH |- *; [|rewrite Nat.eqb_refl; simpl]; exact IH. }
      exact (G grp [] eq_refl).
    Qed.

    Lemma solutions_ok : forall grp m i, set_ok grp m -> i < m ->
        solutions F0 F1 fopp p fwd (map (fun v => (voi_key p v grp, map Z.of_nat (wanted p in_idx v))) grp) i =
        Ok (map (fun v => (voi_key p v grp, p_solve p fwd (voi_key p v grp) (seed F0 F1 fopp (nth i (wanted p in_idx v) 0)))) grp).
    Proof.
      intros grp m i [_ [_ [Hi [Hm _]]]] Hlt. unfold solutions. 
      rewrite (mapr_ok _ _ _ (fun kl : option string * list Z => (fst kl, p_solve p fwd (fst kl) (seed F0 F1 fopp (nth i (map Z.to_nat (snd kl)) 0))))).
      - f_equal. rewrite !map_map. apply map_ext. intros v. simpl. rewrite map_map.
        rewrite (map_ext _ (fun x => x)) by (intros; apply Nat2Z.id). now rewrite map_id.
      - intros [k l] H. apply in_map_iff in H. destruct H as [v [E Hv]]. inversion E; subst k l. simpl.
        assert (Hlt' : i < length (wanted p in_idx v)) by (rewrite (Hm v Hv); exact Hlt).
        rewrite (nth_error_nth' _ 0%Z) by (rewrite map_length; exact Hlt').
        change 0%Z with (Z.of_nat 0). rewrite map_nth. rewrite place_ok by (eapply wanted_range; [apply Hin, Hi, Hv|now apply nth_In]).
        simpl. rewrite map_map. rewrite (map_ext _ (fun x => x)) by (intros; apply Nat2Z.id). now rewrite map_id.
    Qed.

    Lemma run_set_ok : forall J S grp m, Good J S -> set_ok grp m ->
        exists J' S', run_set F0 F1 fopp put p fwd out_idx skip in_idx outputs J grp = Ok J' /\ Good J' S' /\ incl S S' /\
          forall v i u, In v grp -> i < length (wanted p in_idx v) -> In u outputs -> In (v, i, u) S'.
    Proof.
      intros J S grp m HG Hs. unfold run_set. rewrite (alloc_ok grp m Hs). simpl. rewrite map_length.
      pose proof Hs as [Hne [Hnd [Hi [Hm Hk]]]].
      assert (Hlast : length (wanted p in_idx (last grp "")) = m).
      { apply Hm. destruct grp as [|v g]; [congruence|]. clear. revert v. induction g as [|w g IH]; intros v; [now left|]. right. apply IH. }
      rewrite Hlast.
      assert (Hone : forall i J S, i < m -> Good J S ->
        exists J' S', (let! dxs := solutions F0 F1 fopp p fwd (map (fun v => (voi_key p v grp, map Z.of_nat (wanted p in_idx v))) grp) i in
                       foldr (put_solution F0 put p out_idx skip outputs grp i m) dxs J) = Ok J' /\ Good J' S' /\ incl S S' /\
          forall v u, In v grp -> In u outputs -> In (v, i, u) S').
      { intros i J1 S1 Hlt HG1. rewrite (solutions_ok grp m i Hs Hlt). simpl.
          assert (G : forall l, incl l grp -> forall J2 S2, Good J2 S2 -> exists J' S',
                    foldr (put_solution F0 put p out_idx skip outputs grp i m)
                      (map (fun v => (voi_key p v grp, p_solve p fwd (voi_key p v grp) (seed F0 F1 fopp (nth i (wanted p in_idx v) 0)))) l) J2 = Ok J' /\
                    Good J' S' /\ incl S2 S' /\ forall v u, In v l -> In u outputs -> In (v, i, u) S').
          { induction l as [|v l IH]; intros Hl J2 S2 G2; simpl.
            - exists J2, S2. repeat split; auto. intros v u [].
            - assert (Hv : In v grp) by (apply Hl; now left).
              destruct (put_solution_ok J2 S2 grp v (nth i (wanted p in_idx v) 0) i (voi_key p v grp) G2 (Hi v Hv)) as [J3 [S3 [E3 [G3 [I3 A3]]]]].
              + apply nth_error_nth'. rewrite (Hm v Hv). exact Hlt.
              + destruct (key_cases v grp m Hs Hv) as [H|H]; tauto.
              + rewrite (Hm v Hv) in E3. rewrite E3. simpl. destruct (IH (fun y Hy => Hl y (or_intror Hy)) J3 S3 G3) as [J4 [S4 [E4 [G4 [I4 A4]]]]].
                exists J4, S4. repeat split; auto.
                * eapply incl_tran; eauto.
                * intros w u [->|Hw] Hu; auto. }
          exact (G grp (incl_refl _) J1 S1 HG1). }
      assert (G : forall l J S, (forall i, In i l -> i < m) -> Good J S -> exists J' S',
        foldr (fun J i => let! dxs := solutions F0 F1 fopp p fwd (map (fun v => (voi_key p v grp, map Z.of_nat (wanted p in_idx v))) grp) i in
                          foldr (put_solution F0 put p out_idx skip outputs grp i m) dxs J) l J = Ok J' /\ Good J' S' /\ incl S S' /\
        forall v i u, In v grp -> In i l -> In u outputs -> In (v, i, u) S').
      { induction l as [|i l IH]; intros J1 S1 Hl G1.
        - exists J1, S1. repeat split; auto. intros v i u _ [].
        - cbn [foldr]. destruct (Hone i J1 S1 (Hl i (or_introl eq_refl)) G1) as [J2 [S2 [E2 [G2 [I2 A2]]]]].
          rewrite E2. cbn [bind]. destruct (IH J2 S2 (fun j Hj => Hl j (or_intror Hj)) G2) as [J3 [S3 [E3 [G3 [I3 A3]]]]].
          exists J3, S3. repeat split; auto.
          + eapply incl_tran; eauto.
          + intros v j u Hv [->|Hj] Hu; auto. }
      destruct (G (seq 0 m) J S) as [J' [S' [E [G1 [I1 A1]]]]]; auto. { intros i Hx. apply in_seq in Hx. lia. }
      exists J', S'. repeat split; auto. intros v i u Hv Hlt Hu. apply A1; auto. apply in_seq. rewrite (Hm v Hv) in Hlt. lia.
    Qed.

    Hypothesis Hgroups : forall grp, In grp (if fwd then p_pois p else p_qois p) -> group_ok p in_idx inputs grp.

    Lemma sets_ok : forall grp, In grp (voi_sets (if fwd then p_pois p else p_qois p) inputs) -> exists m, set_ok grp m.
    Proof.
      intros grp H. unfold voi_sets in H. apply in_app_iff in H. destruct H as [H|H].
      - apply filter_In in H. destruct H as [Hg Hx]. apply existsb_exists in Hx. destruct Hx as [v [Hv Hx]]. apply mem_spec in Hx.
        destruct (Hgroups grp Hg (ex_intro _ v (conj Hv Hx))) as [Hnd [Hi [Hl Hm]]].
        exists (length (wanted p in_idx v)). repeat split; auto.
        + intros ->. destruct Hv.
        + destruct (Nat.eq_dec (length grp) 1) as [E|E]; auto. right. split; [apply in_app_iff; destruct fwd; auto|]. intros w Hw. unfold voi_key.
          assert (Hw2 : mem (concat (p_pois p) ++ concat (p_qois p)) w = true).
          { apply mem_spec, in_app_iff. destruct fwd; [left|right]; apply in_concat; eauto. }
          rewrite Hw2. destruct Hl as [Hl|Hl].
          * exfalso. destruct grp as [|? [|? ?]]; simpl in *; first [lia | contradiction].
          * rewrite Hl. simpl. replace (1 <? length grp) with true; auto. symmetry. apply Nat.ltb_lt.
            destruct grp as [|? [|? ?]]; simpl in *; first [lia | contradiction].
      - apply in_map_iff in H. destruct H as [v [<- Hv]]. apply filter_In in Hv. destruct Hv as [Hv _].
        exists (length (wanted p in_idx v)). repeat split; auto.
        + discriminate.
        + constructor; [intros []|constructor].
        + intros x [->|[]]. exact Hv.
        + intros x [->|[]]. reflexivity.
    Qed.

    Lemma run_sets_ok : forall J, Good J [] -> exists J' S, run_sets F0 F1 fopp put p fwd out_idx skip in_idx inputs outputs J = Ok J' /\
        Good J' S /\ forall v i u, In v inputs -> i < length (wanted p in_idx v) -> In u outputs -> In (v, i, u) S.
    Proof.
      intros J0 H0. unfold run_sets. set (sets := voi_sets _ inputs).
      assert (G : forall l J S, incl l sets -> Good J S -> exists J' S',
                foldr (run_set F0 F1 fopp put p fwd out_idx skip in_idx outputs) l J = Ok J' /\ Good J' S' /\ incl S S' /\
                forall grp v i u, In grp l -> In v grp -> i < length (wanted p in_idx v) -> In u outputs -> In (v, i, u) S').
      { induction l as [|grp l IH]; intros J S Hl HG.
        - exists J, S. repeat split; auto. intros grp v i u [].
        - cbn [foldr]. destruct (sets_ok grp (Hl grp (or_introl eq_refl))) as [m Hm].
          destruct (run_set_ok J S grp m HG Hm) as [J1 [S1 [E1 [G1 [I1 A1]]]]]. rewrite E1. cbn [bind].
          destruct (IH J1 S1 (fun y Hy => Hl y (or_intror Hy)) G1) as [J2 [S2 [E2 [G2 [I2 A2]]]]].
          exists J2, S2. repeat split; auto.
          + eapply incl_tran; eauto.
          + intros g v i u [->|Hg] Hv Hi Hu; eauto. }
      destruct (G sets J0 [] (incl_refl _) H0) as [J' [S [E [G1 [_ A]]]]]. exists J', S. repeat split; auto.
      intros v i u Hv Hi Hu.
      assert (Hs : exists grp, In grp sets /\ In v grp).
      { unfold sets, voi_sets. destruct (mem (concat (if fwd then p_pois p else p_qois p)) v) eqn:E1.
        - apply mem_spec, in_concat in E1. destruct E1 as [grp [Hg Hvg]]. exists grp. split; auto. apply in_or_app. left.
          apply filter_In. split; auto. apply existsb_exists. exists v. split; auto. now apply mem_spec.
        - exists [v]. split; [|now left]. apply in_or_app. right. apply in_map_iff. exists v. split; auto. apply filter_In. split; auto. now rewrite E1. }
      destruct Hs as [grp [Hg Hvg]]. eauto.
    Qed.
  End Loops.

  (** ** rows and columns *)
  Fixpoint off (p : prob) (idx : list (string * list Z)) (names : list string) (n : string) : nat :=
    match names with
    | [] => 0
    | m :: r => if String.eqb n m then 0 else length (wanted p idx m) + off p idx r n
    end.
  Lemma layout_cons : forall (p : prob) idx n names, layout p idx (n :: names) = map (pair n) (wanted p idx n) ++ layout p idx names.
  Proof. reflexivity. Qed.
  Lemma layout_at : forall (p : prob) idx names n j k, In n names -> nth_error (wanted p idx n) j = Some k ->
      nth_error (layout p idx names) (off p idx names n + j) = Some (n, k).
  Proof.
    induction names as [|m names IH]; intros n j k Hn Hj; [contradiction|]. rewrite layout_cons. cbn [off].
    assert (Hlt : j < length (wanted p idx n)) by (apply nth_error_Some; congruence).
    destruct (String.eqb_spec n m) as [->|Hne].
    - simpl. rewrite nth_error_app1 by (rewrite map_length; exact Hlt). now apply map_nth_error.
    - destruct Hn as [E|Hn]; [congruence|]. rewrite nth_error_app2 by (rewrite map_length; lia). rewrite map_length.
      rewrite <- (IH n j k Hn Hj). f_equal. lia.
  Qed.
  Lemma layout_bound : forall (p : prob) idx names n, In n names -> off p idx names n + length (wanted p idx n) <= length (layout p idx names).
  Proof.
    induction names as [|m names IH]; intros n Hn; [contradiction|]. rewrite layout_cons, app_length, map_length. cbn [off].
    destruct (String.eqb_spec n m) as [->|Hne]; [lia|]. destruct Hn as [E|Hn]; [congruence|]. specialize (IH n Hn). lia.
  Qed.
  Lemma layout_pos : forall (p : prob) idx names r n k, NoDup names -> nth_error (layout p idx names) r = Some (n, k) ->
      In n names /\ exists j, r = off p idx names n + j /\ nth_error (wanted p idx n) j = Some k.
  Proof.
    induction names as [|m names IH]; intros r n k Hnd H; [destruct r; discriminate|].
    rewrite layout_cons in H. inversion Hnd as [|? ? Hm Hnd']; subst. destruct (Nat.lt_ge_cases r (length (wanted p idx m))) as [Hr|Hr].
    - rewrite nth_error_app1 in H by (rewrite map_length; exact Hr). apply nth_error_In in H as Hin. apply in_map_iff in Hin.
      destruct Hin as [k' [E _]]. inversion E; subst m k'. split; [now left|]. exists r. cbn [off]. rewrite String.eqb_refl. split; auto.
      destruct (nth_error (wanted p idx n) r) as [k'|] eqn:E'; [|apply nth_error_None in E'; lia].
      rewrite (map_nth_error (pair n) r _ E') in H. congruence.
    - rewrite nth_error_app2 in H by (rewrite map_length; exact Hr). rewrite map_length in H.
      destruct (IH _ n k Hnd' H) as [Hin [j [E Hj]]]. split; [now right|]. exists j. cbn [off].
      destruct (String.eqb_spec n m) as [->|_]; [contradiction|]. split; auto. lia.
  Qed.
  Lemma off_inj : forall (p : prob) idx names n n' j j', NoDup names -> In n names -> In n' names -> j < length (wanted p idx n) -> j' < length (wanted p idx n') ->
      off p idx names n + j = off p idx names n' + j' -> n = n' /\ j = j'.
  Proof.
    intros p idx names n n' j j' Hnd Hn Hn' Hj Hj' E.
    destruct (nth_error (wanted p idx n) j) as [k|] eqn:Ek; [|apply nth_error_None in Ek; lia].
    destruct (nth_error (wanted p idx n') j') as [k'|] eqn:Ek'; [|apply nth_error_None in Ek'; lia].
    pose proof (layout_at p idx names n j k Hn Ek) as A. pose proof (layout_at p idx names n' j' k' Hn' Ek') as B.
    rewrite E, B in A. inversion A; subst. split; auto. lia.
  Qed.

  Lemma slices_ok : forall (p : prob) idx names start acc, NoDup names -> (forall n, In n names -> var_ok p idx n) ->
      exists acc', slices p idx names start acc = Ok (start + length (layout p idx names), acc') /\
        (forall n, In n names -> sget acc' n = Some (start + off p idx names n, start + off p idx names n + length (wanted p idx n))) /\
        (forall n, ~ In n names -> sget acc' n = sget acc n).
  Proof.
    induction names as [|m names IH]; intros start acc Hnd Hok.
    - exists acc. simpl. rewrite Nat.add_0_r. split; auto. split; auto. intros n [].
    - cbn [slices]. inversion Hnd as [|? ? Hm Hnd']; subst. rewrite entries_ok by (apply Hok; now left). cbn [bind].
      destruct (IH (start + length (wanted p idx m)) (sset acc m (start, start + length (wanted p idx m))) Hnd') as [acc' [E [A B]]].
      { intros n Hn. apply Hok. now right. }
      exists acc'. split; [|split].
      + rewrite E. rewrite layout_cons, app_length, map_length. f_equal. f_equal. lia.
      + intros n [->|Hn].
        * rewrite B by exact Hm. cbn [off]. rewrite String.eqb_refl. unfold sget, sset. rewrite dget_dset_eq by apply String.eqb_eq.
          f_equal. f_equal; lia.
        * rewrite A by exact Hn. cbn [off]. destruct (String.eqb_spec n m) as [->|_]; [contradiction|]. f_equal. f_equal; lia.
      + intros n Hn. rewrite B by (intro; apply Hn; now right). unfold sget, sset. rewrite dget_dset_ne; auto.
        * apply String.eqb_eq.
        * intros ->. apply Hn. now left.
  Qed.

  (** ** the array *)
  Lemma put_col_ok : forall (K : arr (F:=F)) a c vals, a + length vals <= a_rows K -> c < a_cols K ->
      put_col F0 K a (a + length vals) c vals =
      Ok (mkArr (a_rows K) (a_cols K) (fun i j => if (j =? c) && (a <=? i) && (i <? a + length vals) then nth (i - a) vals F0 else a_at K i j)).
  Proof.
    intros K a c vals Ha Hc. unfold put_col. replace (a_cols K <=? c) with false by (symmetry; apply Nat.leb_gt; exact Hc).
    assert (Hm : span K a (a + length vals) = length vals) by (unfold span; lia). rewrite Hm, Nat.eqb_refl. reflexivity.
  Qed.

  Section Array.
    Variable p : prob.
    Variable fwd : bool.
    Variables in_idx out_idx : list (string * list Z).
    Variables inputs outputs : list string.
    Variable V : nat -> nat -> F.
    Variable sl : list (string * (nat * nat)).
    Variables in_scale un_scale : string -> option F.
    Hypothesis Hndi : NoDup inputs.
    Hypothesis Hndo : NoDup outputs.
    Hypothesis Hsli : forall n, In n inputs -> exists b, sget sl n = Some (off p in_idx inputs n, b).
    Hypothesis Hslo : forall n, In n outputs -> sget sl n = Some (off p out_idx outputs n, off p out_idx outputs n + length (wanted p out_idx n)).

    Definition good_array (J : arr (F:=F)) (S : list (string * nat * string)) : Prop :=
      let K := turn fwd J in
      a_rows K = length (layout p out_idx outputs) /\ a_cols K = length (layout p in_idx inputs) /\
      forall v i q u j k, In (v, i, u) S -> In v inputs -> In u outputs -> nth_error (wanted p in_idx v) i = Some q ->
        nth_error (wanted p out_idx u) j = Some k ->
        a_at K (off p out_idx outputs u + j) (off p in_idx inputs v + i) = scaled fmul (un_scale u) (scaled fmul (in_scale v) (V q k)).

    Lemma array_put_ok : forall J S v q i u, good_array J S -> In v inputs -> In u outputs -> nth_error (wanted p in_idx v) i = Some q ->
        exists J', array_put F0 fmul fwd sl in_scale un_scale J u v i (length (wanted p in_idx v)) (map (V q) (wanted p out_idx u)) = Ok J' /\
                   good_array J' ((v, i, u) :: S).
    Proof.
      intros J S v q i u [Hr [Hc Hval]] Hv Hu Hq. unfold array_put. rewrite (Hslo u Hu). destruct (Hsli v Hv) as [b ->].
      assert (Hi : i < length (wanted p in_idx v)) by (apply nth_error_Some; congruence).
      pose proof (layout_bound p in_idx inputs v Hv) as Bv. pose proof (layout_bound p out_idx outputs u Hu) as Bu.
      set (ou := off p out_idx outputs u) in *. set (ov := off p in_idx inputs v) in *.
      assert (El : length (wanted p out_idx u) = length (map (V q) (wanted p out_idx u))) by now rewrite map_length.
      rewrite El. rewrite put_col_ok by (rewrite ?map_length; lia). cbn [bind]. rewrite map_length.
      set (m := length (wanted p out_idx u)) in *.
      eexists. split; [reflexivity|]. unfold good_array.
      set (K := turn fwd J) in *.
      set (K1 := mkArr (a_rows K) (a_cols K) _).
      assert (Hspan : forall s, span (scale_col fmul K1 ou (ou + m) (ov + i) s) ou (ou + m) = m).
      { intros s. unfold span, scale_col. destruct s; unfold K1; cbn [a_rows]; lia. }
      assert (Htt : forall L : arr (F:=F), a_rows (turn fwd (turn fwd L)) = a_rows L /\ a_cols (turn fwd (turn fwd L)) = a_cols L /\
                    forall x y, a_at (turn fwd (turn fwd L)) x y = a_at L x y) by (intros; destruct fwd; repeat split; reflexivity).
      destruct (Htt (scale_col fmul (scale_col fmul K1 ou (ou + m) (ov + i) (in_scale v)) ou (ou + m) (ov + i) (un_scale u))) as [T1 [T2 T3]].
      split; [rewrite T1; destruct (in_scale v), (un_scale u); exact Hr|].
      split; [rewrite T2; destruct (in_scale v), (un_scale u); exact Hc|].
      intros v' i' q' u' j k HS Hv' Hu' Hq' Hk. rewrite T3.
      assert (Hi' : i' < length (wanted p in_idx v')) by (apply nth_error_Some; congruence).
      assert (Hj : j < length (wanted p out_idx u')) by (apply nth_error_Some; congruence).
      assert (Hat : forall x y, a_at (scale_col fmul (scale_col fmul K1 ou (ou + m) (ov + i) (in_scale v)) ou (ou + m) (ov + i) (un_scale u)) x y =
                if (y =? ov + i) && (ou <=? x) && (x <? ou + m) then scaled fmul (un_scale u) (scaled fmul (in_scale v) (a_at K1 x y)) else a_at K1 x y).
      { intros x y. pose proof (Hspan None) as Hs1. pose proof (Hspan (in_scale v)) as Hs2. cbn [scale_col] in Hs1.
        unfold scale_col at 1. destruct (un_scale u) as [su|]; cbn [a_at scaled].
        - rewrite Hs2. unfold scale_col. destruct (in_scale v) as [si|]; cbn [a_at scaled]; rewrite ?Hs1; destruct (_ && _); auto.
        - unfold scale_col. destruct (in_scale v) as [si|]; cbn [a_at scaled]; rewrite ?Hs1; destruct (_ && _); auto. }
      rewrite Hat. unfold K1. cbn [a_at].
      destruct ((off p in_idx inputs v' + i' =? ov + i) && (ou <=? off p out_idx outputs u' + j) && (off p out_idx outputs u' + j <? ou + m)) eqn:Eb.
      - apply andb_true_iff in Eb. destruct Eb as [Eb E3]. apply andb_true_iff in Eb. destruct Eb as [E1 E2].
        apply Nat.eqb_eq in E1. apply Nat.leb_le in E2. apply Nat.ltb_lt in E3.
        destruct (off_inj p in_idx inputs v' v i' i Hndi Hv' Hv Hi' Hi E1) as [-> ->].
        destruct (off_inj p out_idx outputs u' u j (off p out_idx outputs u' + j - ou) Hndo Hu' Hu Hj) as [-> Ej]; [lia|fold ou; lia|].
        rewrite <- Ej. rewrite Hq in Hq'. inversion Hq'; subst q'. f_equal. f_equal.
        rewrite (nth_indep _ F0 (V q 0)) by (rewrite map_length; exact Hj). rewrite map_nth. f_equal. now apply nth_error_nth.
      - apply Hval; auto. destruct HS as [E|HS]; auto. exfalso. inversion E; subst v' i' u'. fold ov ou in Eb.
        rewrite Nat.eqb_refl in Eb. replace (ou <=? ou + j) with true in Eb by (symmetry; apply Nat.leb_le; lia).
        replace (ou + j <? ou + m) with true in Eb by (symmetry; apply Nat.ltb_lt; lia). discriminate.
    Qed.
  End Array.

  (** ** the dictionary *)
  Section Dict.
    Variable p : prob.
    Variable fwd : bool.
    Variables in_idx out_idx : list (string * list Z).
    Variables inputs outputs : list string.
    Variable V : nat -> nat -> F.
    Variables in_scale un_scale : string -> option F.
    Variable all : list string.
    Variable has : string -> string -> Prop.      (* unknown, independent variable: the block exists *)
    Hypothesis Hall : forall u v, has u v -> In u all.
    Definition okey (param item : string) := if fwd then item else param.
    Definition ikey (param item : string) := if fwd then param else item.

    Definition shape (J : jdict (F:=F)) : Prop := forall u, match sget J u with
      | None => ~ In u all
      | Some row => In u all /\ forall v, sget row v <> None <-> has u v
      end.
    Definition cell (J : jdict (F:=F)) (u v : string) : option (option arr) :=
      match sget J u with Some row => sget row v | None => None end.
    Definition cell_ok (J : jdict (F:=F)) (S : list (string * nat * string)) (param item : string) : Prop :=
      (wanted p out_idx item <> [] -> has (okey param item) (ikey param item) -> (exists i, In (param, i, item) S) -> cell J (okey param item) (ikey param item) <> Some None) /\
      forall K, cell J (okey param item) (ikey param item) = Some (Some K) ->
        a_rows (turn fwd K) = length (wanted p out_idx item) /\ a_cols (turn fwd K) = length (wanted p in_idx param) /\
        forall i q j k, In (param, i, item) S -> nth_error (wanted p in_idx param) i = Some q -> nth_error (wanted p out_idx item) j = Some k ->
          a_at (turn fwd K) j i = scaled fmul (un_scale item) (scaled fmul (in_scale param) (V q k)).
    Definition good_dict (J : jdict (F:=F)) (S : list (string * nat * string)) : Prop :=
      shape J /\ forall param item, In param inputs -> In item outputs -> cell_ok J S param item.

    Lemma cell_sset : forall J o row i c, sget J o = Some row -> forall u v,
        cell (sset J o (sset row i c)) u v = if String.eqb u o && String.eqb v i then Some c else cell J u v.
    Proof.
      intros J o row i c E u v. unfold cell, sget, sset in *. rewrite dget_dset by apply String.eqb_eq.
      destruct (String.eqb_spec u o) as [->|Hne]; cbn [andb]; auto. rewrite E. rewrite dget_dset by apply String.eqb_eq.
      destruct (String.eqb_spec v i); auto.
    Qed.

    Lemma dict_put_ok : forall J S v q i u, good_dict J S -> In v inputs -> In u outputs -> nth_error (wanted p in_idx v) i = Some q ->
        has (okey v u) (ikey v u) ->
        exists J', dict_put F0 fmul fwd in_scale un_scale J u v i (length (wanted p in_idx v)) (map (V q) (wanted p out_idx u)) = Ok J' /\
                   good_dict J' ((v, i, u) :: S).
    Proof.
      intros J S v q i u [Hsh Hcell] Hv Hu Hq Hhas. unfold dict_put. fold (okey v u). fold (ikey v u).
      assert (Hi : i < length (wanted p in_idx v)) by (apply nth_error_Some; congruence).
      pose proof (Hsh (okey v u)) as Hrow. destruct (sget J (okey v u)) as [row|] eqn:Erow; [|exfalso; apply Hrow; eauto].
      destruct Hrow as [Hino Hrow].
      destruct (sget row (ikey v u)) as [c|] eqn:Ec; [|exfalso; now apply (proj2 (Hrow (ikey v u)))].
      assert (Ecell : cell J (okey v u) (ikey v u) = Some c) by (unfold cell; now rewrite Erow).
      destruct (Hcell v u Hv Hu) as [_ Hold]. rewrite Ecell in Hold.
      set (K := match c with Some K => turn fwd K | None => zeros F0 (length (map (V q) (wanted p out_idx u))) (length (wanted p in_idx v)) end).
      assert (HK : a_rows K = length (wanted p out_idx u) /\ a_cols K = length (wanted p in_idx v)).
      { unfold K. destruct c as [K0|]; [|cbn; now rewrite map_length]. destruct (Hold K0 eq_refl) as [A [B _]]. auto. }
      destruct HK as [Kr Kc]. set (m := length (wanted p out_idx u)) in *.
      assert (Ha : a_rows K = 0 + length (map (V q) (wanted p out_idx u))) by (rewrite map_length; exact Kr).
      rewrite Ha. rewrite put_col_ok by (rewrite ?map_length; lia). cbn [bind a_rows a_cols]. rewrite map_length. fold m.
      set (K1 := mkArr (a_rows K) (a_cols K) _). cbn [a_rows].
      rewrite Kr. set (K3 := scale_col fmul (scale_col fmul K1 0 m i (in_scale v)) 0 m i (un_scale u)).
      eexists. split; [reflexivity|].
      assert (H3r : a_rows K3 = m) by (unfold K3; destruct (in_scale v), (un_scale u); exact Kr).
      assert (H3c : a_cols K3 = length (wanted p in_idx v)) by (unfold K3; destruct (in_scale v), (un_scale u); exact Kc).
      assert (Htt : forall L : arr (F:=F), a_rows (turn fwd (turn fwd L)) = a_rows L /\ a_cols (turn fwd (turn fwd L)) = a_cols L /\
                    forall x y, a_at (turn fwd (turn fwd L)) x y = a_at L x y) by (intros; destruct fwd; repeat split; reflexivity).
      assert (Hat : forall x y, x < m -> a_at K3 x y =
                if y =? i then scaled fmul (un_scale u) (scaled fmul (in_scale v) (nth x (map (V q) (wanted p out_idx u)) F0)) else a_at K x y).
      { intros x y Hx. assert (Hs : forall s, span (scale_col fmul K1 0 m i s) 0 m = m) by (intros [s|]; unfold span, K1; cbn; lia).
        pose proof (Hs None) as Hs1. cbn [scale_col] in Hs1. pose proof (Hs (in_scale v)) as Hs2.
        assert (Hb : forall y0, (y0 =? i) && (0 <=? x) && (x <? 0 + m) = (y0 =? i)).
        { intros y0. replace (x <? 0 + m) with true by (symmetry; apply Nat.ltb_lt; lia). simpl. now rewrite !andb_true_r. }
        unfold K3. unfold scale_col at 1. destruct (un_scale u) as [su|]; cbn [a_at scaled];
          [rewrite Hs2, Hb|]; unfold scale_col; (destruct (in_scale v) as [si|]; cbn [a_at scaled]; [rewrite Hs1, Hb|]); unfold K1; cbn [a_at];
          rewrite Hb, Nat.sub_0_r; destruct (y =? i); reflexivity. }
      split.
      - intros o. unfold sget, sset in *. rewrite dget_dset by apply String.eqb_eq. destruct (String.eqb_spec o (okey v u)) as [->|Hne].
        + split; [exact Hino|]. intros w. rewrite dget_dset by apply String.eqb_eq. destruct (String.eqb_spec w (ikey v u)) as [->|Hw].
          * split; [intros _; exact Hhas|discriminate].
          * apply Hrow.
        + exact (Hsh o).
      - intros param item Hp Hit. unfold cell_ok. rewrite (cell_sset J (okey v u) row (ikey v u) _ Erow).
        destruct (String.eqb (okey param item) (okey v u) && String.eqb (ikey param item) (ikey v u)) eqn:Eb.
        + apply andb_true_iff in Eb. destruct Eb as [E1 E2]. apply String.eqb_eq in E1. apply String.eqb_eq in E2.
          assert (param = v /\ item = u) as [-> ->] by (unfold okey, ikey in *; destruct fwd; auto).
          split; [discriminate|]. intros K' HK'. inversion HK'; subst K'. destruct (Htt K3) as [T1 [T2 T3]]. rewrite T1, T2.
          split; [exact H3r|]. split; [exact H3c|]. intros i' q' j k HS Hq' Hk. rewrite T3.
          assert (Hj : j < m) by (apply nth_error_Some; congruence). rewrite Hat by exact Hj.
          destruct (Nat.eqb_spec i' i) as [->|Hne].
          * rewrite Hq in Hq'. inversion Hq'; subst q'. f_equal. f_equal.
            rewrite (nth_indep _ F0 (V q 0)) by (rewrite map_length; exact Hj). rewrite map_nth. f_equal. now apply nth_error_nth.
          * destruct HS as [E|HS]; [congruence|]. unfold K. destruct c as [K0|].
            -- destruct (Hold K0 eq_refl) as [_ [_ H]]. now apply H.
            -- exfalso. destruct (Hcell v u Hv Hu) as [H _]. apply (H); eauto.
               intro Hw. fold m in Hj. unfold m in Hj. rewrite Hw in Hj. simpl in Hj. lia.
        + destruct (Hcell param item Hp Hit) as [A B]. split.
          * intros Hw Hh [i' [E|HS]]; [|apply A; eauto]. exfalso. inversion E; subst. rewrite !String.eqb_refl in Eb. discriminate.
          * intros K' HK'. destruct (B K' HK') as [B1 [B2 B3]]. split; auto. split; auto. intros i' q' j k [E|HS]; [|apply B3; auto].
            exfalso. inversion E; subst. rewrite !String.eqb_refl in Eb. discriminate.
    Qed.

    Lemma dict_skip_ok : forall J S v i u, good_dict J S -> In v inputs -> In u outputs ->
        ~ has (okey v u) (ikey v u) \/ wanted p out_idx u = [] -> good_dict J ((v, i, u) :: S).
    Proof.
      intros J S v i u [Hsh Hcell] Hv Hu Hs. split; auto. intros param item Hp Hit. destruct (Hcell param item Hp Hit) as [A B]. split.
      - intros Hw Hh [i' [E|HS]]; [|apply A; eauto]. exfalso. inversion E; subst. destruct Hs; contradiction.
      - intros K HK. destruct (B K HK) as [B1 [B2 B3]]. split; auto. split; auto. intros i' q' j k [E|HS] Hq' Hk; [|apply (B3 i' q' j k); auto].
        exfalso. inversion E; subst v i' u. destruct Hs as [Hs|Hs]; [|rewrite Hs in Hk; destruct j; discriminate].
        unfold cell in HK. pose proof (Hsh (okey param item)) as H. destruct (sget J (okey param item)); [|discriminate].
        apply Hs. apply (proj2 H). congruence.
    Qed.
  End Dict.

  (** ** the whole function *)
  Hypothesis Fth : ring_theory F0 F1 fadd fmul fsub fopp eq.
  Add Ring GFring : Fth.

  Lemma scaled_comm : forall a b x, scaled fmul a (scaled fmul b x) = scaled fmul b (scaled fmul a x).
  Proof. intros [a|] [b|] x; simpl; auto. ring. Qed.

  Theorem array_ok : forall p fwd indep unknown dv cn X, request_ok p fwd indep unknown ->
      (forall n, In n indep -> ~ In n unknown) -> finds F0 F1 fopp p fwd indep unknown X ->
      exists J, gradient_array F0 F1 fmul fopp p fwd indep unknown dv cn = Ok J /\ jacobian fmul p indep unknown dv cn X J.
  Proof.
    intros p fwd indep unknown dv cn X [Hi [Hu [Hvi [Hvu [Hk0 [Hks Hg]]]]]] Hd HX. unfold gradient_array.
    destruct (slices_ok p (p_qoi p) unknown 0 [] Hu Hvu) as [a1 [E1 [A1 _]]]. rewrite E1. cbn [bind snd fst].
    destruct (slices_ok p (p_poi p) indep 0 a1 Hi Hvi) as [a2 [E2 [A2 B2]]]. rewrite E2. cbn [bind snd fst]. rewrite !Nat.add_0_l.
    assert (Hui : forall n, In n unknown -> ~ In n indep) by (intros n H H'; exact (Hd n H' H)).
    assert (Hso : forall n, In n unknown -> sget a2 n = Some (off p (p_qoi p) unknown n, off p (p_qoi p) unknown n + length (wanted p (p_qoi p) n))).
    { intros n Hn. rewrite B2 by now apply Hui. now rewrite A1. }
    destruct fwd; cbn iota in *.
    - destruct (run_sets_ok (array_put F0 fmul true a2 dv cn) p true (p_poi p) (p_qoi p) never indep unknown (fun q k => X k q)
                  (good_array p true (p_poi p) (p_qoi p) indep unknown (fun q k => X k q) dv cn)) with
        (J := zeros F0 (length (layout p (p_qoi p) unknown)) (length (layout p (p_poi p) indep))) as [J [S [E [G A]]]]; auto.
      + intros; exists false; reflexivity.
      + intros J S v q i u G Hv Hu' Hq _. apply (array_put_ok p true (p_poi p) (p_qoi p) indep unknown (fun q k => X k q) a2 dv cn); auto. intros n Hn. rewrite A2 by exact Hn. eauto.
      + intros J S v i u G Hv Hu' [H|H]; [discriminate|]. destruct G as [G1 [G2 G3]]. split; auto. split; auto.
        intros v' i' q' u' j k [E|HS]; [|apply G3; auto]. inversion E; subst. rewrite H. destruct j; discriminate.
      + split; [reflexivity|]. split; [reflexivity|]. intros ? ? ? ? ? ? [].
      + exists J. split; [exact E|]. destruct G as [G1 [G2 G3]]. split; auto. split; auto.
        intros r c u k v q Hr Hc. destruct (layout_pos _ _ _ _ _ _ Hu Hr) as [Hu' [j [-> Hj]]]. destruct (layout_pos _ _ _ _ _ _ Hi Hc) as [Hv [i [-> Hq]]].
        apply (G3 v i q u j k); auto. apply A; auto. apply nth_error_Some. congruence.
    - destruct (run_sets_ok (array_put F0 fmul false a2 cn dv) p false (p_qoi p) (p_poi p) never unknown indep X
                  (good_array p false (p_qoi p) (p_poi p) unknown indep X cn dv)) with
        (J := zeros F0 (length (layout p (p_qoi p) unknown)) (length (layout p (p_poi p) indep))) as [J [S [E [G A]]]]; auto.
      + intros v q u k key Hv Hq Hu' Hk Hkey. exact (HX u k v q key Hu' Hk Hv Hq Hkey).
      + intros; exists false; reflexivity.
      + intros J S v q i u G Hv Hu' Hq _. apply array_put_ok; auto. intros n Hn. rewrite Hso by exact Hn. eauto.
      + intros J S v i u G Hv Hu' [H|H]; [discriminate|]. destruct G as [G1 [G2 G3]]. split; auto. split; auto.
        intros v' i' q' u' j k [E|HS]; [|apply G3; auto]. inversion E; subst. rewrite H. destruct j; discriminate.
      + split; [reflexivity|]. split; [reflexivity|]. intros ? ? ? ? ? ? [].
      + exists J. split; [exact E|]. destruct G as [G1 [G2 G3]]. cbn in G1, G2. split; auto. split; auto.
        intros r c u k v q Hr Hc. destruct (layout_pos _ _ _ _ _ _ Hu Hr) as [Hu' [j [-> Hj]]]. destruct (layout_pos _ _ _ _ _ _ Hi Hc) as [Hv [i [-> Hq]]].
        rewrite scaled_comm. apply (G3 u j k v i q); auto. apply A; auto. apply nth_error_Some. congruence.
  Qed.

  (** ** the initial dictionary *)
  Lemma listed_ok : forall sp u v, (match sp with None => True | Some d => exists l : list string, sget d u = Some l end) ->
      exists b, GradModel.listed sp u v = Ok b /\ (b = true <-> asked sp u v).
  Proof.
    intros [d|] u v H; simpl in *; [|exists true; tauto]. destruct H as [l ->]. exists (mem l v). split; auto. rewrite mem_spec.
    split; [eauto|]. intros [l' [E H]]. now inversion E; subst.
  Qed.
  Lemma blank_row_ok : forall sp u indep, (match sp with None => True | Some d => exists l : list string, sget d u = Some l end) ->
      exists row : list (string * option (arr (F:=F))), blank_row sp u indep = Ok row /\
        forall v, (sget row v <> None <-> In v indep /\ asked sp u v) /\ forall c, sget row v = Some c -> c = None.
  Proof.
    intros sp u indep H. unfold blank_row.
    assert (G : forall l (row : list (string * option (arr (F:=F)))), (forall v c, sget row v = Some c -> c = None) ->
      exists row', foldr (fun row ikey => let! b := GradModel.listed sp u ikey in Ok (if b then sset row ikey None else row)) l row = Ok row' /\
        forall v, (sget row' v <> None <-> sget row v <> None \/ (In v l /\ asked sp u v)) /\ forall c, sget row' v = Some c -> c = None).
    { induction l as [|w l IH]; intros row Hr.
      - exists row. split; [reflexivity|]. intros v. split; [simpl; tauto|apply Hr].
      - cbn [foldr]. destruct (listed_ok sp u w H) as [b [E Hb]]. rewrite E. cbn [bind].
        destruct (IH (if b then sset row w None else row)) as [row' [E' A]].
        { intros v c. destruct b; [|apply Hr]. unfold sget, sset in *. rewrite dget_dset by apply String.eqb_eq.
          destruct (String.eqb v w); [congruence|apply Hr]. }
        exists row'. split; [exact E'|]. intros v. destruct (A v) as [A1 A2]. split; [|exact A2]. rewrite A1.
        assert (Hx : sget (if b then sset row w None else row) v <> None <-> sget row v <> None \/ (w = v /\ asked sp u v)).
        { destruct b.
          - unfold sget, sset. rewrite dget_dset by apply String.eqb_eq. destruct (String.eqb_spec v w) as [->|Hne].
            + split; [intros _; right; split; auto; now apply Hb|discriminate].
            + split; [tauto|]. intros [Hc|[Hc _]]; [exact Hc|congruence].
          - split; [tauto|]. intros [Hc|[-> Hc]]; [exact Hc|]. apply Hb in Hc. discriminate. }
        rewrite Hx. simpl. tauto. }
    destruct (G indep []) as [row [E A]]. { intros v c Hc. discriminate. }
    exists row. split; [exact E|]. intros v. destruct (A v) as [A1 A2]. split; [|exact A2]. rewrite A1. simpl. split; [intros [Hc|Hc]; [congruence|exact Hc]|tauto].
  Qed.
  Lemma blank_ok : forall sp indep unknown, (forall u, In u unknown -> match sp with None => True | Some d => exists l : list string, sget d u = Some l end) ->
      exists J : jdict (F:=F), blank sp indep unknown = Ok J /\
        forall u, match sget J u with
                  | None => ~ In u unknown
                  | Some row => In u unknown /\ forall v, (sget row v <> None <-> In v indep /\ asked sp u v) /\ forall c, sget row v = Some c -> c = None
                  end.
  Proof.
    intros sp indep unknown H. unfold blank.
    assert (G : forall l (J : jdict (F:=F)), incl l unknown -> exists J', foldr (fun J okey => let! row := blank_row sp okey indep in Ok (sset J okey row)) l J = Ok J' /\
      forall u, match sget J' u with
                | None => ~ In u l /\ sget J u = None
                | Some row => sget J u = Some row /\ ~ In u l \/
                    In u l /\ forall v, (sget row v <> None <-> In v indep /\ asked sp u v) /\ forall c, sget row v = Some c -> c = None
                end).
    { induction l as [|w l IH]; intros J Hl.
      - exists J. split; [reflexivity|]. intros u. destruct (sget J u) eqn:E; auto.
      - cbn [foldr]. destruct (blank_row_ok sp w indep (H w (Hl w (or_introl eq_refl)))) as [row [E A]]. rewrite E. cbn [bind].
        destruct (IH (sset J w row)) as [J' [E' A']]. { intros x Hx. apply Hl. now right. }
        exists J'. split; [exact E'|]. intros u. specialize (A' u). destruct (sget J' u) as [r|].
        + destruct A' as [[A1 A2]|[A1 A2]]; [|right; split; [now right|exact A2]]. unfold sget, sset in *.
          rewrite dget_dset in A1 by apply String.eqb_eq. destruct (String.eqb_spec u w) as [->|Hne].
          * inversion A1; subst r. right. split; [now left|exact A].
          * left. split; auto. intros [Hx|Hx]; [congruence|contradiction].
        + destruct A' as [A1 A2]. unfold sget, sset in *. rewrite dget_dset in A2 by apply String.eqb_eq.
          destruct (String.eqb_spec u w) as [->|Hne]; [discriminate|]. split; auto. intros [Hx|Hx]; [congruence|contradiction]. }
    destruct (G unknown [] (incl_refl _)) as [J [E A]]. exists J. split; [exact E|]. intros u. specialize (A u).
    destruct (sget J u) as [row|]; [|tauto]. destruct A as [[A _]|A]; [discriminate|exact A].
  Qed.

  Theorem dict_ok : forall p fwd indep unknown dv cn sp X, request_ok p fwd indep unknown ->
      (forall u, In u unknown -> match sp with None => True | Some d => exists l, sget d u = Some l end) ->
      finds F0 F1 fopp p fwd indep unknown X ->
      exists J, gradient_dict F0 F1 fmul fopp p fwd indep unknown dv cn sp = Ok J /\ jacobian_dict fmul p indep unknown dv cn sp X J.
  Proof.
    intros p fwd indep unknown dv cn sp X [Hi [Hu [Hvi [Hvu [Hk0 [Hks Hg]]]]]] Hsp HX. unfold gradient_dict.
    destruct (blank_ok sp indep unknown Hsp) as [J0 [E0 A0]]. rewrite E0. cbn [bind].
    set (has := fun u v => In u unknown /\ In v indep /\ asked sp u v).
    assert (Hall : forall u v, has u v -> In u unknown) by (unfold has; tauto).
    assert (Hsh : shape unknown has J0).
    { intros u. specialize (A0 u). destruct (sget J0 u) as [row|]; [|exact A0].
      destruct A0 as [Hu' A]. split; auto. intros v. destruct (A v) as [A1 _]. unfold has. tauto. }
    assert (Hnone : forall u v, cell J0 u v = None \/ cell J0 u v = Some None).
    { intros u v. unfold cell. specialize (A0 u). destruct (sget J0 u) as [row|]; auto. destruct A0 as [_ A]. destruct (A v) as [_ A1].
      destruct (sget row v) as [c|]; auto. right. f_equal. now apply A1. }
    assert (Hlist : forall u v, In u unknown -> exists b, GradModel.listed sp u v = Ok b /\ (b = true <-> asked sp u v)).
    { intros u v H. apply listed_ok. exact (Hsp u H). }
    destruct fwd; cbn iota in *.
    - destruct (run_sets_ok (dict_put F0 fmul true dv cn) p true (p_poi p) (p_qoi p)
                  (fun param item => let! b := GradModel.listed sp item param in Ok (negb b)) indep unknown (fun q k => X k q)
                  (good_dict p true (p_poi p) (p_qoi p) indep unknown (fun q k => X k q) dv cn unknown has)) with (J := J0) as [J [S [E [G A]]]]; auto.
      + intros v u Hv Hu'. destruct (Hlist u v Hu') as [b [-> _]]. simpl. eauto.
      + intros J S v q i u G Hv Hu' Hq Hsk. apply (dict_put_ok p true (p_poi p) (p_qoi p) indep unknown (fun q k => X k q) dv cn unknown has); auto. destruct (Hlist u v Hu') as [b [Eb Hb]]. rewrite Eb in Hsk.
        simpl in Hsk. destruct b; [|discriminate]. unfold has. split; auto. split; auto. now apply Hb.
      + intros J S v i u G Hv Hu' Hs. apply dict_skip_ok; auto. destruct Hs as [Hs|Hs]; auto. left.
        destruct (Hlist u v Hu') as [b [Eb Hb]]. rewrite Eb in Hs. simpl in Hs. destruct b; [discriminate|]. intros [_ [_ Ha]]. cbn in Ha.
        apply Hb in Ha. discriminate.
      + split; auto. intros v u Hv Hu'. split; [intros _ _ [? []]|]. intros K HK. destruct (Hnone u v) as [H|H]; cbn in HK; congruence.
      + exists J. split; [exact E|]. destruct G as [G1 G2]. intros u. specialize (G1 u). destruct (sget J u) as [row|] eqn:Er; [|exact G1].
        destruct G1 as [Hin G1]. split; auto. intros v. split; [rewrite G1; unfold has; tauto|]. intros c Hc Hwu Hwv.
        assert (Hh : has u v) by (apply G1; congruence). destruct Hh as [_ [Hv Ha]]. destruct (G2 v u Hv Hin) as [B1 B2].
        cbn [okey ikey] in B1, B2. assert (Ec : cell J u v = Some c) by (unfold cell; now rewrite Er). rewrite Ec in B1, B2.
        destruct c as [K|].
        * exists K. destruct (B2 K eq_refl) as [C1 [C2 C3]]. cbn in C1, C2. split; auto. split; auto. split; auto.
          intros i j k q Hk Hq. apply (C3 j q i k); auto. apply A; auto. apply nth_error_Some. congruence.
        * exfalso. apply B1; auto; [split; auto|]. exists 0. apply A; auto. destruct (wanted p (p_poi p) v); [congruence|simpl; lia].
    - destruct (run_sets_ok (dict_put F0 fmul false cn dv) p false (p_qoi p) (p_poi p)
                  (fun param item => let! b := GradModel.listed sp param item in Ok (negb b)) unknown indep X
                  (good_dict p false (p_qoi p) (p_poi p) unknown indep X cn dv unknown has)) with (J := J0) as [J [S [E [G A]]]]; auto.
      + intros v q u k key Hv Hq Hu' Hk Hkey. exact (HX u k v q key Hu' Hk Hv Hq Hkey).
      + intros u v Hu' Hv. destruct (Hlist u v Hu') as [b [-> _]]. simpl. eauto.
      + intros J S u q i v G Hu' Hv Hq Hsk. apply dict_put_ok; auto. destruct (Hlist u v Hu') as [b [Eb Hb]]. rewrite Eb in Hsk.
        simpl in Hsk. destruct b; [|discriminate]. unfold has. split; auto. split; auto. now apply Hb.
      + intros J S u i v G Hu' Hv Hs. apply dict_skip_ok; auto. destruct Hs as [Hs|Hs]; auto. left.
        destruct (Hlist u v Hu') as [b [Eb Hb]]. rewrite Eb in Hs. simpl in Hs. destruct b; [discriminate|]. intros [_ [_ Ha]]. cbn in Ha.
        apply Hb in Ha. discriminate.
      + split; auto. intros u v Hu' Hv. split; [intros _ _ [? []]|]. intros K HK. destruct (Hnone u v) as [H|H]; cbn in HK; congruence.
      + exists J. split; [exact E|]. destruct G as [G1 G2]. intros u. specialize (G1 u). destruct (sget J u) as [row|] eqn:Er; [|exact G1].
        destruct G1 as [Hin G1]. split; auto. intros v. split; [rewrite G1; unfold has; tauto|]. intros c Hc Hwu Hwv.
        assert (Hh : has u v) by (apply G1; congruence). destruct Hh as [_ [Hv Ha]]. destruct (G2 u v Hin Hv) as [B1 B2].
        cbn [okey ikey] in B1, B2. assert (Ec : cell J u v = Some c) by (unfold cell; now rewrite Er). rewrite Ec in B1, B2.
        destruct c as [K|].
        * exists K. destruct (B2 K eq_refl) as [C1 [C2 C3]]. cbn in C1, C2. split; auto. split; auto. split; auto.
          intros i j k q Hk Hq. rewrite scaled_comm. apply (C3 i k j q); auto. apply A; auto. apply nth_error_Some. congruence.
        * exfalso. apply B1; auto; [split; auto|]. exists 0. apply A; auto. destruct (wanted p (p_qoi p) u); [congruence|simpl; lia].
  Qed.

  (** ** exact solvers *)
  Notation row_of := (row_of F0 fadd fmul).
  Notation col_of := (col_of F0 fadd fmul).
  Notation total := (total F0 fadd).
  Notation sys_mat := (sys_mat F1 fmul fopp).

  Lemma total_minus_unit : forall l q (f : nat -> F), NoDup l -> In q l -> total (fun k => fmul (minus_unit F0 F1 fopp q k) (f k)) l = fopp (f q).
  Proof.
    induction l as [|k l IH]; intros q f Hn Hq; [contradiction|]. inversion Hn as [|? ? Hk Hn']; subst. cbn [LinSpec.total fold_right].
    change (fadd (fmul (minus_unit F0 F1 fopp q k) (f k)) (total (fun k => fmul (minus_unit F0 F1 fopp q k) (f k)) l) = fopp (f q)).
    destruct (Nat.eqb_spec k q) as [->|Hne].
    - rewrite (total_zero _ _ _ _ _ _ Fth).
      + unfold minus_unit. rewrite Nat.eqb_refl. ring.
      + intros a Ha. unfold minus_unit. destruct (Nat.eqb_spec a q) as [->|_]; [contradiction|]. ring.
    - destruct Hq as [E|Hq]; [congruence|]. rewrite (IH q f Hn' Hq). unfold minus_unit. destruct (Nat.eqb_spec k q); [contradiction|]. ring.
  Qed.

  (** a solution of the forward equations and one of the transposed equations agree *)
  Lemma modes_agree : forall (s : sys (F:=F)) x y q k, wf s -> In q (rows s) -> In k (rows s) ->
      (forall j, In j (rows s) -> row_of (sys_mat None s) (over x (fun _ => F0)) j = minus_unit F0 F1 fopp q j) ->
      (forall j, In j (rows s) -> col_of (sys_mat None s) y (CU j) = minus_unit F0 F1 fopp k j) -> y q = x k.
  Proof.
    intros s x y q k Hw Hq Hk Hx Hy. destruct (wf_nodup s Hw) as [Hr [Hp Ho]].
    assert (E : total (fun j => fmul (row_of (sys_mat None s) (over x (fun _ => F0)) j) (y j)) (rows s) =
                total (fun c => fmul (over x (fun _ => F0) c) (col_of (sys_mat None s) y c)) (map CU (rows s) ++ map CP (outside_params s))).
    { apply (exchange _ _ _ _ _ _ Fth); auto.
      - assert (Hmap : forall (f : nat -> col) l, (forall a b, f a = f b -> a = b) -> NoDup l -> NoDup (map f l)).
        { intros f l Hf. induction l as [|a l IH]; intro H; simpl; [constructor|]. apply NoDup_cons_iff in H. destruct H as [Ha H].
          constructor; auto. intro Hin. apply in_map_iff in Hin. destruct Hin as [b [Eb Hb]]. apply Hf in Eb. now subst. }
        assert (M1 : NoDup (map CU (rows s))) by (apply Hmap; congruence).
        assert (M2 : NoDup (map CP (outside_params s))) by (apply Hmap; congruence).
        revert M1. generalize (rows s) as r. induction r as [|x0 r IH]; intro M1; simpl; auto.
        simpl in M1. apply NoDup_cons_iff in M1. destruct M1 as [Hx0 M1]. constructor; auto.
        rewrite in_app_iff. intros [H|H]; [contradiction|]. apply in_map_iff in H. destruct H as [b [Eb _]]. discriminate.
      - intros e He. apply sys_mat_in in He; auto. destruct He as [A B]. split; auto.
        apply in_app_iff. destruct (e_col e); [left | right]; now apply in_map. }
    rewrite (total_ext _ _ _ _ (fun j => fmul (minus_unit F0 F1 fopp q j) (y j))) in E by (intros j Hj; now rewrite Hx).
    rewrite (total_minus_unit _ q y Hr Hq) in E. rewrite (total_app _ _ _ _ _ _ Fth) in E. rewrite !total_map in E.
    rewrite (total_ext _ _ _ _ (fun j => fmul (minus_unit F0 F1 fopp k j) (x j)) (rows s)) in E.
    2:{ intros j Hj. cbn [over]. rewrite Hy by exact Hj. ring. }
    rewrite (total_minus_unit _ k x Hr Hk) in E. rewrite (total_zero _ _ _ _ _ _ Fth) in E by (intros; cbn [over]; ring).
    replace (y q) with (fopp (fopp (y q))) by ring. rewrite E. ring.
  Qed.

  Lemma exact_finds : forall p (s : sys (F:=F)) indep unknown, wf s -> plain p -> inside p s (p_poi p) indep -> inside p s (p_qoi p) unknown ->
      exact F0 F1 fadd fmul fopp p s true -> exact F0 F1 fadd fmul fopp p s false ->
      let X := fun k q => p_solve p true None (minus_unit F0 F1 fopp q) k in
      total_derivatives F0 F1 fadd fmul fopp s X /\ forall fwd, finds F0 F1 fopp p fwd indep unknown X.
  Proof.
    intros p s indep unknown Hw [Hp1 Hp2] Hi Ho Hf Hr X. split.
    - intros q k Hq Hk. exact (Hf (minus_unit F0 F1 fopp q) k Hk).
    - intros fwd v q u k key Hv Hq Hu Hk [->|[_ Hk']]; [|exfalso; exact (Hp1 _ Hk')]. rewrite Hp2. destruct fwd; [reflexivity|].
      apply (modes_agree s (fun j => X j q) (p_solve p false None (minus_unit F0 F1 fopp k)) q k Hw (Hi v q Hv Hq) (Ho u k Hu Hk)).
      + intros j Hj. exact (Hf (minus_unit F0 F1 fopp q) j Hj).
      + intros j Hj. exact (Hr (minus_unit F0 F1 fopp k) j Hj).
  Qed.

  (** the total derivatives are unique *)
  Lemma derivatives_unique : forall p (s : sys (F:=F)) X Y, wf s -> exact F0 F1 fadd fmul fopp p s false ->
      total_derivatives F0 F1 fadd fmul fopp s X -> total_derivatives F0 F1 fadd fmul fopp s Y ->
      forall q k, In q (rows s) -> In k (rows s) -> X k q = Y k q.
  Proof.
    intros p s X Y Hw Hr HX HY q k Hq Hk.
    rewrite <- (modes_agree s (fun j => X j q) (p_solve p false None (minus_unit F0 F1 fopp k)) q k Hw Hq Hk (fun j Hj => HX q j Hq Hj) (fun j Hj => Hr _ j Hj)).
    exact (modes_agree s (fun j => Y j q) (p_solve p false None (minus_unit F0 F1 fopp k)) q k Hw Hq Hk (fun j Hj => HY q j Hq Hj) (fun j Hj => Hr _ j Hj)).
  Qed.

  Lemma swept_exact : forall tiny, (forall v, tiny v = true -> Forall (fun x => x = F0) v) ->
      forall p ns ks (subs : list (sys (F:=F))) fwd, wf (Group ns None ks subs) ->
      feed_forward F0 F1 fadd fmul fopp fwd (Group ns None ks subs) -> unscaled (Group ns None ks subs) ->
      swept F0 fadd fmul fopp fsub tiny p ns ks subs -> exact F0 F1 fadd fmul fopp p (Group ns None ks subs) fwd.
  Proof.
    intros tiny Ht p ns ks subs fwd Hw Hff Hun Hs rhs k Hk.
    destruct (Hs fwd rhs) as [st [st' [Hu [Hp [E Hsol]]]]].
    assert (A : is_solution F0 F1 fadd fmul fopp fwd (Group ns None ks subs) rhs st').
    { destruct fwd.
      - destruct (sweep_fwd _ _ _ _ _ _ Fth tiny Ht ns ks subs rhs st Hw Hff Hu Hp) as [st2 [E2 A]]. rewrite E in E2. inversion E2; subst st2. exact A.
      - destruct (sweep_rev _ _ _ _ _ _ Fth tiny Ht ns ks subs rhs st Hw Hff Hun) as [st2 [E2 A]]. rewrite E in E2. inversion E2; subst st2. exact A. }
    rewrite <- (A k Hk). pose proof (sys_mat_in F1 fmul fopp None _ Hw) as Hin.
    destruct fwd.
    - apply row_ext. intros e He. destruct (Hin e He) as [_ B]. destruct (e_col e); cbn [over]; auto.
    - apply col_ext. intros e He. destruct (Hin e He) as [B _]. auto.
  Qed.
End Proofs.

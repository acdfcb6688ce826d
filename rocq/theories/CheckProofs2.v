(** Proofs about CheckModel.v: components that supply a Jacobian. *)
From Verif Require Import Base LinModel LinSpec LinProofs CheckModel CheckSpec CheckProofs.
From Coq Require Import Ring_theory Ring.
Local Open Scope nat_scope.
Local Open Scope list_scope.

Section P.
  Context {F : Type} (F0 F1 : F) (fadd fmul fsub : F -> F -> F) (fopp : F -> F).
  Context (R : ring_theory F0 F1 fadd fmul fsub fopp (@eq F)).
  Add Ring Fr : R.
  Infix "+!" := fadd (at level 50, left associativity).
  Infix "*!" := fmul (at level 40, left associativity).
  Notation state := (state (F:=F)).
  Notation comp := (comp (F:=F)).
  Notation entry := (entry (F:=F)).
  Notation total := (total F0 fadd).
  Notation row_of := (row_of F0 fadd fmul).
  Notation coef := (coef F0 fadd).
  Notation key_entries := (key_entries F1 fmul).

  Lemma coef_row : forall m k q, coef m k q = row_of m (fun c => if col_eqb c q then F1 else F0) k.
  Proof.
    intros m k q. rewrite (row_single F0 F1 fadd fmul fsub fopp R m _ q F1).
    - ring.
    - now rewrite col_eqb_refl.
    - intros e _ Hne. destruct (col_eqb (e_col e) q) eqn:E; auto. apply col_eqb_eq in E. contradiction.
  Qed.
  Lemma coef_flat : forall A (h : A -> list entry) l k q, coef (flat_map h l) k q = total (fun a => coef (h a) k q) l.
  Proof. intros. apply (total_flat_map _ _ _ _ _ _ R). Qed.
  Lemma coef_block : forall cc ro co nr nc f k q, coef (block cc ro co nr nc f) k q =
      if inr ro nr k then total (fun j => if col_eqb (cc (co + j)) q then f (k - ro) j else F0) (seq 0 nc) else F0.
  Proof.
    intros. rewrite coef_row, (row_block _ _ _ _ _ _ R). destruct (inr ro nr k); auto. rewrite (sumto_total _ _ _ _ _ _ R).
    apply total_ext. intros j _. destruct (col_eqb (cc (co + j)) q); ring.
  Qed.
  Lemma pick_u : forall co nc g k, total (fun j => if col_eqb (CU (co + j)) (CU k) then g j else F0) (seq 0 nc) = if inr co nc k then g (k - co) else F0.
  Proof.
    intros. rewrite (total_seq_pick _ _ _ _ _ _ R) with (k := k - co).
    - destruct (inr co nc k) eqn:E.
      + apply inr_spec in E. replace (inr 0 nc (k - co)) with true by (symmetry; apply inr_spec; lia).
        cbn. replace (co + (k - co)) with k by lia. now rewrite Nat.eqb_refl.
      + destruct (inr 0 nc (k - co)) eqn:E'; auto. cbn. destruct (Nat.eqb_spec (co + (k - co)) k); auto.
        exfalso. apply inr_spec in E'. apply Bool.not_true_iff_false in E. apply E. apply inr_spec. lia.
    - intros i Hi Hne. cbn. destruct (Nat.eqb_spec (co + i) k); auto. lia.
  Qed.
  Lemma pick_p : forall co nc g k, total (fun j => if col_eqb (CP (co + j)) (CP k) then g j else F0) (seq 0 nc) = if inr co nc k then g (k - co) else F0.
  Proof. intros. rewrite <- (pick_u co nc g k). reflexivity. Qed.

  Variable c : comp.
  Hypothesis Hc : tidy c.
  Lemma unknown_u : forall un u', unknown_of c un = Some u' -> In u' (c_unks c) /\ u_name u' = un.
  Proof. intros un u' E. apply find_some in E. destruct E as [H E]. now apply String.eqb_eq in E. Qed.
  Lemma same_cell : forall u v i, In u (c_unks c) -> In v (c_unks c) -> inr (u_off u) (u_size u) i = true -> inr (u_off v) (u_size v) i = true -> u = v.
  Proof. intros u v i Hu Hv A B. destruct Hc as [N _]. exact (owner_unique u_off u_size _ u v i N Hu Hv A B). Qed.
  Lemma same_cell_p : forall u v i, In u (c_params c) -> In v (c_params c) -> inr (p_off u) (p_size u) i = true -> inr (p_off v) (p_size v) i = true -> u = v.
  Proof. intros u v i Hu Hv A B. destruct Hc as [_ [N _]]. exact (owner_unique p_off p_size _ u v i N Hu Hv A B). Qed.

  (** the coefficient of one key of the Jacobian *)
  Lemma coef_key : forall un pn J u n st off size i j, In u (c_unks c) -> i < u_size u ->
      where_is c n = Some (st, off, size) -> j < size ->
      coef (key_entries (raw c) (un, pn, J)) (u_off u + i) (colof st off j) =
      if String.eqb un (u_name u) && String.eqb pn n then m_at J i j else F0.
  Proof.
    intros un pn J u n st off size i j Hu Hi Ew Hj. unfold LinSpec.key_entries. cbn [raw c_fd c_unks c_params].
    assert (Ru : inr (u_off u) (u_size u) (u_off u + i) = true) by (apply inr_spec; lia).
    unfold unknown_of. cbn [raw c_unks].
    assert (Z0 : forall m : list entry, m = [] -> coef m (u_off u + i) (colof st off j) = F0) by (intros m ->; reflexivity).
    destruct (find (fun u0 => String.eqb (u_name u0) un) (c_unks c)) as [u'|] eqn:Eu.
    2:{ destruct (String.eqb_spec un (u_name u)) as [->|]; cbn [andb]; [|reflexivity].
        exfalso. apply (find_none _ _ Eu) in Hu. cbn in Hu. rewrite String.eqb_refl in Hu. discriminate. }
    apply find_some in Eu. destruct Eu as [Hu' Eu]. apply String.eqb_eq in Eu.
    unfold where_is in Ew. unfold state_of, param_of. cbn [raw c_unks c_params].
    destruct (String.eqb_spec un (u_name u)) as [Hname|Hname]; cbn [andb].
    - assert (u' = u) by (apply (names_unique c Hc); auto; congruence). subst u'.
      destruct (find (fun u0 => String.eqb (u_name u0) pn && u_state u0) (c_unks c)) as [x|] eqn:Ex.
      + apply find_some in Ex. destruct Ex as [Hx Ex]. apply andb_prop in Ex. destruct Ex as [Ex Sx]. apply String.eqb_eq in Ex.
        rewrite coef_block, Ru. replace (u_off u + i - u_off u) with i by lia.
        destruct (find (fun x0 => String.eqb (u_name x0) n && u_state x0) (c_unks c)) as [y|] eqn:Ey.
        * inversion Ew; subst. apply find_some in Ey. destruct Ey as [Hy Ey]. apply andb_prop in Ey. destruct Ey as [Ey Sy]. apply String.eqb_eq in Ey.
          cbn [colof]. rewrite pick_u. destruct (String.eqb_spec (u_name x) n) as [En|En].
          -- assert (x = y) by (apply (names_unique c Hc); auto; congruence). subst y. replace (inr _ _ _) with true by (symmetry; apply inr_spec; lia).
             replace (u_off x + j - u_off x) with j by lia. ring.
          -- destruct (inr (u_off x) (u_size x) (u_off y + j)) eqn:E; auto. exfalso. apply En.
             rewrite <- Ey. f_equal. apply (same_cell x y (u_off y + j)); auto. apply inr_spec. lia.
        * destruct (find_p c n) as [p|] eqn:Ep; [|discriminate]. inversion Ew; subst. cbn [colof].
          rewrite (total_zero _ _ _ _ _ _ R) by reflexivity.
          destruct (String.eqb_spec (u_name x) n) as [En|]; auto.
          exfalso. apply (find_none _ _ Ey) in Hx. cbn in Hx. rewrite En, String.eqb_refl, Sx in Hx. discriminate.
      + destruct (find (fun p => String.eqb (p_name p) pn) (c_params c)) as [p|] eqn:Ep.
        * apply find_some in Ep. destruct Ep as [Hp Ep]. apply String.eqb_eq in Ep.
          rewrite coef_block, Ru. replace (u_off u + i - u_off u) with i by lia.
          destruct (find (fun x0 => String.eqb (u_name x0) n && u_state x0) (c_unks c)) as [y|] eqn:Ey.
          -- inversion Ew; subst. cbn [colof]. rewrite (total_zero _ _ _ _ _ _ R) by reflexivity.
             destruct (String.eqb_spec (p_name p) n) as [En|]; auto. exfalso. rewrite <- En in Ey. congruence.
          -- destruct (find_p c n) as [p'|] eqn:Ep'; [|discriminate]. inversion Ew; subst.
             apply find_some in Ep'. destruct Ep' as [Hp' Ep']. apply String.eqb_eq in Ep'. cbn [colof]. rewrite pick_p.
             destruct (String.eqb_spec (p_name p) n) as [En|En].
             ++ assert (p = p') by (apply (pnames_unique c Hc); auto; congruence). subst p'. replace (inr _ _ _) with true by (symmetry; apply inr_spec; lia).
                replace (p_off p + j - p_off p) with j by lia. ring.
             ++ destruct (inr (p_off p) (p_size p) (p_off p' + j)) eqn:E; auto. exfalso. apply En.
                rewrite <- Ep'. f_equal. apply (same_cell_p p p' (p_off p' + j)); auto. apply inr_spec. lia.
        * rewrite (Z0 []) by reflexivity. destruct (String.eqb_spec pn n) as [->|]; auto. exfalso.
          rewrite Ex in Ew. unfold find_p in Ew. rewrite Ep in Ew. discriminate.
    - assert (Rn : inr (u_off u') (u_size u') (u_off u + i) = false).
      { destruct (inr (u_off u') (u_size u') (u_off u + i)) eqn:E; auto. exfalso. apply Hname.
        rewrite <- Eu. f_equal. apply (same_cell u' u (u_off u + i)); auto. }
      destruct (find (fun u0 => String.eqb (u_name u0) pn && u_state u0) (c_unks c)) as [x|]; [rewrite coef_block, Rn; reflexivity|].
      destruct (find (fun p => String.eqb (p_name p) pn) (c_params c)) as [p|]; [rewrite coef_block, Rn; reflexivity|reflexivity].
  Qed.

  (** the sum over the keys *)
  Lemma coef_jac : forall l u n st off size i j, NoDup (map fst l) -> In u (c_unks c) -> i < u_size u ->
      where_is c n = Some (st, off, size) -> j < size ->
      (forall m, In (u_name u, n, m) l -> coef (flat_map (key_entries (raw c)) l) (u_off u + i) (colof st off j) = m_at m i j) /\
      ((forall m, ~ In (u_name u, n, m) l) -> coef (flat_map (key_entries (raw c)) l) (u_off u + i) (colof st off j) = F0).
  Proof.
    intros l u n st off size i j N Hu Hi Ew Hj. rewrite coef_flat.
    assert (Z : forall l, ~ In (u_name u, n) (map fst l) -> total (fun a => coef (key_entries (raw c) a) (u_off u + i) (colof st off j)) l = F0).
    { intros l' H. apply (total_zero _ _ _ _ _ _ R). intros [[un pn] J] Hin. rewrite (coef_key un pn J u n st off size); auto.
      destruct (String.eqb_spec un (u_name u)) as [->|]; auto. destruct (String.eqb_spec pn n) as [->|]; auto.
      exfalso. apply H. apply in_map_iff. exists (u_name u, n, J). auto. }
    split.
    - induction l as [|[[un pn] J] l IH]; intros m H; [destruct H|]. cbn [map fst] in N. apply NoDup_cons_iff in N. destruct N as [Hx N].
      cbn [LinSpec.total fold_right]. fold (total (fun a => coef (key_entries (raw c) a) (u_off u + i) (colof st off j)) l).
      rewrite (coef_key un pn J u n st off size); auto. destruct H as [H|H].
      + inversion H; subst. rewrite !String.eqb_refl. cbn [andb]. rewrite Z by auto. ring.
      + rewrite (IH N m H). destruct (String.eqb_spec un (u_name u)) as [->|]; cbn [andb]; [|ring].
        destruct (String.eqb_spec pn n) as [->|]; [|ring]. exfalso. apply Hx. apply in_map_iff. exists (u_name u, n, m). auto.
    - intro H. apply Z. intro K. apply in_map_iff in K. destruct K as [[[un pn] J] [E K]]. cbn in E. inversion E; subst. eapply H; eauto.
  Qed.

  Lemma acts_jac : forall l, c_jac c = Some l -> Forall (fits c) l ->
      acts F0 fadd fmul c (fun b s => apply_jac F0 fadd fmul b c s) (flat_map (key_entries (raw c)) l) (flat_map (key_entries (raw c)) l).
  Proof.
    intros l E Hf s. unfold apply_jac. rewrite E. split.
    - destruct (terms_fwd _ _ _ _ _ _ R c l s Hf) as [s' [E' [_ [_ H]]]]. exists s'. auto.
    - destruct (terms_rev _ _ _ _ _ _ R c l s Hf) as [s' [E' [_ [H1 H2]]]]. exists s'. auto.
  Qed.
  Lemma local_jac : forall l, local c (flat_map (key_entries (raw c)) l).
  Proof. intros l e He. apply in_flat_map in He. destruct He as [key [_ He]]. exact (key_in _ _ (raw c) key e He). Qed.

  (** shapes *)
  Lemma cached_key : forall u n m, cached c u n = Some m -> key_of c u n m.
  Proof.
    intros u n m E. unfold cached in E. destruct (c_jac c) as [l|] eqn:El; [|discriminate]. exists l. split; auto.
    destruct (find _ l) as [[[a b] m']|] eqn:Ef; [|discriminate]. apply find_some in Ef. destruct Ef as [Hin Ef]. cbn in Ef, E.
    apply andb_prop in Ef. destruct Ef as [A B]. apply String.eqb_eq in A, B. inversion E; subst. auto.
  Qed.
  Lemma key_cached : keys_once c -> forall u n m, key_of c u n m -> cached c u n = Some m.
  Proof.
    intros Hk u n m [l [El Hin]]. unfold cached. rewrite El. specialize (Hk l El). clear El. revert Hk Hin.
    induction l as [|[[a b] m'] l IH]; intros N H; [destruct H|]. cbn [map fst] in N. apply NoDup_cons_iff in N. destruct N as [Hx N].
    cbn [find fst snd]. destruct H as [H|H].
    - inversion H; subst. rewrite !String.eqb_refl. reflexivity.
    - destruct (String.eqb_spec a u) as [->|]; cbn [andb]; auto. destruct (String.eqb_spec b n) as [->|]; auto.
      exfalso. apply Hx. apply in_map_iff. exists (u, n, m). auto.
  Qed.
  Lemma all_good_shapes : keys_once c -> (all_good c = true <-> shapes_ok F1 c).
  Proof.
    intro Hk. unfold all_good. rewrite forallb_forall. split.
    - intros H u n m size q fac Hu Hin Hkey.
      assert (Hp : In (n, u) (pairs c)).
      { apply in_flat_map. exists n. split; [exact (input_listed F1 c n size q fac Hin)|]. now apply in_map. }
      specialize (H _ Hp). unfold good in H. cbn [fst snd] in H. rewrite (key_cached Hk _ _ _ Hkey) in H.
      apply andb_prop in H. destruct H as [A B]. apply Nat.eqb_eq in A, B. split; auto. rewrite B.
      destruct (input_where F1 c Hc n size q fac Hin) as [st [off [Ew _]]]. unfold size_of. now rewrite Ew.
    - intros H [n u] Hp. apply in_flat_map in Hp. destruct Hp as [n' [Hn Hp]]. apply in_map_iff in Hp. destruct Hp as [u' [E Hu]].
      inversion E; subst. unfold good. cbn [fst snd]. destruct (cached c (u_name u) n) as [m|] eqn:Em; auto.
      destruct (where_input F1 c n Hn) as [st [off [size [Ew Hin]]]].
      destruct (H u n m size _ _ Hu Hin (cached_key _ _ _ Em)) as [-> ->]. unfold size_of. now rewrite Ew, !Nat.eqb_refl.
  Qed.
  Lemma shapes_fit : shapes_ok F1 c -> forall l, c_jac c = Some l -> Forall (fits c) l.
  Proof.
    intros H l El. apply Forall_forall. intros [[un pn] J] Hin. intros u Eu. apply find_some in Eu. destruct Eu as [Hu Eu]. apply String.eqb_eq in Eu. subst un.
    assert (Hk : key_of c (u_name u) pn J) by (exists l; auto). split.
    - intros x Ex. apply find_some in Ex. destruct Ex as [Hx Ex]. apply andb_prop in Ex. destruct Ex as [Ex Sx]. apply String.eqb_eq in Ex.
      apply (H u pn J (u_size x) (fun j => CU (u_off x + j)) F1); auto. left. exists x. repeat split; auto.
    - intros p Es Ep. apply find_some in Ep. destruct Ep as [Hp Ep]. apply String.eqb_eq in Ep.
      apply (H u pn J (p_size p) (fun j => CP (p_off p + j)) (factor F1 (p_unit p))); auto. right. split.
      + intros x Hx Ex. apply (find_none _ _ Es) in Hx. cbn in Hx. now rewrite Ex, String.eqb_refl in Hx.
      + exists p. repeat split; auto.
  Qed.
End P.

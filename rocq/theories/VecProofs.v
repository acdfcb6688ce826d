(** Proofs for C23-C25. *)
From Coq Require Import Lqa Qfield.
From Verif Require Import Base BaseFacts VecModel VecSpec.
Local Open Scope nat_scope.

Section Proofs.
  Context {A O : Type}.
  Notation memory := (memory A O).
  Notation value := (value A O).
  Notation cell := (cell A O).
  Notation store := (store A O).

  (** ** lists *)
  Lemma skipn_skipn : forall (x y : nat) (l : list A), skipn x (skipn y l) = skipn (x + y) l.
  Proof.
    intros x y. revert x. induction y; intros x l; simpl.
    - rewrite Nat.add_0_r. reflexivity.
    - rewrite <- plus_n_Sm. destruct l; simpl; [destruct x; reflexivity|]. apply IHy.
  Qed.

  Lemma sub_length : forall (l : list A) a b, b <= length l -> length (sub l a b) = b - a.
  Proof. intros. unfold sub. rewrite firstn_length, skipn_length. lia. Qed.

  Lemma nth_error_sub : forall (l : list A) a b i, nth_error (sub l a b) i = if Nat.ltb i (b - a) then nth_error l (a + i) else None.
  Proof.
    intros. unfold sub. destruct (Nat.ltb_spec i (b - a)).
    - rewrite <- (firstn_skipn a l) at 2.
      destruct (Nat.le_gt_cases a (length l)).
      + rewrite nth_error_app2 by (rewrite firstn_length; lia).
        rewrite firstn_length, Nat.min_l by lia. replace (a + i - a) with i by lia.
        rewrite <- (firstn_skipn (b - a) (skipn a l)) at 2.
        destruct (Nat.lt_ge_cases i (length (firstn (b - a) (skipn a l)))).
        * rewrite nth_error_app1 by assumption. reflexivity.
        * rewrite nth_error_app2 by assumption.
          rewrite (proj2 (nth_error_None _ i)) by assumption.
          symmetry. apply nth_error_None. rewrite firstn_length in *. rewrite !skipn_length in *. lia.
      + rewrite skipn_all2 by lia. rewrite firstn_nil. replace (nth_error (@nil A) i) with (@None A) by (destruct i; reflexivity).
        symmetry. apply nth_error_None. rewrite app_nil_r, firstn_length. lia.
    - apply nth_error_None. rewrite firstn_length. lia.
  Qed.

  Lemma nth_error_splice : forall (l xs : list A) a b i, a <= b -> b <= length l -> length xs = b - a ->
      nth_error (splice l a b xs) i =
        if (Nat.leb a i && Nat.ltb i b)%bool then nth_error xs (i - a) else nth_error l i.
  Proof.
    intros l xs a b i Hab Hb Hx. unfold splice.
    assert (Hl : nth_error l i = nth_error (firstn a l ++ sub l a b ++ skipn b l) i).
    { f_equal. rewrite app_assoc. unfold sub.
      rewrite <- (firstn_skipn a l) at 1. rewrite <- app_assoc. f_equal.
      rewrite <- (firstn_skipn (b - a) (skipn a l)) at 1. f_equal.
      rewrite skipn_skipn. f_equal. lia. }
    destruct (Nat.leb_spec a i); simpl.
    - rewrite nth_error_app2 by (rewrite firstn_length; lia).
      rewrite firstn_length, Nat.min_l by lia.
      destruct (Nat.ltb_spec i b).
      + rewrite nth_error_app1 by lia. reflexivity.
      + rewrite nth_error_app2 by lia. rewrite Hl.
        rewrite nth_error_app2 by (rewrite firstn_length; lia).
        rewrite nth_error_app2 by (rewrite sub_length, firstn_length; lia).
        rewrite sub_length, firstn_length by lia. f_equal. lia.
    - rewrite nth_error_app1 by (rewrite firstn_length; lia).
      rewrite Hl. rewrite nth_error_app1 by (rewrite firstn_length; lia). reflexivity.
  Qed.

  Lemma splice_length : forall (l xs : list A) a b, a <= b -> b <= length l -> length xs = b - a ->
      length (splice l a b xs) = length l.
  Proof. intros. unfold splice. rewrite !app_length, firstn_length, skipn_length. lia. Qed.

  Lemma nth_error_ext : forall (l l' : list A), (forall i, nth_error l i = nth_error l' i) -> l = l'.
  Proof.
    induction l; intros [|b l'] H.
    - reflexivity.
    - specialize (H 0). discriminate.
    - specialize (H 0). discriminate.
    - f_equal; [specialize (H 0); simpl in H; congruence|]. apply IHl. intros i. apply (H (S i)).
  Qed.

  Lemma sub_splice_same : forall (l xs : list A) a b, a <= b -> b <= length l -> length xs = b - a ->
      sub (splice l a b xs) a b = xs.
  Proof.
    intros. apply nth_error_ext. intros i. rewrite nth_error_sub, nth_error_splice by assumption.
    destruct (Nat.ltb_spec i (b - a)).
    - rewrite (proj2 (Nat.leb_le _ _)) by lia. rewrite (proj2 (Nat.ltb_lt _ _)) by lia. simpl.
      f_equal. lia.
    - symmetry. apply nth_error_None. lia.
  Qed.

  Lemma sub_splice_other : forall (l xs : list A) a b a' b', a <= b -> b <= length l -> length xs = b - a ->
      (b <= a' \/ b' <= a) -> sub (splice l a b xs) a' b' = sub l a' b'.
  Proof.
    intros l xs a b a' b' Hab Hb Hx H. apply nth_error_ext. intros i.
    rewrite !nth_error_sub, nth_error_splice by assumption.
    destruct (Nat.ltb_spec i (b' - a')); [|reflexivity].
    destruct (Nat.leb_spec a (a' + i)); [|reflexivity].
    destruct (Nat.ltb_spec (a' + i) b); [|reflexivity]. lia.
  Qed.

  Lemma sub_app_left : forall (l1 l2 : list A) a b, b <= length l1 -> sub (l1 ++ l2) a b = sub l1 a b.
  Proof.
    intros. apply nth_error_ext. intros i. rewrite !nth_error_sub.
    destruct (Nat.ltb_spec i (b - a)); [|reflexivity]. apply nth_error_app1. lia.
  Qed.

  Lemma sub_app_exact : forall (l1 l2 l3 : list A), sub (l1 ++ l2 ++ l3) (length l1) (length l1 + length l2) = l2.
  Proof.
    intros. apply nth_error_ext. intros i. rewrite nth_error_sub.
    destruct (Nat.ltb_spec i (length l1 + length l2 - length l1)).
    - rewrite nth_error_app2 by lia. rewrite nth_error_app1 by lia. f_equal. lia.
    - symmetry. apply nth_error_None. lia.
  Qed.

  Lemma sub_split : forall (l : list A) a b c, a <= b -> b <= c -> sub l a c = sub l a b ++ sub l b c.
  Proof.
    intros l a b c H1 H2. unfold sub.
    rewrite <- (firstn_skipn (b - a) (firstn (c - a) (skipn a l))) at 1. f_equal.
    - rewrite firstn_firstn. f_equal. lia.
    - rewrite skipn_firstn_comm. rewrite skipn_skipn. f_equal; [lia|]. f_equal. lia.
  Qed.

  (** ** the relation between vectors and cells *)
  Definition holds (x : acc) (m : memory) (c : cell) : Prop :=
    match a_loc x with
    | LRemote => c = CAway
    | LCell id => exists o, sget (m_objs m) id = Some o /\ c = CObj o
    | LVec a b => a <= b /\ b <= length (m_vec m) /\
                  (if a_scalar x then b = a + 1 /\ exists q, sub (m_vec m) a b = [q] /\ c = CNum q
                   else c = CArr (sub (m_vec m) a b))
    end.

  Definition apart (x y : acc) : Prop :=
    match a_loc x, a_loc y with
    | LVec a b, LVec a' b' => b <= a' \/ b' <= a
    | LCell i, LCell j => i <> j
    | _, _ => True
    end.

  Definition Rel (w : wrapper) (m : memory) (s : store) : Prop :=
    (forall n, match sget (w_dat w) n, sget s n with
               | None, None => True
               | Some x, Some c => holds x m c
               | _, _ => False
               end) /\
    (forall n n' x y, n <> n' -> sget (w_dat w) n = Some x -> sget (w_dat w) n' = Some y -> apart x y).

  Lemma get_ok : forall x m c, holds x m c -> acc_get x m = cell_get c.
  Proof.
    intros x m c H. unfold holds in H. unfold acc_get. destruct (a_loc x).
    - destruct H as (_ & _ & H). destruct (a_scalar x).
      + destruct H as (_ & q & Hq & ->). rewrite Hq. reflexivity.
      + subst c. reflexivity.
    - destruct H as (o & Ho & ->). rewrite Ho. reflexivity.
    - subst c. reflexivity.
  Qed.

  Lemma set_ok : forall x m c v, holds x m c ->
      match cell_set c v with
      | Err e => acc_set x m v = (m, Err e)
      | Ok c' => exists m', acc_set x m v = (m', Ok tt) /\ holds x m' c' /\
                            length (m_vec m') = length (m_vec m) /\
                            (forall y d, apart x y -> holds y m d -> holds y m' d)
      end.
  Proof.
    intros x m c v H. unfold holds in H. unfold acc_set. unfold holds. unfold apart.
    destruct (a_loc x) as [a b|id|].
    - destruct H as (Hab & Hb & H). destruct (a_scalar x).
      + destruct H as (Hb1 & q & Hq & ->). subst b.
        assert (Hw : forall z, exists m', mkMem (splice (m_vec m) a (a + 1) [z]) (m_objs m) = m' /\
          (a <= a + 1 /\ a + 1 <= length (m_vec m') /\
           a + 1 = a + 1 /\ (exists q0, sub (m_vec m') a (a + 1) = [q0] /\ CNum z = CNum q0 :> cell)) /\
          length (m_vec m') = length (m_vec m) /\
          (forall (y : acc) (d : cell),
              match a_loc y with LVec a' b' => a + 1 <= a' \/ b' <= a | _ => True end ->
              match a_loc y with
              | LVec a0 b => a0 <= b /\ b <= length (m_vec m) /\
                   (if a_scalar y then b = a0 + 1 /\ (exists q0, sub (m_vec m) a0 b = [q0] /\ d = CNum q0) else d = CArr (sub (m_vec m) a0 b))
              | LCell id => exists o, sget (m_objs m) id = Some o /\ d = CObj o
              | LRemote => d = CAway end ->
              match a_loc y with
              | LVec a0 b => a0 <= b /\ b <= length (m_vec m') /\
                   (if a_scalar y then b = a0 + 1 /\ (exists q0, sub (m_vec m') a0 b = [q0] /\ d = CNum q0) else d = CArr (sub (m_vec m') a0 b))
              | LCell id => exists o, sget (m_objs m') id = Some o /\ d = CObj o
              | LRemote => d = CAway end)).
        { intros z. eexists. split; [reflexivity|]. cbn [m_vec m_objs].
          rewrite splice_length by (simpl; lia). split; [|split; [reflexivity|]].
          - split; [lia|]. split; [lia|]. split; [lia|]. exists z. split; [|reflexivity].
            apply sub_splice_same; simpl; lia.
          - intros y d Hy. destruct (a_loc y) as [a' b'|id|]; auto.
            rewrite sub_splice_other by (simpl; lia). auto. }
        destruct v as [z|l|o]; simpl.
        * destruct (Hw z) as (m' & Hm & H1 & H2 & H3). exists m'. rewrite Hm. intuition.
        * destruct l as [|z [|]]; try reflexivity.
          destruct (Hw z) as (m' & Hm & H1 & H2 & H3). exists m'. rewrite Hm. intuition.
        * reflexivity.
      + subst c. destruct v as [z|l|o]; simpl; try reflexivity.
        rewrite sub_length by lia.
        assert (Hw : forall xs, length xs = b - a -> exists m', mkMem (splice (m_vec m) a b xs) (m_objs m) = m' /\
          (a <= b /\ b <= length (m_vec m') /\ CArr xs = CArr (sub (m_vec m') a b) :> cell) /\
          length (m_vec m') = length (m_vec m) /\
          (forall (y : acc) (d : cell),
              match a_loc y with LVec a' b' => b <= a' \/ b' <= a | _ => True end ->
              match a_loc y with
              | LVec a0 b => a0 <= b /\ b <= length (m_vec m) /\
                   (if a_scalar y then b = a0 + 1 /\ (exists q0, sub (m_vec m) a0 b = [q0] /\ d = CNum q0) else d = CArr (sub (m_vec m) a0 b))
              | LCell id => exists o, sget (m_objs m) id = Some o /\ d = CObj o
              | LRemote => d = CAway end ->
              match a_loc y with
              | LVec a0 b => a0 <= b /\ b <= length (m_vec m') /\
                   (if a_scalar y then b = a0 + 1 /\ (exists q0, sub (m_vec m') a0 b = [q0] /\ d = CNum q0) else d = CArr (sub (m_vec m') a0 b))
              | LCell id => exists o, sget (m_objs m') id = Some o /\ d = CObj o
              | LRemote => d = CAway end)).
        { intros xs Hxs. eexists. split; [reflexivity|]. cbn [m_vec m_objs].
          rewrite splice_length by lia. split; [|split; [reflexivity|]].
          - split; [lia|]. split; [lia|]. f_equal. symmetry. apply sub_splice_same; lia.
          - intros y d Hy. destruct (a_loc y) as [a' b'|id|]; auto.
            rewrite sub_splice_other by lia. auto. }
        destruct (Nat.eqb_spec (length l) (b - a)) as [E|E].
        * destruct (Hw l E) as (m' & Hm & H1 & H2 & H3). exists m'. rewrite Hm. intuition.
        * destruct l as [|z [|]]; try reflexivity.
          destruct (Hw (repeat z (b - a)) (repeat_length _ _)) as (m' & Hm & H1 & H2 & H3).
          exists m'. rewrite Hm. split; [reflexivity|]. split; [|auto].
          destruct H1 as (G1 & G2 & G3). split; [auto|]. split; [auto|]. rewrite <- G3. f_equal.
          rewrite <- (sub_length (m_vec m) a b) by lia.
          clear. induction (sub (m_vec m) a b); simpl; congruence.
    - destruct H as (o & Ho & ->). destruct v; simpl; try reflexivity.
      eexists. split; [reflexivity|]. cbn [m_vec m_objs]. split; [|split; [reflexivity|]].
      + eexists. split; [apply (dget_dset_eq String.eqb String.eqb_eq)|reflexivity].
      + intros y d Hy Hd. destruct (a_loc y); auto.
        destruct Hd as (o' & Ho' & ->). exists o'. split; [|reflexivity].
        unfold sget, sset in *. rewrite (dget_dset_ne String.eqb String.eqb_eq); auto.
    - subst c. reflexivity.
  Qed.

  Lemma rel_get : forall w m s n, Rel w m s -> w_get w m n = store_get s n.
  Proof.
    intros w m s n [H _]. specialize (H n). unfold w_get, store_get.
    destruct (sget (w_dat w) n); destruct (sget s n); try contradiction; [|reflexivity].
    apply get_ok; assumption.
  Qed.

  Lemma rel_set : forall w m s n v, Rel w m s ->
      exists m' s' q, w_set w m n v = (m', q) /\ store_set s n v = (s', q) /\ Rel w m' s' /\ length (m_vec m') = length (m_vec m).
  Proof.
    intros w m s n v [H Ha]. pose proof (H n) as Hn. unfold w_set, store_set.
    destruct (sget (w_dat w) n) as [x|] eqn:Ex; destruct (sget s n) as [c|] eqn:Ec; try contradiction.
    - pose proof (set_ok x m c v Hn) as Hs. destruct (cell_set c v) as [c'|e] eqn:Es.
      + destruct Hs as (m' & Hm & Hh & Hl & Ho). exists m', (sset s n c'), (Ok tt).
        split; [exact Hm|]. split; [reflexivity|]. split; [|exact Hl]. split; [|exact Ha].
        intros k. unfold sset, sget. rewrite (dget_dset String.eqb String.eqb_eq).
        destruct (String.eqb_spec k n) as [->|Hk].
        * change (dget String.eqb (w_dat w) n) with (sget (w_dat w) n). rewrite Ex. exact Hh.
        * specialize (H k). change (dget String.eqb (w_dat w) k) with (sget (w_dat w) k).
          change (dget String.eqb s k) with (sget s k).
          destruct (sget (w_dat w) k) as [y|] eqn:Ey; destruct (sget s k); try contradiction; [|exact I].
          apply Ho; [|assumption]. apply (Ha n k); auto.
      + rewrite Hs. exists m, s, (Err e). repeat split; assumption || auto.
    - exists m, s, (Err KeyError). repeat split; assumption || auto.
  Qed.

  (** ** views share the accessor's storage *)
  Definition key (x : acc) : loc * bool := (a_loc x, a_scalar x).

  Lemma acc_get_key : forall x y (m : memory), key x = key y -> acc_get x m = acc_get y m.
  Proof. intros x y m H. injection H as H1 H2. unfold acc_get. rewrite H1, H2. reflexivity. Qed.
  Lemma acc_set_key : forall x y (m : memory) v, key x = key y -> acc_set x m v = acc_set y m v.
  Proof. intros x y m v H. injection H as H1 H2. unfold acc_set. rewrite H1, H2. reflexivity. Qed.

  Lemma sget_sset' : forall V (d : list (string * V)) k k' v, sget (sset d k v) k' = if String.eqb k' k then Some v else sget d k'.
  Proof. intros. apply (dget_dset String.eqb String.eqb_eq). Qed.

  Lemma view_loop_key : forall w vm r vs dat out, view_loop w vm r vs dat = Ok out -> NoDup (map snd vm) ->
      forall k, option_map key (sget (snd out) k) =
                match parent_name vm k with
                | Some nm => match sget (w_dat w) nm with Some x => Some (key x) | None => option_map key (sget dat k) end
                | None => option_map key (sget dat k)
                end.
  Proof.
    induction vm as [|[name pname] vm IH]; intros r vs dat out H Hnd k.
    - simpl in H. injection H as <-. reflexivity.
    - inversion Hnd as [|? ? Hni Hnd']; subst. unfold parent_name. cbn [find snd].
      assert (Hno : k = pname -> parent_name vm k = None).
      { intros ->. unfold parent_name. destruct (find _ vm) as [[a b]|] eqn:E; [|reflexivity].
        apply find_some in E. destruct E as [E1 E2]. simpl in E2. apply String.eqb_eq in E2. subst b.
        exfalso. apply Hni. apply in_map_iff. exists (a, pname). auto. }
      assert (Hgen : forall y r' vs', key y = match sget (w_dat w) name with Some x => key x | None => key y end ->
                sget (w_dat w) name <> None ->
                view_loop w vm r' vs' (sset dat pname y) = Ok out ->
                option_map key (sget (snd out) k) =
                match option_map fst (if String.eqb pname k then Some (name, pname) else find (fun p => String.eqb (snd p) k) vm) with
                | Some nm => match sget (w_dat w) nm with Some x => Some (key x) | None => option_map key (sget dat k) end
                | None => option_map key (sget dat k)
                end).
      { intros y r' vs' Hy Hsome Hl. rewrite (IH _ _ _ _ Hl Hnd' k). rewrite sget_sset'.
        destruct (String.eqb_spec pname k) as [<-|Hk].
        - rewrite Hno by reflexivity. rewrite String.eqb_refl. simpl.
          destruct (sget (w_dat w) name); [|congruence]. rewrite Hy. reflexivity.
        - destruct (String.eqb_spec k pname); [congruence|]. reflexivity. }
      simpl in H. destruct (sget (w_dat w) name) as [x|] eqn:Ex.
      + destruct (a_slice x) as [[ps pe]|].
        * destruct r as [[st sp]|].
          -- destruct (Nat.eqb ps sp); [|discriminate].
             eapply Hgen; [| |exact H]; [reflexivity|congruence].
          -- eapply Hgen; [| |exact H]; [reflexivity|congruence].
        * eapply Hgen; [| |exact H]; [reflexivity|congruence].
      + rewrite (IH _ _ _ _ H Hnd' k).
        destruct (String.eqb_spec pname k) as [<-|Hk].
        * rewrite Hno by reflexivity. simpl. rewrite Ex. reflexivity.
        * reflexivity.
  Qed.

  Lemma get_view_key : forall w vm v, get_view w vm = Ok v -> NoDup (map snd vm) ->
      forall k, option_map key (sget (w_dat v) k) =
                match parent_name vm k with Some nm => option_map key (sget (w_dat w) nm) | None => None end.
  Proof.
    intros w vm v H Hnd k. unfold get_view in H.
    destruct (view_loop w vm None 0 []) as [[[r n] dat]|] eqn:E; [|discriminate].
    simpl in H. pose proof (view_loop_key _ _ _ _ _ _ E Hnd k) as Hk. simpl in Hk.
    assert (Hd : w_dat v = dat) by (destruct r as [[? ?]|]; injection H as <-; reflexivity).
    rewrite Hd, Hk. destruct (parent_name vm k); [|reflexivity]. destruct (sget (w_dat w) s); reflexivity.
  Qed.

  Lemma view_chain_key : forall chain w v, view_chain w chain = Ok v -> Forall (fun vm => NoDup (map snd vm)) chain ->
      forall k, option_map key (sget (w_dat v) k) =
                match root_name chain k with Some nm => option_map key (sget (w_dat w) nm) | None => None end.
  Proof.
    induction chain as [|vm chain IH]; intros w v H HF k.
    - simpl in H. injection H as <-. reflexivity.
    - inversion HF; subst. simpl in H. destruct (get_view w vm) as [u|] eqn:E; [|discriminate].
      simpl in H. rewrite (IH _ _ H H3 k). simpl. destruct (root_name chain k) as [nm|]; [|reflexivity].
      apply get_view_key; assumption.
  Qed.

  Lemma step_refines : forall w m s e, Rel w m s -> good_chain w (fst e) ->
      exists m' s' o, vec_step w m e = (m', o) /\ spec_step s e = (s', o) /\ Rel w m' s'.
  Proof.
    intros w m s [chain act] HR [[v Hv] Hnd]. simpl in Hv, Hnd.
    pose proof (view_chain_key _ _ _ Hv Hnd) as Hk.
    unfold vec_step, spec_step. rewrite Hv. destruct act as [n|n x].
    - specialize (Hk n). unfold w_get. destruct (root_name chain n) as [r|].
      + exists m, s. eexists. split; [reflexivity|]. split; [|assumption]. f_equal.
        rewrite <- (rel_get _ _ _ r HR). unfold w_get.
        destruct (sget (w_dat v) n) as [xv|]; destruct (sget (w_dat w) r) as [xw|]; try discriminate; [|reflexivity].
        cbn [option_map] in Hk. rewrite (acc_get_key xv xw) by congruence. reflexivity.
      + destruct (sget (w_dat v) n); [discriminate|].
        exists m, s. eexists. split; [reflexivity|]. split; [reflexivity|assumption].
    - specialize (Hk n). unfold w_set. destruct (root_name chain n) as [r|].
      + destruct (rel_set w m s r x HR) as (m' & s' & q & Hw & Hs & HR' & _). unfold w_set in Hw. rewrite Hs.
        exists m', s'. eexists. split; [|split; [reflexivity|assumption]].
        destruct (sget (w_dat v) n) as [xv|]; destruct (sget (w_dat w) r) as [xw|]; try discriminate.
        * cbn [option_map] in Hk. rewrite (acc_set_key xv xw) by congruence. rewrite Hw. reflexivity.
        * injection Hw as <- <-. reflexivity.
      + destruct (sget (w_dat v) n); [discriminate|].
        exists m, s. eexists. split; [reflexivity|]. split; [reflexivity|assumption].
  Qed.

  Lemma run_refines : forall es w m s, Rel w m s -> Forall (fun e => good_chain w (fst e)) es ->
      snd (vec_run w m es) = snd (spec_run s es) /\ Rel w (fst (vec_run w m es)) (fst (spec_run s es)).
  Proof.
    induction es as [|e es IH]; intros w m s HR HF.
    - split; [reflexivity|assumption].
    - inversion HF; subst. destruct (step_refines w m s e HR H1) as (m' & s' & o & H3 & H4 & H5).
      simpl. rewrite H3, H4. specialize (IH w m' s' H5 H2).
      destruct (vec_run w m' es), (spec_run s' es). simpl in *. destruct IH as [IH1 IH2]. split; [congruence|assumption].
  Qed.

  (** ** the layout made by setup *)
  (** consecutive slices from [st] to [en], stored from [base] *)
  Inductive consec (base : nat) : nat -> list (string * acc) -> nat -> Prop :=
  | cs_nil : forall st, consec base st [] st
  | cs_vec : forall st n x d en, a_slice x = Some (st, st + a_size x) ->
      a_loc x = LVec (base + st) (base + st + a_size x) -> (a_scalar x = true -> a_size x = 1) ->
      consec base (st + a_size x) d en -> consec base st ((n, x) :: d) en
  | cs_obj : forall st n x d en, a_slice x = None -> (forall a b, a_loc x <> LVec a b) ->
      consec base st d en -> consec base st ((n, x) :: d) en.

  Lemma consec_le : forall base st d en, consec base st d en -> st <= en.
  Proof. intros base st d en H. induction H; lia. Qed.

  Lemma lay_out_consec : forall rel (vars : list (vmeta A O)) k, Forall good_var vars ->
      consec 0 k (fst (lay_out rel k vars)) (snd (lay_out rel k vars)).
  Proof.
    intros rel vars. induction vars as [|x vars IH]; intros k HF; simpl.
    - constructor.
    - inversion HF as [|? ? Hg HF']; subst. destruct (rel (v_name x)); [|apply IH; assumption].
      destruct (negb (v_pbo x) && negb (v_remote x))%bool.
      + specialize (IH (k + v_size x) HF'). destruct (lay_out rel (k + v_size x) vars). simpl in *.
        apply cs_vec; simpl; try reflexivity; [|assumption]. destruct Hg as (_ & Hg & _). exact Hg.
      + specialize (IH k HF'). destruct (lay_out rel k vars). simpl in *.
        apply cs_obj; simpl; [reflexivity| |assumption]. intros a b. destruct (v_remote x); discriminate.
  Qed.

  Lemma consec_nth : forall base st d en, consec base st d en -> forall i n x, nth_error d i = Some (n, x) ->
      match a_slice x with
      | Some (a, b) => st <= a /\ b <= en /\ b = a + a_size x /\ a_loc x = LVec (base + a) (base + b)
      | None => forall a b, a_loc x <> LVec a b
      end.
  Proof.
    intros base st d en H. induction H; intros i nn y Hi.
    - destruct i; discriminate.
    - destruct i; simpl in Hi.
      + injection Hi as <- <-. rewrite H. apply consec_le in H2. repeat split; try lia.
        rewrite H0. f_equal. lia.
      + specialize (IHconsec _ _ _ Hi). destruct (a_slice y) as [[a b]|]; [|assumption].
        destruct IHconsec as (G1 & G2 & G3 & G4). repeat split; try lia. assumption.
    - destruct i; simpl in Hi.
      + injection Hi as <- <-. rewrite H. assumption.
      + eapply IHconsec; eassumption.
  Qed.

  Lemma consec_order : forall base st d en, consec base st d en -> forall i j n n' x y a b a' b',
      nth_error d i = Some (n, x) -> nth_error d j = Some (n', y) -> i < j ->
      a_slice x = Some (a, b) -> a_slice y = Some (a', b') -> b <= a'.
  Proof.
    intros base st d en H. induction H; intros i j nn nn' z y a b a' b' Hi Hj Hlt Hx Hy.
    - destruct i; discriminate.
    - destruct j; [lia|]. simpl in Hj. destruct i; simpl in Hi.
      + injection Hi as <- <-. rewrite H in Hx. injection Hx as <- <-.
        pose proof (consec_nth _ _ _ _ H2 _ _ _ Hj) as G. rewrite Hy in G. lia.
      + eapply IHconsec; [exact Hi|exact Hj|lia|eassumption|eassumption].
    - destruct j; [lia|]. simpl in Hj. destruct i; simpl in Hi.
      + injection Hi as <- <-. congruence.
      + eapply IHconsec; [exact Hi|exact Hj|lia|eassumption|eassumption].
  Qed.

  Lemma consec_cover : forall base st d en, consec base st d en -> forall i, st <= i < en ->
      exists k n x a b, nth_error d k = Some (n, x) /\ a_slice x = Some (a, b) /\ a <= i < b.
  Proof.
    intros base st d en H. induction H; intros i Hi.
    - lia.
    - destruct (Nat.lt_ge_cases i (st + a_size x)).
      + exists 0, n, x, st, (st + a_size x). repeat split; auto; lia.
      + destruct (IHconsec i ltac:(lia)) as (k & G). exists (S k). exact G.
    - destruct (IHconsec i Hi) as (k & G). exists (S k). exact G.
  Qed.

  Lemma sget_nth : forall V (d : list (string * V)) n x, sget d n = Some x -> exists i, nth_error d i = Some (n, x).
  Proof.
    intros V d n x H. apply In_nth_error. apply (dget_in String.eqb String.eqb_eq). exact H.
  Qed.

  Lemma nth_sget : forall V (d : list (string * V)) i n x, NoDup (map fst d) -> nth_error d i = Some (n, x) -> sget d n = Some x.
  Proof.
    intros V d i n x Hnd H. apply (in_dget String.eqb String.eqb_eq); [exact Hnd|]. eapply nth_error_In; eassumption.
  Qed.

  Lemma names_lay_out : forall rel (vars : list (vmeta A O)) k,
      map fst (fst (lay_out rel k vars)) = map v_name (filter (fun m => rel (v_name m)) vars).
  Proof.
    intros rel. induction vars as [|x vars IH]; intros k; simpl; [reflexivity|].
    destruct (rel (v_name x)); [|apply IH].
    destruct (negb (v_pbo x) && negb (v_remote x))%bool.
    - specialize (IH (k + v_size x)). destruct (lay_out rel (k + v_size x) vars). simpl in *. congruence.
    - specialize (IH k). destruct (lay_out rel k vars). simpl in *. congruence.
  Qed.

  Lemma NoDup_filter_names : forall rel (vars : list (vmeta A O)), NoDup (map v_name vars) ->
      NoDup (map v_name (filter (fun m => rel (v_name m)) vars)).
  Proof.
    intros rel. induction vars as [|x vars IH]; simpl; intros H; [constructor|]. inversion H; subst.
    destruct (rel (v_name x)); simpl; [|auto]. constructor; [|auto].
    intros Hin. apply H2. apply in_map_iff in Hin. destruct Hin as (y & Hy & Hi). apply filter_In in Hi.
    apply in_map_iff. exists y. tauto.
  Qed.

  (** ** the state after setup *)
  Definition data_of (byobjs : bool) (zero : A) (m : vmeta A O) : list A :=
    if byobjs then v_val m else map (fun _ => zero) (v_val m).
  Definition flat_init (f : vmeta A O -> list A) (rel : string -> bool) (vars : list (vmeta A O)) : list A :=
    concat (map f (filter (fun m => (rel (v_name m) && (negb (v_pbo m) && negb (v_remote m)))%bool) vars)).

  Lemma init_vec_flat : forall rel vars, init_vec rel vars = flat_init v_val rel vars.
  Proof.
    intros rel. induction vars as [|x vars IH]; [reflexivity|]. unfold flat_init. simpl.
    destruct (rel (v_name x) && (negb (v_pbo x) && negb (v_remote x)))%bool; simpl; rewrite IH; reflexivity.
  Qed.

  Lemma zeros_flat : forall zero rel vars k, Forall good_var vars ->
      repeat zero (snd (lay_out rel k vars) - k) = flat_init (data_of false zero) rel vars /\ k <= snd (lay_out rel k vars).
  Proof.
    intros zero rel. induction vars as [|x vars IH]; intros k HF; simpl.
    - rewrite Nat.sub_diag. split; [reflexivity|lia].
    - inversion HF as [|? ? Hg HF']; subst. unfold flat_init. simpl.
      destruct (rel (v_name x)); simpl; [|apply IH; assumption].
      destruct (negb (v_pbo x) && negb (v_remote x))%bool; simpl.
      + destruct (IH (k + v_size x) HF') as [IH1 IH2]. destruct (lay_out rel (k + v_size x) vars) as [d n]. simpl in *.
        split; [|lia]. fold (flat_init (data_of false zero) rel vars). rewrite <- IH1.
        destruct Hg as (Hg & _).
        replace (map (fun _ : A => zero) (v_val x)) with (repeat zero (v_size x)).
        * rewrite <- repeat_app. f_equal. lia.
        * rewrite <- Hg. clear. induction (v_val x); simpl; congruence.
      + specialize (IH k HF'). destruct (lay_out rel k vars). exact IH.
  Qed.

  Lemma setup_forall2 : forall byobjs zero rel vars pre mem, Forall good_var vars ->
      m_vec mem = pre ++ flat_init (data_of byobjs zero) rel vars ->
      (forall x o, In x vars -> rel (v_name x) = true -> v_pbo x = true -> v_remote x = false ->
                   v_obj x = Some o -> sget (m_objs mem) (v_name x) = Some o) ->
      Forall2 (fun p q => fst p = fst q /\ holds (snd p) mem (snd q))
              (fst (lay_out rel (length pre) vars)) (store_of byobjs zero rel vars).
  Proof.
    intros byobjs zero rel. induction vars as [|x vars IH]; intros pre mem HF Hv Ho; [constructor|].
    inversion HF as [|? ? Hg HF']; subst. unfold store_of in *. simpl. unfold flat_init in Hv. simpl in Hv.
    assert (Ho' : forall y o, In y vars -> rel (v_name y) = true -> v_pbo y = true -> v_remote y = false ->
                   v_obj y = Some o -> sget (m_objs mem) (v_name y) = Some o).
    { intros y o Hin. apply Ho. right; assumption. }
    destruct (rel (v_name x)) eqn:Er; simpl in Hv |- *; [|apply IH; assumption].
    destruct Hg as (Hlen & Hsc & Hobj).
    destruct (negb (v_pbo x) && negb (v_remote x))%bool eqn:Ev; simpl in Hv.
    - assert (Hd : length (data_of byobjs zero x) = v_size x).
      { unfold data_of. destruct byobjs; [|rewrite map_length]; assumption. }
      specialize (IH (pre ++ data_of byobjs zero x) mem HF').
      rewrite <- app_assoc in IH. specialize (IH Hv Ho'). rewrite app_length, Hd in IH.
      destruct (lay_out rel (length pre + v_size x) vars) as [d n]. simpl in *.
      constructor; [|exact IH]. simpl. split; [reflexivity|].
      apply andb_true_iff in Ev. destruct Ev as [E1 E2]. apply negb_true_iff in E1, E2.
      unfold holds, cell_of. simpl. rewrite E1, E2. rewrite Hv. rewrite !app_length, Hd.
      split; [lia|]. split; [lia|].
      assert (Hs : sub (pre ++ data_of byobjs zero x ++ concat (map (data_of byobjs zero)
         (filter (fun m => (rel (v_name m) && (negb (v_pbo m) && negb (v_remote m)))%bool) vars)))
            (length pre) (length pre + v_size x) = data_of byobjs zero x).
      { rewrite <- Hd. apply sub_app_exact. }
      rewrite Hs. unfold data_of in *. destruct (v_scalar x).
      + specialize (Hsc eq_refl). rewrite Hsc in *. split; [reflexivity|].
        destruct (if byobjs then v_val x else map (fun _ : A => zero) (v_val x)) as [|q [|]]; simpl in Hd; try lia.
        exists q. auto.
      + reflexivity.
    - specialize (IH pre mem HF' Hv Ho'). destruct (lay_out rel (length pre) vars) as [d n]. simpl in *.
      constructor; [|exact IH]. simpl. split; [reflexivity|].
      unfold holds, cell_of. simpl. destruct (v_remote x) eqn:E2; [reflexivity|].
      destruct (v_pbo x) eqn:E1; [|discriminate]. destruct (v_obj x) as [o|] eqn:Eo.
      + exists o. split; [|reflexivity]. apply (Ho x o); auto.
      + exfalso. apply Hobj; reflexivity.
  Qed.

  Lemma init_objs_keys : forall rel (vars : list (vmeta A O)) n o, In (n, o) (init_objs rel vars) -> In n (map v_name vars).
  Proof.
    intros rel. induction vars as [|x vars IH]; simpl; intros n o H; [contradiction|].
    destruct (v_obj x).
    - destruct (rel (v_name x) && (v_pbo x && negb (v_remote x)))%bool.
      + destruct H as [H|H]; [left; congruence|right; eauto].
      + right; eauto.
    - right; eauto.
  Qed.

  Lemma init_objs_get : forall rel (vars : list (vmeta A O)), NoDup (map v_name vars) ->
      forall x o, In x vars -> rel (v_name x) = true -> v_pbo x = true -> v_remote x = false ->
                   v_obj x = Some o -> sget (init_objs rel vars) (v_name x) = Some o.
  Proof.
    intros rel. induction vars as [|y vars IH]; intros Hnd x o Hin H1 H2 H3 H4; [contradiction|].
    inversion Hnd as [|? ? Hn Hnd']; subst. simpl. destruct Hin as [->|Hin].
    - rewrite H4, H1, H2, H3. unfold sget. simpl. rewrite String.eqb_refl. reflexivity.
    - destruct (v_obj y); [|eauto].
      destruct (rel (v_name y) && (v_pbo y && negb (v_remote y)))%bool; [|eauto].
      unfold sget. simpl. destruct (String.eqb_spec (v_name x) (v_name y)) as [E|E].
      + exfalso. apply Hn. rewrite <- E. apply in_map; assumption.
      + apply IH; assumption.
  Qed.

  Lemma lay_out_cells : forall rel (vars : list (vmeta A O)) k n x id,
      In (n, x) (fst (lay_out rel k vars)) -> a_loc x = LCell id -> id = n.
  Proof.
    intros rel. induction vars as [|y vars IH]; intros k n x id Hin Hl; simpl in Hin; [contradiction|].
    destruct (rel (v_name y)); [|eauto].
    destruct (negb (v_pbo y) && negb (v_remote y))%bool.
    - specialize (IH (k + v_size y)). destruct (lay_out rel (k + v_size y) vars). simpl in *.
      destruct Hin as [H|H]; [injection H as <- <-; discriminate|eauto].
    - specialize (IH k). destruct (lay_out rel k vars). simpl in *.
      destruct Hin as [H|H]; [|eauto]. injection H as <- <-. simpl in Hl.
      destruct (v_remote y); congruence.
  Qed.

  Lemma forall2_lookup : forall (P : acc -> cell -> Prop) d s,
      Forall2 (fun p q => fst p = fst q /\ P (snd p) (snd q)) d s ->
      forall n, match sget d n, sget s n with None, None => True | Some x, Some c => P x c | _, _ => False end.
  Proof.
    intros P d s H. induction H as [|[k x] [k' c] d s [H1 H2] HF IH]; intros n; [exact I|].
    simpl in H1, H2. subst k'. unfold sget in *. simpl. destruct (String.eqb n k); [assumption|]. apply IH.
  Qed.

  Lemma consec_apart : forall base st d en, consec base st d en ->
      (forall n x id, In (n, x) d -> a_loc x = LCell id -> id = n) ->
      forall n n' x y, n <> n' -> sget d n = Some x -> sget d n' = Some y -> apart x y.
  Proof.
    intros base st d en Hc Hcell n n' x y Hne Hx Hy.
    destruct (sget_nth _ _ _ _ Hx) as [i Hi]. destruct (sget_nth _ _ _ _ Hy) as [j Hj].
    pose proof (consec_nth _ _ _ _ Hc _ _ _ Hi) as Gi. pose proof (consec_nth _ _ _ _ Hc _ _ _ Hj) as Gj.
    unfold apart. destruct (a_loc x) as [a b|id|] eqn:Lx; destruct (a_loc y) as [a' b'|id'|] eqn:Ly; auto.
    - destruct (a_slice x) as [[p q]|] eqn:Sx; [|exfalso; eapply Gi; reflexivity].
      destruct (a_slice y) as [[p' q']|] eqn:Sy; [|exfalso; eapply Gj; reflexivity].
      destruct Gi as (_ & _ & _ & Gi). destruct Gj as (_ & _ & _ & Gj). injection Gi as -> ->. injection Gj as -> ->.
      destruct (Nat.lt_trichotomy i j) as [L|[L|L]].
      + pose proof (consec_order _ _ _ _ Hc _ _ _ _ _ _ _ _ _ _ Hi Hj L Sx Sy). lia.
      + subst j. congruence.
      + pose proof (consec_order _ _ _ _ Hc _ _ _ _ _ _ _ _ _ _ Hj Hi L Sy Sx). lia.
    - apply nth_error_In in Hi, Hj. rewrite (Hcell _ _ _ Hi Lx), (Hcell _ _ _ Hj Ly). assumption.
  Qed.

  Lemma setup_rel : forall zero rel byobjs vars, NoDup (map v_name vars) -> Forall good_var vars ->
      Rel (fst (setup zero rel byobjs vars)) (snd (setup zero rel byobjs vars)) (store_of byobjs zero rel vars).
  Proof.
    intros zero rel byobjs vars Hnd HF. unfold setup.
    pose proof (lay_out_consec rel vars 0 HF) as Hc.
    pose proof (lay_out_cells rel vars 0) as Hcell.
    pose proof (zeros_flat zero rel vars 0 HF) as [Hz _].
    pose proof (setup_forall2 byobjs zero rel vars []
       (mkMem (if byobjs then init_vec rel vars else repeat zero (snd (lay_out rel 0 vars))) (init_objs rel vars)) HF) as H2.
    simpl in H2. destruct (lay_out rel 0 vars) as [d n]. simpl in *. split; simpl.
    - apply forall2_lookup. apply H2.
      + destruct byobjs; [apply init_vec_flat|]. rewrite Nat.sub_0_r in Hz. exact Hz.
      + apply init_objs_get; assumption.
    - eapply consec_apart; eassumption.
  Qed.

  (** ** selections of consecutive variables *)
  Lemma consec_inv : forall base st n x d en, consec base st ((n, x) :: d) en ->
      (a_slice x = Some (st, st + a_size x) /\ a_loc x = LVec (base + st) (base + st + a_size x) /\
       (a_scalar x = true -> a_size x = 1) /\ consec base (st + a_size x) d en) \/
      (a_slice x = None /\ (forall a b, a_loc x <> LVec a b) /\ consec base st d en).
  Proof. intros base st n x d en H. inversion H; subst; [left|right]; auto. Qed.

  Lemma consec_app : forall base d1 d2 st en, consec base st (d1 ++ d2) en ->
      exists mid, consec base st d1 mid /\ consec base mid d2 en.
  Proof.
    induction d1 as [|[n x] d1 IH]; intros d2 st en H; simpl in H.
    - exists st. split; [constructor|assumption].
    - destruct (consec_inv _ _ _ _ _ _ H) as [(K1 & K2 & K3 & K4)|(K1 & K2 & K4)].
      + destruct (IH _ _ _ K4) as (mid & G1 & G2). exists mid. split; [apply cs_vec; assumption|assumption].
      + destruct (IH _ _ _ K4) as (mid & G1 & G2). exists mid. split; [apply cs_obj; assumption|assumption].
  Qed.

  Lemma sset_new : forall V (d : list (string * V)) k v, ~ In k (map fst d) -> sset d k v = d ++ [(k, v)].
  Proof.
    intros V. induction d as [|[k' v'] d IH]; intros k v H; [reflexivity|]. unfold sset in *. simpl in *.
    destruct (String.eqb_spec k k') as [->|Hk]; [exfalso; tauto|]. rewrite IH by tauto. reflexivity.
  Qed.

  Lemma view_loop_consec : forall base w vm d2 s e r vs dat,
      consec base s d2 e -> map fst vm = map fst d2 -> NoDup (map snd vm) ->
      (forall n x, In (n, x) d2 -> sget (w_dat w) n = Some x) ->
      (forall k, In k (map snd vm) -> ~ In k (map fst dat)) ->
      (match r with None => vs = 0 | Some (st, sp) => sp = s /\ st + vs = s end) ->
      exists r' dnew, view_loop w vm r vs dat = Ok (r', vs + (e - s), dat ++ dnew) /\
        map fst dnew = map snd vm /\ consec (base + (s - vs)) vs dnew (vs + (e - s)) /\
        match r' with
        | None => e = s /\ r = None /\ forall b, consec b vs dnew vs
        | Some (st, sp) => sp = e /\ st + vs = s
        end.
  Proof.
    intros base w. induction vm as [|[name pname] vm IH]; intros d2 s e r vs dat Hc Hn Hnd Hget Hdat Hr.
    - destruct d2; [|discriminate]. inversion Hc; subst. simpl. exists r, []. rewrite app_nil_r, Nat.sub_diag, Nat.add_0_r.
      split; [reflexivity|]. split; [reflexivity|]. split; [constructor|].
      destruct r as [[st sp]|]; [assumption|]. repeat split; auto. intros; constructor.
    - destruct d2 as [|[n x] d2]; [discriminate|]. simpl in Hn. injection Hn as -> Hn.
      inversion Hnd as [|? ? Hni Hnd']; subst. simpl view_loop.
      rewrite (Hget n x) by (left; reflexivity).
      assert (Hfresh : ~ In pname (map fst dat)) by (apply Hdat; left; reflexivity).
      assert (Hdat' : forall y k, In k (map snd vm) -> ~ In k (map fst (sset dat pname y))).
      { intros y k Hk. rewrite sset_new by assumption. rewrite map_app, in_app_iff. simpl.
        intros [G|[G|[]]]; [eapply Hdat; [right; exact Hk|exact G]|]. subst k. contradiction. }
      assert (Hget' : forall n0 x0, In (n0, x0) d2 -> sget (w_dat w) n0 = Some x0) by (intros; apply Hget; right; assumption).
      destruct (consec_inv _ _ _ _ _ _ Hc) as [(K1 & K2 & K3 & K4)|(K1 & K2 & K4)].
      + rewrite K1. pose proof (consec_le _ _ _ _ K4) as Hle.
        set (y := mkAcc (Some (vs, vs + a_size x)) (a_loc x) (a_scalar x) (a_size x)).
        assert (Hgo : forall st, st + vs = s ->
          exists r' dnew, view_loop w vm (Some (st, s + a_size x)) (vs + a_size x) (sset dat pname y) = Ok (r', vs + (e - s), dat ++ dnew) /\
            map fst dnew = pname :: map snd vm /\ consec (base + (s - vs)) vs dnew (vs + (e - s)) /\
            match r' with None => False | Some (st', sp) => sp = e /\ st' + vs = s end).
        { intros st Hst. assert (Hst' : st + (vs + a_size x) = s + a_size x) by lia.
          destruct (IH d2 (s + a_size x) e (Some (st, s + a_size x)) (vs + a_size x) (sset dat pname y) K4 Hn Hnd' Hget' (Hdat' y)
                      (conj eq_refl Hst')) as (r' & dnew & G1 & G2 & G3 & G4).
          exists r', ((pname, y) :: dnew). rewrite G1.
          replace (vs + a_size x + (e - (s + a_size x))) with (vs + (e - s)) by lia.
          replace (vs + a_size x + (e - (s + a_size x))) with (vs + (e - s)) in G3 by lia.
          split; [rewrite (sset_new _ dat pname y Hfresh), <- app_assoc; reflexivity|].
          split; [simpl; congruence|]. split.
          - apply cs_vec; simpl; auto.
            + rewrite K2. f_equal; lia.
            + replace (base + (s - vs)) with (base + (s + a_size x - (vs + a_size x))) by lia. exact G3.
          - destruct r' as [[st' sp]|].
            + lia.
            + destruct G4 as (_ & G & _). discriminate. }
        destruct r as [[st sp]|].
        * destruct Hr as [-> Hst]. rewrite Nat.eqb_refl.
          destruct (Hgo st Hst) as (r' & dnew & G1 & G2 & G3 & G4). exists r', dnew. simpl. 
          split; [exact G1|]. split; [exact G2|]. split; [exact G3|]. destruct r' as [[? ?]|]; [assumption|contradiction].
        * subst vs. destruct (Hgo s ltac:(lia)) as (r' & dnew & G1 & G2 & G3 & G4). exists r', dnew.
          split; [exact G1|]. split; [exact G2|]. split; [exact G3|]. destruct r' as [[? ?]|]; [assumption|contradiction].
      + rewrite K1.
        set (y := mkAcc None (a_loc x) (a_scalar x) (a_size x)).
        destruct (IH d2 s e r vs (sset dat pname y) K4 Hn Hnd' Hget' (Hdat' y) Hr) as (r' & dnew & G1 & G2 & G3 & G4).
        exists r', ((pname, y) :: dnew). 
        split; [rewrite G1, (sset_new _ dat pname y Hfresh), <- app_assoc; reflexivity|].
        split; [simpl; congruence|]. split; [apply cs_obj; simpl; auto|].
        destruct r' as [[st sp]|]; [assumption|]. destruct G4 as (-> & -> & G). repeat split.
        intros b. apply cs_obj; simpl; auto.
  Qed.

  Definition laid (w : wrapper) : Prop :=
    consec (w_base w) 0 (w_dat w) (w_size w) /\ NoDup (map fst (w_dat w)).

  Lemma setup_laid : forall zero rel byobjs (vars : list (vmeta A O)), NoDup (map v_name vars) -> Forall good_var vars ->
      laid (fst (setup zero rel byobjs vars)).
  Proof.
    intros zero rel byobjs vars Hnd HF. unfold setup, laid.
    pose proof (lay_out_consec rel vars 0 HF) as Hc. pose proof (names_lay_out rel vars 0) as Hn.
    destruct (lay_out rel 0 vars) as [d n]. simpl in *. split; [assumption|]. rewrite Hn. apply NoDup_filter_names; assumption.
  Qed.

  Lemma view_laid : forall w vm pre post, laid w -> map fst (w_dat w) = pre ++ map fst vm ++ post -> NoDup (map snd vm) ->
      exists v, get_view w vm = Ok v /\ laid v /\ map fst (w_dat v) = map snd vm /\
                w_base w <= w_base v /\ w_base v + w_size v <= w_base w + w_size w.
  Proof.
    intros w vm pre post [Hc Hnd] Hn Hs.
    assert (Hsplit : exists d1 d2 d3, w_dat w = d1 ++ d2 ++ d3 /\ map fst d2 = map fst vm).
    { symmetry in Hn. symmetry in Hn. apply map_eq_app in Hn. destruct Hn as (d1 & d23 & H1 & H2 & H3).
      apply map_eq_app in H3. destruct H3 as (d2 & d3 & H4 & H5 & H6). exists d1, d2, d3. subst. auto. }
    destruct Hsplit as (d1 & d2 & d3 & Hd & Hd2). rewrite Hd in Hc.
    apply consec_app in Hc. destruct Hc as (s & Hc1 & Hc). apply consec_app in Hc. destruct Hc as (e & Hc2 & Hc3).
    pose proof (consec_le _ _ _ _ Hc1). pose proof (consec_le _ _ _ _ Hc2). pose proof (consec_le _ _ _ _ Hc3).
    destruct (view_loop_consec (w_base w) w vm d2 s e None 0 [] Hc2 (eq_sym Hd2) Hs) as (r' & dnew & G1 & G2 & G3 & G4).
    - intros n x Hin. apply (in_dget String.eqb String.eqb_eq); [exact Hnd|]. rewrite Hd. rewrite !in_app_iff. tauto.
    - intros k _ [].
    - reflexivity.
    - unfold get_view. rewrite G1. simpl. unfold laid. rewrite Nat.sub_0_r in G3. simpl in G3.
      destruct r' as [[st sp]|].
      + destruct G4 as [-> G4]. assert (st = s) by lia. subst st. eexists. split; [reflexivity|]. simpl.
        split; [split; [exact G3|rewrite G2; assumption]|]. split; [assumption|]. lia.
      + destruct G4 as (-> & _ & G4). eexists. split; [reflexivity|]. simpl.
        split; [split; [apply G4|rewrite G2; assumption]|]. split; [assumption|]. lia.
  Qed.

  Lemma tree_chain_good : forall chain w, laid w -> tree_chain (map fst (w_dat w)) chain ->
      exists v, view_chain w chain = Ok v /\ laid v /\ w_base w <= w_base v /\ w_base v + w_size v <= w_base w + w_size w.
  Proof.
    induction chain as [|vm chain IH]; intros w Hl Ht.
    - exists w. simpl. split; [reflexivity|]. split; [assumption|]. lia.
    - simpl in Ht. destruct Ht as ((pre & post & Hn) & Hnd & Ht).
      destruct (view_laid w vm pre post Hl Hn Hnd) as (u & G1 & G2 & G3 & G4 & G5).
      rewrite <- G3 in Ht. destruct (IH u G2 Ht) as (v & K1 & K2 & K3 & K4).
      exists v. simpl. rewrite G1. simpl. split; [exact K1|]. split; [exact K2|]. lia.
  Qed.

  Lemma tree_chain_nodup : forall chain names, tree_chain names chain -> Forall (fun vm => NoDup (map snd vm)) chain.
  Proof. induction chain; intros names H; constructor; simpl in H; [tauto|]. eapply IHchain. apply H. Qed.

  (** the vector of a wrapper is the numbers of its variables in order *)
  Lemma consec_numbers : forall base d (m : memory) st en, consec base st d en -> base + en <= length (m_vec m) ->
      sub (m_vec m) (base + st) (base + en) =
      concat (map (fun p => match acc_get (snd p) m with Ok v => numbers v | Err _ => [] end) d).
  Proof.
    intros base d m st en H. induction H; intros Hlen; simpl.
    - unfold sub. rewrite Nat.sub_diag. reflexivity.
    - pose proof (consec_le _ _ _ _ H2). rewrite (sub_split _ _ (base + (st + a_size x))) by lia. f_equal; [|auto].
      unfold acc_get. rewrite H0. rewrite Nat.add_assoc. destruct (a_scalar x).
      + specialize (H1 eq_refl). pose proof (sub_length (m_vec m) (base + st) (base + st + a_size x) ltac:(lia)) as L.
        destruct (sub (m_vec m) (base + st) (base + st + a_size x)) as [|q [|]]; simpl in L; try lia. reflexivity.
      + reflexivity.
    - rewrite IHconsec by assumption.
      assert (match acc_get x m with Ok v => numbers v | Err _ => [] end = []) as ->; [|reflexivity].
      unfold acc_get. destruct (a_loc x).
      + exfalso. eapply H0. reflexivity.
      + destruct (sget (m_objs m) id); reflexivity.
      + reflexivity.
  Qed.

  Lemma map_w_get : forall w (m : memory) d, (forall n x, In (n, x) d -> sget (w_dat w) n = Some x) ->
      map (fun p => match acc_get (snd p) m with Ok v => numbers v | Err _ => [] end) d =
      map (fun n => match w_get w m n with Ok v => numbers v | Err _ => [] end) (map fst d).
  Proof.
    intros w m d H. induction d as [|[n x] d IH]; [reflexivity|]. simpl. f_equal.
    - unfold w_get. rewrite (H n x) by (left; reflexivity). reflexivity.
    - apply IH. intros; apply H; right; assumption.
  Qed.

  Lemma laid_numbers : forall w (m : memory), laid w -> w_base w + w_size w <= length (m_vec m) ->
      w_vec w m = all_numbers w m.
  Proof.
    intros w m [Hc Hnd] Hl. unfold w_vec, all_numbers.
    pose proof (consec_numbers _ _ m _ _ Hc Hl) as H. rewrite Nat.add_0_r in H. rewrite H. f_equal.
    apply map_w_get. intros n x Hin. apply (in_dget String.eqb String.eqb_eq); assumption.
  Qed.

  Lemma laid_owned : forall w, laid w -> forall i, i < w_size w -> exists n, owns w n i /\ forall n', owns w n' i -> n' = n.
  Proof.
    intros w [Hc Hnd] i Hi.
    destruct (consec_cover _ _ _ _ Hc i ltac:(lia)) as (k & n & x & a & b & H1 & H2 & H3).
    exists n. split; [exists x, a, b; split; [eapply nth_sget; eassumption|auto]|].
    intros n' (y & a' & b' & G1 & G2 & G3). destruct (sget_nth _ _ _ _ G1) as [j Hj].
    destruct (Nat.lt_trichotomy k j) as [L|[L|L]].
    - pose proof (consec_order _ _ _ _ Hc _ _ _ _ _ _ _ _ _ _ H1 Hj L H2 G2). lia.
    - subst j. congruence.
    - pose proof (consec_order _ _ _ _ Hc _ _ _ _ _ _ _ _ _ _ Hj H1 L G2 H2). lia.
  Qed.

  Lemma laid_inside : forall w n i, laid w -> owns w n i -> i < w_size w.
  Proof.
    intros w n i [Hc _] (x & a & b & H1 & H2 & H3). destruct (sget_nth _ _ _ _ H1) as [k Hk].
    pose proof (consec_nth _ _ _ _ Hc _ _ _ Hk) as G. rewrite H2 in G. lia.
  Qed.

  Lemma laid_ordered : forall w k k' n n' i i', laid w -> k < k' ->
      nth_error (map fst (w_dat w)) k = Some n -> nth_error (map fst (w_dat w)) k' = Some n' ->
      owns w n i -> owns w n' i' -> i < i'.
  Proof.
    intros w k k' n n' i i' [Hc Hnd] Hk H1 H2 (x & a & b & G1 & G2 & G3) (y & a' & b' & K1 & K2 & K3).
    rewrite nth_error_map in H1, H2.
    destruct (nth_error (w_dat w) k) as [[m0 x0]|] eqn:E1; [|discriminate]. simpl in H1. injection H1 as ->.
    destruct (nth_error (w_dat w) k') as [[m1 y1]|] eqn:E2; [|discriminate]. simpl in H2. injection H2 as ->.
    pose proof (nth_sget _ _ _ _ _ Hnd E1) as S1. pose proof (nth_sget _ _ _ _ _ Hnd E2) as S2.
    assert (x0 = x) by congruence. assert (y1 = y) by congruence. subst.
    pose proof (consec_order _ _ _ _ Hc _ _ _ _ _ _ _ _ _ _ E1 E2 Hk G2 K2). lia.
  Qed.

  (** a whole-vector write through a view *)
  Lemma vec_set_frame : forall (m : memory) v xs, laid v -> w_base v + w_size v <= length (m_vec m) -> length xs = w_size v ->
      w_vec v (w_vec_set v m xs) = xs /\
      (forall x c, match a_loc x with LVec a b => b <= w_base v \/ w_base v + w_size v <= a | _ => True end ->
                   holds x m c -> holds x (w_vec_set v m xs) c).
  Proof.
    intros m v xs Hl Hb Hx. unfold w_vec, w_vec_set. simpl. split; [apply sub_splice_same; lia|].
    intros x c Ha Hh. unfold holds in *. destruct (a_loc x); simpl; auto.
    rewrite splice_length by lia. rewrite sub_splice_other by lia. assumption.
  Qed.

  (** ** summary lemmas *)
    Lemma refine_all : forall zero rel byobjs (vars : list (vmeta A O)) es, NoDup (map v_name vars) -> Forall good_var vars ->
      Forall (fun e => good_chain (fst (setup zero rel byobjs vars)) (fst e)) es ->
      let '(w, m) := setup zero rel byobjs vars in
      snd (vec_run w m es) = snd (spec_run (store_of byobjs zero rel vars) es).
  Proof.
    intros zero rel byobjs vars es Hnd HF He.
    pose proof (setup_rel zero rel byobjs vars Hnd HF) as HR.
    destruct (setup zero rel byobjs vars) as [w m]. simpl in *. apply run_refines; assumption.
  Qed.

  Lemma refine_tree : forall zero rel byobjs (vars : list (vmeta A O)) es, NoDup (map v_name vars) -> Forall good_var vars ->
      Forall (fun e => tree_chain (map v_name (filter (fun m => rel (v_name m)) vars)) (fst e)) es ->
      let '(w, m) := setup zero rel byobjs vars in
      snd (vec_run w m es) = snd (spec_run (store_of byobjs zero rel vars) es).
  Proof.
    intros zero rel byobjs vars es Hnd HF He. apply refine_all; [assumption|assumption|].
    pose proof (setup_laid zero rel byobjs vars Hnd HF) as Hl.
    assert (Hn : map fst (w_dat (fst (setup zero rel byobjs vars))) = map v_name (filter (fun m => rel (v_name m)) vars)).
    { unfold setup. pose proof (names_lay_out rel vars 0) as Hn. destruct (lay_out rel 0 vars). exact Hn. }
    rewrite <- Hn in He. eapply Forall_impl; [|exact He]. intros e Ht. split.
    - destruct (tree_chain_good _ _ Hl Ht) as (v & Hv & _). exists v. exact Hv.
    - eapply tree_chain_nodup. exact Ht.
  Qed.

  Lemma run_mem_length : forall es w m s, Rel w m s -> Forall (fun e => good_chain w (fst e)) es ->
      length (m_vec (fst (vec_run w m es))) = length (m_vec m).
  Proof.
    induction es as [|e es IH]; intros w m s HR HF; [reflexivity|]. inversion HF; subst.
    destruct (step_refines w m s e HR H1) as (m' & s' & o & H3 & H4 & H5).
    simpl. rewrite H3. specialize (IH w m' s' H5 H2). destruct (vec_run w m' es). simpl in *. rewrite IH.
    destruct e as [chain act]. unfold vec_step in H3. destruct (view_chain w chain) as [v|] eqn:Ev; [|congruence].
    destruct act as [n|n x]; [congruence|].
    destruct H1 as [_ Hnd]. pose proof (view_chain_key _ _ _ Ev Hnd n) as Hk.
    unfold w_set in H3. destruct (sget (w_dat v) n) as [xv|].
    - destruct (root_name chain n) as [r|]; [|discriminate].
      destruct (sget (w_dat w) r) as [xw|] eqn:Er; [|discriminate]. cbn [option_map] in Hk.
      rewrite (acc_set_key xv xw) in H3 by congruence.
      destruct (rel_set w m s r x HR) as (m2 & s2 & q & Hw & _ & _ & HL). unfold w_set in Hw. rewrite Er in Hw.
      rewrite Hw in H3. injection H3 as <- _. exact HL.
    - congruence.
  Qed.

  Lemma view_vec : forall zero rel byobjs (vars : list (vmeta A O)) es chain v, NoDup (map v_name vars) -> Forall good_var vars ->
      (forall e, In e ((chain, AGet "" ) :: es) -> tree_chain (map v_name (filter (fun m => rel (v_name m)) vars)) (fst e)) ->
      let '(w, m) := setup zero rel byobjs vars in
      view_chain w chain = Ok v ->
      w_vec v (fst (vec_run w m es)) = all_numbers v (fst (vec_run w m es)).
  Proof.
    intros zero rel byobjs vars es chain v Hnd HF He.
    pose proof (setup_laid zero rel byobjs vars Hnd HF) as Hl.
    pose proof (setup_rel zero rel byobjs vars Hnd HF) as HR.
    assert (Hn : map fst (w_dat (fst (setup zero rel byobjs vars))) = map v_name (filter (fun m => rel (v_name m)) vars)).
    { unfold setup. pose proof (names_lay_out rel vars 0) as Hn. destruct (lay_out rel 0 vars). exact Hn. }
    assert (Hlen : w_base (fst (setup zero rel byobjs vars)) + w_size (fst (setup zero rel byobjs vars)) <= length (m_vec (snd (setup zero rel byobjs vars)))).
    { unfold setup. pose proof (zeros_flat zero rel vars 0 HF) as [Hz _]. rewrite Nat.sub_0_r in Hz.
      pose proof (init_vec_flat rel vars) as Hi.
      assert (length (flat_init v_val rel vars) = length (flat_init (data_of false zero) rel vars)) as Hq.
      { clear. unfold flat_init. induction (filter _ vars) as [|x l IH]; [reflexivity|]. simpl. rewrite !app_length.
        unfold data_of at 1. rewrite map_length. f_equal. exact IH. }
      destruct (lay_out rel 0 vars) as [d n]. simpl in *. destruct byobjs; [|rewrite repeat_length; lia].
      rewrite Hi, Hq, <- Hz, repeat_length. lia. }
    rewrite <- Hn in He. destruct (setup zero rel byobjs vars) as [w m]. simpl in *. intros Hv.
    destruct (tree_chain_good chain w Hl (He _ (or_introl eq_refl))) as (v' & K1 & K2 & K3 & K4).
    assert (v' = v) by congruence. subst v'.
    apply laid_numbers; [assumption|]. rewrite (run_mem_length es w m _ HR).
    - lia.
    - apply Forall_forall. intros e Hin. specialize (He e (or_intror Hin)). split.
      + destruct (tree_chain_good _ _ Hl He) as (u & Hu & _). exists u. exact Hu.
      + eapply tree_chain_nodup. exact He.
  Qed.
End Proofs.

(** ** step limits *)
Local Open Scope Q_scope.

Lemma fdiv_ge0 : forall x y, f_ge0 (fdiv x y) = true ->
    (y == 0 /\ fdiv x y = PInf) \/ (~ y == 0 /\ fdiv x y = Fin (x / y) /\ 0 <= x / y).
Proof.
  intros x y. unfold fdiv. destruct (Qeq_bool y 0) eqn:E.
  - apply Qeq_bool_eq in E. destruct (Qeq_bool x 0); [discriminate|]. destruct (Qle_bool 0 x); [|discriminate]. auto.
  - apply Qeq_bool_neq in E. simpl. intros H. apply Qle_bool_iff in H. auto.
Qed.

Lemma fdiv_lt0 : forall x y, f_ge0 (fdiv x y) = false -> y == 0 \/ (~ y == 0 /\ x / y < 0).
Proof.
  intros x y. unfold fdiv. destruct (Qeq_bool y 0) eqn:E.
  - apply Qeq_bool_eq in E. auto.
  - apply Qeq_bool_neq in E. simpl. intros H. right. split; [assumption|]. apply Qnot_le_lt. intros G.
    apply Qle_bool_iff in G. congruence.
Qed.

(** what one bound does to the step of an entry which respects it *)
Lemma limit_upper_cases : forall u v d a, v <= u -> 0 <= a ->
    exists b, limit_upper u v d (Fin a) = Fin b /\ 0 <= b <= a /\ v + b * d <= u /\
      (~ d == 0 -> u == v -> b == 0) /\
      (~ (u == v /\ d < 0) -> forall c, 0 <= c <= a -> v + c * d <= u -> c <= b).
Proof.
  intros u v d a Hv Ha. unfold limit_upper.
  destruct (Qle_bool 0 (u - v)) eqn:E; simpl.
  2:{ exfalso. assert (0 <= u - v) as G by lra. apply Qle_bool_iff in G. congruence. }
  destruct (f_ge0 (fdiv (u - v) d)) eqn:Eg.
  - apply fdiv_ge0 in Eg. destruct Eg as [[Hd ->]|[Hd [-> Hq]]].
    + exists a. simpl. split; [reflexivity|]. rewrite Hd. repeat split; try lra; intros; tauto || lra.
    + simpl. assert (Hm : (u - v) / d * d == u - v) by (field; assumption).
      destruct (Qle_bool a ((u - v) / d)) eqn:El; simpl.
      * apply Qle_bool_iff in El. exists a. split; [reflexivity|]. split; [lra|].
        split; [nra|]. split; [|intros; lra].
        intros _ Huv. assert ((u - v) / d == 0) as G by (setoid_rewrite Huv; field; assumption). lra.
      * assert (Hlt : (u - v) / d < a).
        { apply Qnot_le_lt. intros G. apply Qle_bool_iff in G. congruence. }
        exists ((u - v) / d). split; [reflexivity|]. split; [lra|]. split; [lra|]. split.
        -- intros _ Huv. setoid_rewrite Huv. field. assumption.
        -- intros Hn c Hc Hcu. destruct (Qlt_le_dec d 0) as [Hneg|Hpos].
           ++ exfalso. apply Hn. split; [|assumption]. assert (u - v <= 0) by nra. lra.
           ++ assert (0 < d) by (destruct (Qle_lt_or_eq _ _ Hpos); [assumption|exfalso; apply Hd; lra]).
              set (q := (u - v) / d) in *. nra.
  - apply fdiv_lt0 in Eg. exists a. split; [reflexivity|]. split; [lra|]. destruct Eg as [Hd|[Hd Hq]].
    + rewrite Hd. repeat split; try lra. intros; tauto.
    + assert (Hm : (u - v) / d * d == u - v) by (field; assumption). set (q := (u - v) / d) in *.
      split; [nra|]. split; [|intros; lra]. intros _ Huv. exfalso.
      assert (q == 0) as G by (unfold q; setoid_rewrite Huv; field; assumption). lra.
Qed.

Lemma limit_lower_cases : forall l v d a, l <= v -> 0 <= a ->
    exists b, limit_lower l v d (Fin a) = Fin b /\ 0 <= b <= a /\ l <= v + b * d /\
      (~ d == 0 -> l == v -> b == 0) /\
      (~ (l == v /\ 0 < d) -> forall c, 0 <= c <= a -> l <= v + c * d -> c <= b).
Proof.
  intros l v d a Hv Ha. unfold limit_lower.
  destruct (Qle_bool (l - v) 0) eqn:E; simpl.
  2:{ exfalso. assert (l - v <= 0) as G by lra. apply Qle_bool_iff in G. congruence. }
  destruct (f_ge0 (fdiv (l - v) d)) eqn:Eg.
  - apply fdiv_ge0 in Eg. destruct Eg as [[Hd ->]|[Hd [-> Hq]]].
    + exists a. simpl. split; [reflexivity|]. rewrite Hd. repeat split; try lra; intros; tauto || lra.
    + simpl. assert (Hm : (l - v) / d * d == l - v) by (field; assumption).
      destruct (Qle_bool a ((l - v) / d)) eqn:El; simpl.
      * apply Qle_bool_iff in El. exists a. split; [reflexivity|]. split; [lra|].
        split; [nra|]. split; [|intros; lra].
        intros _ Huv. assert ((l - v) / d == 0) as G by (setoid_rewrite Huv; field; assumption). lra.
      * assert (Hlt : (l - v) / d < a).
        { apply Qnot_le_lt. intros G. apply Qle_bool_iff in G. congruence. }
        exists ((l - v) / d). split; [reflexivity|]. split; [lra|]. split; [lra|]. split.
        -- intros _ Huv. setoid_rewrite Huv. field. assumption.
        -- intros Hn c Hc Hcu. destruct (Qlt_le_dec 0 d) as [Hpos|Hneg].
           ++ exfalso. apply Hn. split; [|assumption]. assert (0 <= l - v) by nra. lra.
           ++ assert (d < 0) by (destruct (Qle_lt_or_eq _ _ Hneg); [assumption|exfalso; apply Hd; lra]).
              set (q := (l - v) / d) in *. nra.
  - apply fdiv_lt0 in Eg. exists a. split; [reflexivity|]. split; [lra|]. destruct Eg as [Hd|[Hd Hq]].
    + rewrite Hd. repeat split; try lra. intros; tauto.
    + assert (Hm : (l - v) / d * d == l - v) by (field; assumption). set (q := (l - v) / d) in *.
      split; [nra|]. split; [|intros; lra]. intros _ Huv. exfalso.
      assert (q == 0) as G by (unfold q; setoid_rewrite Huv; field; assumption). lra.
Qed.

Definition limited (e : entry4) (a0 : Q) (r : fl) : Prop :=
  exists a, r = Fin a /\ 0 <= a <= a0 /\ within e (moved e a) /\ (on_bound e -> a == 0) /\
            (~ leaving_bound e -> largest_step e a0 a).

Definition limit_entry (e : entry4) (al : fl) : fl :=
  let '(lo, up, v, d) := e in
  let a1 := match up with None => al | Some u => limit_upper u v d al end in
  match lo with None => a1 | Some l => limit_lower l v d a1 end.

Lemma limit_entry_ok : forall e a0, within e (moved e 0) -> 0 <= a0 -> limited e a0 (limit_entry e (Fin a0)).
Proof.
  intros [[[lo up] v] d] a0 [Hlo Hup] Ha. unfold limit_entry, limited. simpl in Hlo, Hup.
  assert (H1 : exists b1, match up with None => Fin a0 | Some u => limit_upper u v d (Fin a0) end = Fin b1 /\ 0 <= b1 <= a0 /\
     (forall u, up = Some u -> v + b1 * d <= u) /\ (forall u, up = Some u -> ~ d == 0 -> u == v -> b1 == 0) /\
     (~ (exists u, up = Some u /\ u == v /\ d < 0) -> forall c, 0 <= c <= a0 -> (forall u, up = Some u -> v + c * d <= u) -> c <= b1)).
  { destruct up as [u|].
    - destruct (limit_upper_cases u v d a0) as (b & G1 & G2 & G3 & G4 & G5); [specialize (Hup u eq_refl); lra|assumption|].
      exists b. split; [exact G1|]. split; [exact G2|]. split; [intros ? E; injection E as <-; exact G3|].
      split; [intros ? E; injection E as <-; exact G4|]. intros Hn c Hc Hcu. apply G5; auto.
      intros [K1 K2]. apply Hn. exists u. auto.
    - exists a0. split; [reflexivity|]. split; [lra|]. split; [discriminate|]. split; [discriminate|]. intros; lra. }
  destruct H1 as (b1 & -> & B1 & B2 & B3 & B4).
  assert (H2 : exists b, match lo with None => Fin b1 | Some l => limit_lower l v d (Fin b1) end = Fin b /\ 0 <= b <= b1 /\
     (forall l, lo = Some l -> l <= v + b * d) /\ (forall l, lo = Some l -> ~ d == 0 -> l == v -> b == 0) /\
     (~ (exists l, lo = Some l /\ l == v /\ 0 < d) -> forall c, 0 <= c <= b1 -> (forall l, lo = Some l -> l <= v + c * d) -> c <= b)).
  { destruct lo as [l|].
    - destruct (limit_lower_cases l v d b1) as (b & G1 & G2 & G3 & G4 & G5); [specialize (Hlo l eq_refl); lra|lra|].
      exists b. split; [exact G1|]. split; [exact G2|]. split; [intros ? E; injection E as <-; exact G3|].
      split; [intros ? E; injection E as <-; exact G4|]. intros Hn c Hc Hcu. apply G5; auto.
      intros [K1 K2]. apply Hn. exists l. auto.
    - exists b1. split; [reflexivity|]. split; [lra|]. split; [discriminate|]. split; [discriminate|]. intros; lra. }
  destruct H2 as (b & -> & C1 & C2 & C3 & C4).
  assert (Hw : within (lo, up, v, d) (v + b * d)).
  { split; [exact C2|]. intros u Hu. specialize (B2 u Hu). specialize (Hup u Hu).
    destruct (Qlt_le_dec d 0); nra. }
  exists b. split; [reflexivity|]. split; [lra|]. split; [exact Hw|]. split.
  - intros [Hd [[l [E1 E2]]|[u [E1 E2]]]].
    + eapply C3; eassumption.
    + assert (b1 == 0) by (eapply B3; eassumption). lra.
  - intros Hnl. split; [lra|]. split; [exact Hw|]. intros c Hc [W1 W2]. simpl in W1, W2.
    apply C4; [intros K; apply Hnl; left; exact K| |exact W1].
    split; [lra|]. apply B4; [intros K; apply Hnl; right; exact K|assumption|exact W2].
Qed.

Lemma limit_list_nth : forall f bs vs ds al j b v d a,
    nth_error bs j = Some b -> nth_error vs j = Some v -> nth_error ds j = Some d -> nth_error al j = Some a ->
    nth_error (limit_list f bs vs ds al) j = Some (f b v d a).
Proof.
  intros f. induction bs as [|b0 bs IH]; intros vs ds al j b v d a Hb Hv Hd Ha; [destruct j; discriminate|].
  destruct vs as [|v0 vs]; [destruct j; discriminate|]. destruct ds as [|d0 ds]; [destruct j; discriminate|].
  destruct al as [|a0' al]; [destruct j; discriminate|]. destruct j; simpl in *.
  - congruence.
  - apply IH; assumption.
Qed.

Lemma limit_list_length : forall f bs vs ds al, length (limit_list f bs vs ds al) = length al.
Proof.
  intros f. induction bs as [|b0 bs IH]; intros [|v0 vs] [|d0 ds] [|a0 al]; simpl; try reflexivity. f_equal. apply IH.
Qed.

Lemma nth_same_len : forall X Y (l : list X) (l' : list Y) j x, length l' = length l -> nth_error l j = Some x ->
    exists y, nth_error l' j = Some y.
Proof.
  intros X Y l l' j x Hl H. destruct (nth_error l' j) eqn:E; [eauto|]. apply nth_error_None in E.
  assert (j < length l)%nat by (apply nth_error_Some; congruence). lia.
Qed.

Lemma limit_var_nth : forall x al out, good_dvar x -> d_remote_key x = false -> d_pbo_key x = false ->
    limit_var x al = Ok out -> length out = length al /\
    forall j e a, dentry x j e -> nth_error al j = Some a -> nth_error out j = Some (limit_entry e a).
Proof.
  intros x al out (G1 & G2 & G3) Hr Hp H. unfold limit_var in H. rewrite Hr, Hp in H. cbn [orb] in H.
  assert (H1 : exists a1, match d_upper x with None => Ok al
     | Some u => if Nat.leb 2 (d_ndim x) then Err ValueError else Ok (limit_list limit_upper u (d_val x) (d_du x) al) end = Ok a1 /\
     length a1 = length al /\
     forall j v d a, nth_error (d_val x) j = Some v -> nth_error (d_du x) j = Some d -> nth_error al j = Some a ->
       nth_error a1 j = Some (match opt_at (d_upper x) j with None => a | Some u => limit_upper u v d a end)).
  { destruct (d_upper x) as [u|].
    - destruct (Nat.leb 2 (d_ndim x)). { cbn [bind] in H. discriminate H. } eexists. split; [reflexivity|]. split; [apply limit_list_length|].
      intros j v d a Hv Hd Ha. destruct (nth_same_len _ _ _ u j v (G2 u eq_refl) Hv) as [b Hb].
      simpl. rewrite Hb. apply limit_list_nth; assumption.
    - eexists. split; [reflexivity|]. split; [reflexivity|]. intros. simpl. assumption. }
  destruct H1 as (a1 & E1 & L1 & N1). rewrite E1 in H. cbn [bind] in H. clear E1.
  destruct (d_lower x) as [l|] eqn:El.
  - destruct (Nat.leb 2 (d_ndim x)); [discriminate|]. injection H as <-. split; [rewrite limit_list_length; assumption|].
    intros j e a (v & d & Hv & Hd & ->) Ha. destruct (nth_same_len _ _ _ l j v (G3 l eq_refl) Hv) as [b Hb].
    unfold limit_entry. rewrite El. simpl. rewrite Hb. apply limit_list_nth; auto.
  - injection H as <-. split; [assumption|]. intros j e a (v & d & Hv & Hd & ->) Ha.
    unfold limit_entry. rewrite El. simpl. auto.
Qed.

Lemma limit_var_len : forall x al out, limit_var x al = Ok out -> length out = length al.
Proof.
  intros x al out H. unfold limit_var in H. destruct (d_remote_key x || d_pbo_key x)%bool; [congruence|].
  destruct (Nat.leb 2 (d_ndim x)); destruct (d_upper x); cbn [bind] in H; try discriminate;
    (destruct (d_lower x); try discriminate); injection H as <-; rewrite ?limit_list_length; reflexivity.
Qed.

Lemma nth_firstn : forall X (l : list X) n j, (j < n)%nat -> nth_error (firstn n l) j = nth_error l j.
Proof.
  intros X. induction l; intros n j H; destruct n; try lia; destruct j; simpl; auto. apply IHl. lia.
Qed.
Lemma nth_skipn : forall X (l : list X) n j, nth_error (skipn n l) j = nth_error l (n + j).
Proof.
  intros X. induction l; intros n j; destruct n; simpl; auto. destruct j; reflexivity.
Qed.

Lemma limit_all_nth : forall vars al out k x, limit_all vars al = Ok out ->
    length al = list_sum (map (fun x => length (d_val x)) vars) -> nth_error vars k = Some x ->
    exists mine, limit_var x (firstn (length (d_val x)) (skipn (vec_index vars k 0) al)) = Ok mine /\
      forall j, (j < length (d_val x))%nat -> nth_error out (vec_index vars k j) = nth_error mine j.
Proof.
  induction vars as [|y vars IH]; intros al out k x H Hl Hk; [destruct k; discriminate|].
  simpl in H. destruct (limit_var y (firstn (length (d_val y)) al)) as [mine|] eqn:E1; [|discriminate]. simpl in H.
  destruct (limit_all vars (skipn (length (d_val y)) al)) as [others|] eqn:E2; [|discriminate]. simpl in H. injection H as <-.
  simpl in Hl. pose proof (limit_var_len _ _ _ E1) as Lm. rewrite firstn_length in Lm.
  destruct k; simpl in Hk.
  - injection Hk as <-. exists mine. unfold vec_index. simpl. split; [assumption|]. intros j Hj.
    apply nth_error_app1. lia.
  - destruct (IH _ others k x E2) as (m & G1 & G2); [rewrite skipn_length; lia|assumption|].
    exists m. unfold vec_index in *. simpl in *. rewrite skipn_skipn in G1. split.
    + rewrite <- G1. f_equal. f_equal. f_equal. lia.
    + intros j Hj. rewrite <- G2 by assumption. rewrite nth_error_app2 by lia. f_equal. lia.
Qed.

Lemma limit_all_entry : forall vars al out k j x e a, limit_all vars al = Ok out ->
    length al = list_sum (map (fun x => length (d_val x)) vars) ->
    Forall good_dvar vars -> nth_error vars k = Some x -> d_remote_key x = false -> d_pbo_key x = false ->
    dentry x j e -> nth_error al (vec_index vars k j) = Some a ->
    nth_error out (vec_index vars k j) = Some (limit_entry e a).
Proof.
  intros vars al out k j x e a H Hl HF Hk Hr Hp He Ha.
  destruct (limit_all_nth _ _ _ _ _ H Hl Hk) as (mine & G1 & G2).
  assert (Hg : good_dvar x) by (eapply Forall_forall; [exact HF|eapply nth_error_In; eassumption]).
  assert (Hj : (j < length (d_val x))%nat) by (destruct He as (v & d & Hv & _); apply nth_error_Some; congruence).
  rewrite G2 by assumption. apply (limit_var_nth _ _ _ Hg Hr Hp G1); [assumption|].
  rewrite nth_firstn by assumption. rewrite nth_skipn. rewrite <- Ha. f_equal. unfold vec_index. lia.
Qed.

Lemma step_safe : forall vars a0s out k j x e a0,
    limit_all vars (map Fin a0s) = Ok out ->
    length a0s = list_sum (map (fun x => length (d_val x)) vars) ->
    Forall good_dvar vars -> nth_error vars k = Some x -> d_remote_key x = false -> d_pbo_key x = false ->
    dentry x j e -> nth_error a0s (vec_index vars k j) = Some a0 -> 0 <= a0 -> within e (moved e 0) ->
    exists a, nth_error out (vec_index vars k j) = Some (Fin a) /\ 0 <= a <= a0 /\ within e (moved e a) /\
              (on_bound e -> a == 0) /\ (~ leaving_bound e -> largest_step e a0 a).
Proof.
  intros vars a0s out k j x e a0 H Hl HF Hk Hr Hp He Ha H0 Hw.
  rewrite (limit_all_entry vars (map Fin a0s) out k j x e (Fin a0)); try assumption.
  - destruct (limit_entry_ok e a0 Hw H0) as (a & -> & G). exists a. split; [reflexivity|exact G].
  - rewrite map_length. assumption.
  - rewrite nth_error_map, Ha. reflexivity.
Qed.

(** a violated bound *)
Lemma Qltb_true : forall a b, a < b -> Qle_bool b a = false.
Proof. intros a b H. destruct (Qle_bool b a) eqn:E; [|reflexivity]. apply Qle_bool_iff in E. lra. Qed.

Lemma fdiv_fin : forall x d, ~ d == 0 -> fdiv x d = Fin (x / d).
Proof. intros x d H. unfold fdiv. destruct (Qeq_bool d 0) eqn:E; [apply Qeq_bool_iff in E; contradiction|reflexivity]. Qed.

Lemma limit_above : forall lo u v d al, ~ d == 0 -> u < v -> (forall l, lo = Some l -> l <= u) ->
    exists a, limit_entry (lo, Some u, v, d) al = Fin a /\ v + a * d == u.
Proof.
  intros lo u v d al Hd Hv Hl. unfold limit_entry.
  assert (E : limit_upper u v d al = Fin ((u - v) / d)).
  { unfold limit_upper. cbv zeta. rewrite Qltb_true by lra. apply fdiv_fin. assumption. }
  rewrite E. exists ((u - v) / d). split; [|field; assumption].
  destruct lo as [l|]; [|reflexivity]. specialize (Hl l eq_refl).
  unfold limit_lower. cbv zeta. rewrite fdiv_fin by assumption.
  rewrite (proj2 (Qle_bool_iff (l - v) 0)) by lra. cbn [negb f_ge0].
  destruct (Qle_bool 0 ((l - v) / d)) eqn:E2; [|reflexivity]. cbn [f_lt].
  destruct (Qle_bool ((u - v) / d) ((l - v) / d)) eqn:E3; [reflexivity|]. exfalso.
  apply Qle_bool_iff in E2. assert (E4 : (l - v) / d < (u - v) / d).
  { apply Qnot_le_lt. intros G. apply Qle_bool_iff in G. congruence. }
  assert (G1 : (l - v) / d * d == l - v) by (field; assumption).
  assert (G2 : (u - v) / d * d == u - v) by (field; assumption).
  destruct (Qlt_le_dec d 0) as [Hn|Hn]; nra.
Qed.

Lemma limit_below : forall l up v d al, ~ d == 0 -> v < l ->
    exists a, limit_entry (Some l, up, v, d) al = Fin a /\ v + a * d == l.
Proof.
  intros l up v d al Hd Hv. unfold limit_entry, limit_lower. cbv zeta. rewrite fdiv_fin by assumption.
  rewrite (Qltb_true 0 (l - v)) by lra. cbn [negb]. exists ((l - v) / d). split; [reflexivity|]. field. assumption.
Qed.

Lemma step_outside : forall vars al out k j x lo up v d a0,
    limit_all vars al = Ok out ->
    length al = list_sum (map (fun x => length (d_val x)) vars) ->
    Forall good_dvar vars -> nth_error vars k = Some x -> d_remote_key x = false -> d_pbo_key x = false ->
    dentry x j (lo, up, v, d) -> nth_error al (vec_index vars k j) = Some a0 -> ~ d == 0 ->
    (forall l u, lo = Some l -> up = Some u -> l <= u) ->
    (forall u, up = Some u -> u < v -> exists a, nth_error out (vec_index vars k j) = Some (Fin a) /\ v + a * d == u) /\
    (forall l, lo = Some l -> v < l -> exists a, nth_error out (vec_index vars k j) = Some (Fin a) /\ v + a * d == l).
Proof.
  intros vars al out k j x lo up v d a0 H Hl HF Hk Hr Hp He Ha Hd Hb.
  rewrite (limit_all_entry vars al out k j x _ a0 H Hl HF Hk Hr Hp He Ha). split.
  - intros u -> Hv. destruct (limit_above lo u v d a0 Hd Hv (fun l E => Hb l u E eq_refl)) as (a & -> & G).
    exists a. split; [reflexivity|assumption].
  - intros l -> Hv. destruct (limit_below l up v d a0 Hd Hv) as (a & -> & G). exists a. split; [reflexivity|assumption].
Qed.

Lemma limit_defined : forall vars al, Forall (fun x => (d_ndim x < 2)%nat) vars -> exists out, limit_all vars al = Ok out.
Proof.
  induction vars as [|x vars IH]; intros al HF; [eexists; reflexivity|]. inversion HF; subst. simpl.
  assert (exists mine, limit_var x (firstn (length (d_val x)) al) = Ok mine) as [mine ->].
  { unfold limit_var. destruct (d_remote_key x || d_pbo_key x)%bool; [eexists; reflexivity|].
    rewrite (proj2 (Nat.leb_gt 2 (d_ndim x))) by assumption.
    destruct (d_upper x), (d_lower x); simpl; eexists; reflexivity. }
  simpl. destruct (IH (skipn (length (d_val x)) al) H2) as [o ->]. simpl. eexists; reflexivity.
Qed.

Lemma limit_two_dim : forall x vars al, (2 <= d_ndim x)%nat -> d_remote_key x = false -> d_pbo_key x = false ->
    (d_upper x <> None \/ d_lower x <> None) -> limit_all (x :: vars) al = Err ValueError.
Proof.
  intros x vars al Hn Hr Hp Hb. cbn [limit_all]. unfold limit_var. rewrite Hr, Hp. cbn [orb].
  rewrite (proj2 (Nat.leb_le 2 (d_ndim x))) by assumption.
  destruct (d_upper x); [reflexivity|]. destruct (d_lower x); [reflexivity|]. destruct Hb; congruence.
Qed.

(** at its upper bound with a direction pointing inside: the entry cannot move *)
Definition stuck : dvar := mkD false false 0 (Some [1]) (Some [0]) [1] [-1].
Lemma step_stuck : exists x e a0 a, good_dvar x /\ dentry x 0 e /\ within e (moved e 0) /\ 0 <= a0 /\
    limit_all [x] [Fin a0] = Ok [Fin a] /\ ~ largest_step e a0 a.
Proof.
  exists stuck, (Some 0, Some 1, 1, -1), 1, (0 # 1). split.
  - split; [reflexivity|]. split; intros l H; injection H as <-; reflexivity.
  - split; [exists 1, (-1); repeat split|]. split; [split; intros ? E; injection E as <-; simpl; lra|]. split; [lra|].
    split; [vm_compute; reflexivity|]. intros (_ & _ & H). specialize (H 1). simpl in H.
    assert (1 <= 0) by (apply H; [lra|split; intros ? E; injection E as <-; simpl; lra]). lra.
Qed.

(** a bound is ignored when the metadata has a 'pass_by_obj' key, even if False *)
Lemma step_ignored : exists x e a0 a, good_dvar x /\ dentry x 0 e /\ within e (moved e 0) /\ 0 <= a0 /\
    d_pbo_key x = true /\ limit_all [x] [Fin a0] = Ok [Fin a] /\ ~ within e (moved e a).
Proof.
  exists (mkD false true 0 (Some [1]) None [0] [2]), (None, Some 1, 0, 2), 1, 1. split.
  - split; [reflexivity|]. split; intros l H; [injection H as <-; reflexivity|discriminate].
  - split; [exists 0, 2; repeat split|]. split; [split; intros ? E; [discriminate|injection E as <-; simpl; lra]|]. split; [lra|].
    split; [reflexivity|]. split; [vm_compute; reflexivity|]. intros (_ & H). specialize (H 1 eq_refl). simpl in H. lra.
Qed.

Local Open Scope nat_scope.
Section Final.
  Context {A O : Type}.

  Lemma separate_cells : forall (zero : A) rel byobjs (vars : list (vmeta A O)) (acts : list (action A O)),
      NoDup (map v_name vars) -> Forall good_var vars ->
      let '(w, m) := setup zero rel byobjs vars in
      snd (vec_run w m (map (fun a => ([], a)) acts)) =
      snd (spec_run (store_of byobjs zero rel vars) (map (fun a => ([], a)) acts)).
  Proof.
    intros zero rel byobjs vars acts Hnd HF. apply refine_all; [assumption|assumption|].
    apply Forall_forall. intros e He. apply in_map_iff in He. destruct He as (a & <- & _). split.
    - eexists; reflexivity.
    - constructor.
  Qed.

  Lemma setup_names : forall (zero : A) rel byobjs (vars : list (vmeta A O)),
      map fst (w_dat (fst (setup zero rel byobjs vars))) = map v_name (filter (fun m => rel (v_name m)) vars).
  Proof.
    intros. unfold setup. pose proof (names_lay_out rel vars 0) as Hn. destruct (lay_out rel 0 vars). exact Hn.
  Qed.

  Lemma setup_length : forall (zero : A) rel byobjs (vars : list (vmeta A O)), Forall good_var vars ->
      w_base (fst (setup zero rel byobjs vars)) + w_size (fst (setup zero rel byobjs vars)) = length (m_vec (snd (setup zero rel byobjs vars))).
  Proof.
    intros zero rel byobjs vars HF. unfold setup. pose proof (zeros_flat zero rel vars 0 HF) as [Hz _]. rewrite Nat.sub_0_r in Hz.
    pose proof (init_vec_flat rel vars) as Hi.
    assert (length (flat_init v_val rel vars) = length (flat_init (data_of false zero) rel vars)) as Hq.
    { clear. unfold flat_init. induction (filter _ vars) as [|x l IH]; [reflexivity|]. simpl. rewrite !app_length.
      unfold data_of at 1. rewrite map_length. f_equal. exact IH. }
    destruct (lay_out rel 0 vars) as [d n]. simpl in *. destruct byobjs; [|rewrite repeat_length; lia].
    rewrite Hi, Hq, <- Hz, repeat_length. lia.
  Qed.

  Lemma one_owner : forall (zero : A) rel byobjs (vars : list (vmeta A O)) i,
      NoDup (map v_name vars) -> Forall good_var vars ->
      let w := fst (setup zero rel byobjs vars) in
      i < w_size w -> exists n, owns w n i /\ forall n', owns w n' i -> n' = n.
  Proof. intros zero rel byobjs vars i Hnd HF w Hi. apply laid_owned; [|assumption]. apply setup_laid; assumption. Qed.

  Lemma owner_inside : forall (zero : A) rel byobjs (vars : list (vmeta A O)) n i,
      NoDup (map v_name vars) -> Forall good_var vars ->
      let w := fst (setup zero rel byobjs vars) in owns w n i -> i < w_size w.
  Proof. intros zero rel byobjs vars n i Hnd HF w Hi. eapply laid_inside; [|eassumption]. apply setup_laid; assumption. Qed.

  Lemma owner_order : forall (zero : A) rel byobjs (vars : list (vmeta A O)) k k' n n' i i',
      NoDup (map v_name vars) -> Forall good_var vars ->
      let w := fst (setup zero rel byobjs vars) in
      let names := map v_name (filter (fun m => rel (v_name m)) vars) in
      k < k' -> nth_error names k = Some n -> nth_error names k' = Some n' -> owns w n i -> owns w n' i' -> i < i'.
  Proof.
    intros zero rel byobjs vars k k' n n' i i' Hnd HF w names Hk H1 H2.
    unfold names in *. rewrite <- (setup_names zero rel byobjs) in H1, H2.
    eapply laid_ordered; try eassumption. apply setup_laid; assumption.
  Qed.

  Lemma lay_out_entry : forall rel (vars : list (vmeta A O)) k x, In x vars -> rel (v_name x) = true ->
      exists y, In (v_name x, y) (fst (lay_out rel k vars)) /\
        if (negb (v_pbo x) && negb (v_remote x))%bool then exists a, a_slice y = Some (a, a + v_size x) else a_slice y = None.
  Proof.
    intros rel. induction vars as [|z vars IH]; intros k x Hin Hr; [contradiction|]. simpl. destruct Hin as [->|Hin].
    - rewrite Hr. destruct (negb (v_pbo x) && negb (v_remote x))%bool.
      + destruct (lay_out rel (k + v_size x) vars). eexists. split; [left; reflexivity|]. exists k. reflexivity.
      + destruct (lay_out rel k vars). eexists. split; [left; reflexivity|]. reflexivity.
    - destruct (rel (v_name z)); [|apply IH; assumption].
      destruct (negb (v_pbo z) && negb (v_remote z))%bool.
      + destruct (IH (k + v_size z) x Hin Hr) as (y & G1 & G2). destruct (lay_out rel (k + v_size z) vars).
        exists y. split; [right; exact G1|exact G2].
      + destruct (IH k x Hin Hr) as (y & G1 & G2). destruct (lay_out rel k vars).
        exists y. split; [right; exact G1|exact G2].
  Qed.

  Lemma range_size : forall (zero : A) rel byobjs (vars : list (vmeta A O)) x,
      NoDup (map v_name vars) -> Forall good_var vars -> In x vars -> rel (v_name x) = true ->
      let w := fst (setup zero rel byobjs vars) in
      exists a, forall i, owns w (v_name x) i <->
        (v_pbo x = false /\ v_remote x = false /\ a <= i < a + v_size x).
  Proof.
    intros zero rel byobjs vars x Hnd HF Hin Hr w.
    destruct (setup_laid zero rel byobjs vars Hnd HF) as [_ Hn]. fold w in Hn.
    destruct (lay_out_entry rel vars 0 x Hin Hr) as (y & G1 & G2).
    assert (Hw : w_dat w = fst (lay_out rel 0 vars)) by (unfold w, setup; destruct (lay_out rel 0 vars); reflexivity).
    rewrite <- Hw in G1.
    assert (Hg : sget (w_dat w) (v_name x) = Some y) by (apply (in_dget String.eqb String.eqb_eq); assumption).
    unfold owns. destruct (v_pbo x), (v_remote x); simpl in G2;
      try (exists 0; intros i; split; [intros (z & a & b & K1 & K2 & K3); congruence|intros (K1 & K2 & K3); discriminate]).
    destruct G2 as [a Ha]. exists a. intros i. split.
    - intros (z & p & q & K1 & K2 & K3). assert (z = y) by congruence. subst z. rewrite Ha in K2. injection K2 as <- <-. auto.
    - intros (_ & _ & K). exists y, a, (a + v_size x). auto.
  Qed.

  Lemma tree_views : forall (zero : A) rel byobjs (vars : list (vmeta A O)) chain,
      NoDup (map v_name vars) -> Forall good_var vars ->
      tree_chain (map v_name (filter (fun m => rel (v_name m)) vars)) chain ->
      good_chain (fst (setup zero rel byobjs vars)) chain.
  Proof.
    intros zero rel byobjs vars chain Hnd HF Ht. split.
    - rewrite <- (setup_names zero rel byobjs) in Ht.
      destruct (tree_chain_good _ _ (setup_laid zero rel byobjs vars Hnd HF) Ht) as (v & Hv & _). exists v. exact Hv.
    - eapply tree_chain_nodup. exact Ht.
  Qed.

  (** an accessor of the root whose range meets the view's range belongs to the view *)
  Lemma view_range_names : forall w vm pre post v, laid w -> map fst (w_dat w) = pre ++ map fst vm ++ post -> NoDup (map snd vm) ->
      get_view w vm = Ok v -> forall n x a b, sget (w_dat w) n = Some x -> a_loc x = LVec a b ->
      (exists k, In (n, k) vm) \/ (b <= w_base v \/ w_base v + w_size v <= a).
  Proof.
    intros w vm pre post v [Hc Hnd] Hn Hs Hv n x a b Hx Hl.
    assert (Hsplit : exists d1 d2 d3, w_dat w = d1 ++ d2 ++ d3 /\ map fst d2 = map fst vm).
    { apply map_eq_app in Hn. destruct Hn as (d1 & d23 & H1 & H2 & H3).
      apply map_eq_app in H3. destruct H3 as (d2 & d3 & H4 & H5 & H6). exists d1, d2, d3. subst. auto. }
    destruct Hsplit as (d1 & d2 & d3 & Hd & Hd2). rewrite Hd in Hc.
    apply consec_app in Hc. destruct Hc as (s & Hc1 & Hc). apply consec_app in Hc. destruct Hc as (e & Hc2 & Hc3).
    pose proof (consec_le _ _ _ _ Hc1). pose proof (consec_le _ _ _ _ Hc2). pose proof (consec_le _ _ _ _ Hc3).
    destruct (view_loop_consec (w_base w) w vm d2 s e None 0 [] Hc2 (eq_sym Hd2) Hs) as (r' & dnew & G1 & G2 & G3 & G4).
    - intros n' x' Hin. apply (in_dget String.eqb String.eqb_eq); [exact Hnd|]. rewrite Hd. rewrite !in_app_iff. tauto.
    - intros k _ [].
    - reflexivity.
    - unfold get_view in Hv. rewrite G1 in Hv. simpl in Hv.
      apply (dget_in String.eqb String.eqb_eq) in Hx. rewrite Hd in Hx. rewrite !in_app_iff in Hx.
      assert (Hrange : (w_base v = w_base w + s /\ w_size v = e - s) \/ (w_base v = w_base w /\ w_size v = 0 /\ e = s)).
      { destruct r' as [[st sp]|]; injection Hv as <-; simpl; [left|right]; intuition lia. }
      destruct Hx as [Hx|[Hx|Hx]].
      + apply In_nth_error in Hx. destruct Hx as [i Hi]. pose proof (consec_nth _ _ _ _ Hc1 _ _ _ Hi) as K.
        destruct (a_slice x) as [[p q]|]; [|exfalso; eapply K; exact Hl].
        destruct K as (K1 & K2 & K3 & K4). rewrite Hl in K4. injection K4 as -> ->. right. destruct Hrange as [R|R]; lia.
      + left. assert (In n (map fst vm)) as Hi by (rewrite <- Hd2; apply in_map_iff; exists (n, x); auto).
        apply in_map_iff in Hi. destruct Hi as ([n' k] & E & Hi). simpl in E. subst n'. exists k. exact Hi.
      + apply In_nth_error in Hx. destruct Hx as [i Hi]. pose proof (consec_nth _ _ _ _ Hc3 _ _ _ Hi) as K.
        destruct (a_slice x) as [[p q]|]; [|exfalso; eapply K; exact Hl].
        destruct K as (K1 & K2 & K3 & K4). rewrite Hl in K4. injection K4 as -> ->. right. destruct Hrange as [R|R]; lia.
  Qed.

  Lemma find_in_vm : forall (vm : varmap) n k, NoDup (map snd vm) -> In (n, k) vm -> parent_name vm k = Some n.
  Proof.
    induction vm as [|[a b] vm IH]; intros n k Hnd Hin; [contradiction|]. inversion Hnd; subst.
    unfold parent_name. simpl. destruct Hin as [E|Hin].
    - injection E as -> ->. rewrite String.eqb_refl. reflexivity.
    - destruct (String.eqb_spec b k) as [->|Hb].
      + exfalso. apply H1. apply in_map_iff. exists (n, k). auto.
      + apply IH; assumption.
  Qed.

  Lemma chain_range_names : forall chain w v, laid w -> tree_chain (map fst (w_dat w)) chain -> view_chain w chain = Ok v ->
      forall n x a b, sget (w_dat w) n = Some x -> a_loc x = LVec a b ->
      (exists k y, root_name chain k = Some n /\ sget (w_dat v) k = Some y) \/ (b <= w_base v \/ w_base v + w_size v <= a).
  Proof.
    induction chain as [|vm chain IH]; intros w v Hl Ht Hv n x a b Hx Hloc.
    - simpl in Hv. injection Hv as <-. left. exists n, x. auto.
    - simpl in Hv. destruct (get_view w vm) as [u|] eqn:Eu; [|discriminate]. simpl in Hv.
      simpl in Ht. destruct Ht as ((pre & post & Hn) & Hnd & Ht).
      destruct (view_laid w vm pre post Hl Hn Hnd) as (u' & G1 & G2 & G3 & G4 & G5).
      assert (u' = u) by congruence. subst u'. rewrite <- G3 in Ht.
      destruct (tree_chain_good chain u G2 Ht) as (v' & K1 & K2 & K3 & K4). assert (v' = v) by congruence. subst v'.
      destruct (view_range_names w vm pre post u Hl Hn Hnd Eu n x a b Hx Hloc) as [[k Hk]|Hout]; [|right; lia].
      pose proof (get_view_key w vm u Eu Hnd k) as Hkey. rewrite (find_in_vm _ _ _ Hnd Hk) in Hkey. rewrite Hx in Hkey.
      destruct (sget (w_dat u) k) as [z|] eqn:Ez; [|discriminate]. cbn [option_map] in Hkey.
      assert (Hz : a_loc z = LVec a b) by (unfold key in Hkey; congruence).
      destruct (IH u v G2 Ht Hv k z a b Ez Hz) as [(k' & y & R1 & R2)|Hout]; [|right; exact Hout].
      left. exists k', y. split; [|exact R2]. simpl. rewrite R1. apply find_in_vm; assumption.
  Qed.

  Lemma vec_write_laid : forall (w : wrapper) (m : memory A O) (v : wrapper) xs chain n,
      laid w -> tree_chain (map fst (w_dat w)) chain -> view_chain w chain = Ok v ->
      w_base w + w_size w <= length (m_vec m) -> length xs = w_size v ->
      all_numbers v (w_vec_set v m xs) = xs /\
      ((forall k, root_name chain k = Some n -> sget (w_dat v) k = None) ->
       w_get w (w_vec_set v m xs) n = w_get w m n).
  Proof.
    intros w m v xs chain n Hl Ht Hv Hlen Hx.
    destruct (tree_chain_good chain w Hl Ht) as (v' & K1 & K2 & K3 & K4). assert (v' = v) by congruence. subst v'. split.
    - rewrite <- laid_numbers.
      + unfold w_vec, w_vec_set. simpl. apply sub_splice_same; lia.
      + assumption.
      + unfold w_vec_set. simpl. rewrite splice_length; lia.
    - intros Hn. unfold w_get. destruct (sget (w_dat w) n) as [x|] eqn:Ex; [|reflexivity].
      unfold acc_get. destruct (a_loc x) as [a b| |] eqn:Eloc; try reflexivity. unfold w_vec_set. simpl.
      destruct (chain_range_names chain w v Hl Ht Hv n x a b Ex Eloc) as [(k & y & R1 & R2)|Hout].
      + rewrite (Hn k R1) in R2. discriminate.
      + rewrite sub_splice_other by lia. reflexivity.
  Qed.

  Lemma vec_write : forall (zero : A) rel byobjs (vars : list (vmeta A O)) es xs chain v n,
      NoDup (map v_name vars) -> Forall good_var vars ->
      (forall e, In e ((chain, AGet "") :: es) -> tree_chain (map v_name (filter (fun m => rel (v_name m)) vars)) (fst e)) ->
      let '(w, m0) := setup zero rel byobjs vars in
      let m := fst (vec_run w m0 es) in
      view_chain w chain = Ok v -> length xs = w_size v ->
      all_numbers v (w_vec_set v m xs) = xs /\
      ((forall k, root_name chain k = Some n -> sget (w_dat v) k = None) ->
       w_get w (w_vec_set v m xs) n = w_get w m n).
  Proof.
    intros zero rel byobjs vars es xs chain v n Hnd HF He.
    pose proof (setup_laid zero rel byobjs vars Hnd HF) as Hl.
    pose proof (setup_rel zero rel byobjs vars Hnd HF) as HR.
    pose proof (setup_names zero rel byobjs vars) as Hn. rewrite <- Hn in He.
    pose proof (setup_length zero rel byobjs vars HF) as Hlen.
    destruct (setup zero rel byobjs vars) as [w m]. cbn [fst snd] in *. intros Hv Hx.
    pose proof (He _ (or_introl eq_refl)) as Ht. simpl in Ht.
    apply vec_write_laid; try assumption. rewrite (run_mem_length es w m _ HR); [lia|].
    apply Forall_forall. intros e Hin. specialize (He e (or_intror Hin)). split.
    - destruct (tree_chain_good _ _ Hl He) as (u & Hu & _). exists u. exact Hu.
    - eapply tree_chain_nodup. exact He.
  Qed.
End Final.

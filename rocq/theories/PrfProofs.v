(** Proofs for PrfProps.v: the calls a profile holds. *)
From Coq Require Import Permutation Sorted.
From Verif Require Import Base BaseFacts PrfModel PrfSpec.
Local Open Scope string_scope.
Local Open Scope nat_scope.
Local Open Scope list_scope.

(** ** Strings *)
Lemma join_text : forall p, join_comma p = text p.
Proof. induction p as [|x [|y p] IH]; [reflexivity|reflexivity|]. change (join_comma (x :: y :: p)) with (x ++ "," ++ join_comma (y :: p))%string. rewrite IH. reflexivity. Qed.
Lemma split_name : forall x, no_comma x -> split_on comma x = [x].
Proof.
  induction x as [|a x IH]; intros H; [reflexivity|]. cbn [split_on]. unfold no_comma in *. cbn in H. destruct (Ascii.eqb a comma) eqn:E.
  - apply Ascii.eqb_eq in E. subst. exfalso. apply H. left. reflexivity.
  - rewrite IH; [reflexivity|]. intros I. apply H. right. exact I.
Qed.
Lemma split_cons : forall x s, no_comma x -> split_on comma (x ++ "," ++ s)%string = x :: split_on comma s.
Proof.
  induction x as [|a x IH]; intros s H; [reflexivity|]. change ((String a x ++ "," ++ s)%string) with (String a (x ++ "," ++ s)%string). cbn [split_on]. unfold no_comma in *. cbn in H. destruct (Ascii.eqb a comma) eqn:E.
  - apply Ascii.eqb_eq in E. subst. exfalso. apply H. left. reflexivity.
  - rewrite IH; [reflexivity|]. intros I. apply H. right. exact I.
Qed.
Lemma split_text : forall p, p <> [] -> Forall no_comma p -> split_on comma (text p) = p.
Proof.
  induction p as [|x [|y p] IH]; intros Ne F; [congruence| |].
  - inversion F; subst. change (text [x]) with x. apply split_name. assumption.
  - inversion F; subst. change (text (x :: y :: p)) with (x ++ "," ++ text (y :: p))%string. rewrite split_cons by assumption. rewrite IH; [reflexivity|discriminate|assumption].
Qed.
Lemma text_inj : forall p q, p <> [] -> q <> [] -> Forall no_comma p -> Forall no_comma q -> text p = text q -> p = q.
Proof. intros p q Np Nq Fp Fq E. rewrite <- (split_text p Np Fp), <- (split_text q Nq Fq), E. reflexivity. Qed.
Lemma app_str : forall a b c, ((a ++ b) ++ c)%string = (a ++ (b ++ c))%string.
Proof. induction a as [|x a IH]; intros b c; [reflexivity|]. cbn. rewrite IH. reflexivity. Qed.
Lemma text_snoc : forall p n, p <> [] -> text (p ++ [n]) = (text p ++ "," ++ n)%string.
Proof.
  induction p as [|x [|y p] IH]; intros n Ne; [congruence|reflexivity|]. change ((x :: y :: p) ++ [n]) with (x :: y :: (p ++ [n])). change (text (x :: y :: p ++ [n])) with (x ++ "," ++ text ((y :: p) ++ [n]))%string.
  rewrite IH by discriminate. change (text (x :: y :: p)) with (x ++ "," ++ text (y :: p))%string. rewrite !app_str. reflexivity.
Qed.
Lemma no_comma_app : forall a b, no_comma a -> no_comma b -> no_comma (a ++ b)%string.
Proof. unfold no_comma. induction a as [|c a IH]; intros b Ha Hb; [exact Hb|]. cbn in *. intros [E|I]; [apply Ha; left; exact E|]. apply (IH b); [intros X; apply Ha; right; exact X|exact Hb|exact I]. Qed.

Lemma acmp_refl : forall c, Ascii.compare c c = Eq.
Proof. intros c. unfold Ascii.compare. apply N.compare_refl. Qed.
Lemma leb_refl : forall s, String.leb s s = true.
Proof. intros s. destruct (String.leb_total s s); assumption. Qed.
Lemma leb_app : forall s t, String.leb s (s ++ t)%string = true.
Proof. unfold String.leb. induction s as [|c s IH]; intros t; [destruct t; reflexivity|]. cbn. rewrite acmp_refl. apply IH. Qed.
Lemma acmp_eq : forall a b, Ascii.compare a b = Eq -> a = b.
Proof. intros a b H. unfold Ascii.compare in H. apply N.compare_eq in H. rewrite <- (ascii_N_embedding a), <- (ascii_N_embedding b), H. reflexivity. Qed.
Lemma acmp_lt_trans : forall a b c, Ascii.compare a b = Lt -> Ascii.compare b c = Lt -> Ascii.compare a c = Lt.
Proof. intros a b c. unfold Ascii.compare. rewrite !N.compare_lt_iff. apply N.lt_trans. Qed.
Lemma leb_trans : forall a b c, String.leb a b = true -> String.leb b c = true -> String.leb a c = true.
Proof.
  unfold String.leb. induction a as [|x a IH]; intros [|y b] [|z c] H1 H2; cbn in *; try reflexivity; try discriminate.
  destruct (Ascii.compare x y) eqn:E1; try discriminate; destruct (Ascii.compare y z) eqn:E2; try discriminate.
  - apply acmp_eq in E1, E2. subst. rewrite acmp_refl. exact (IH _ _ H1 H2).
  - apply acmp_eq in E1. subst. rewrite E2. reflexivity.
  - apply acmp_eq in E2. subst. rewrite E1. reflexivity.
  - rewrite (acmp_lt_trans _ _ _ E1 E2). reflexivity.
Qed.

(** ** Sorting *)
Definition by_path {V} (x y : string * V) : Prop := String.leb (fst x) (fst y) = true.
Lemma insert_perm : forall {V} (x : string * V) l, Permutation (insert_path x l) (x :: l).
Proof. induction l as [|y l IH]; [reflexivity|]. cbn. destruct (fst x <=? fst y)%string; [reflexivity|]. rewrite IH. apply perm_swap. Qed.
Lemma sort_perm : forall {V} (l : list (string * V)), Permutation (sort_paths l) l.
Proof. induction l as [|x l IH]; [reflexivity|]. cbn. rewrite insert_perm, IH. reflexivity. Qed.
Lemma insert_sorted : forall {V} (x : string * V) l, StronglySorted by_path l -> StronglySorted by_path (insert_path x l).
Proof.
  intros V x. induction l as [|y l IH]; intros S; [repeat constructor|]. cbn. inversion S; subst. destruct (fst x <=? fst y)%string eqn:E.
  - constructor; [exact S|]. constructor; [exact E|]. eapply Forall_impl; [|exact H2]. intros z Hz. exact (leb_trans _ _ _ E Hz).
  - constructor; [apply IH; assumption|]. assert (L : by_path y x) by (destruct (String.leb_total (fst x) (fst y)) as [T|T]; [congruence|exact T]).
    apply (Permutation_Forall (Permutation_sym (insert_perm x l))). constructor; assumption.
Qed.
Lemma sort_sorted : forall {V} (l : list (string * V)), StronglySorted by_path (sort_paths l).
Proof. induction l as [|x l IH]; [constructor|apply insert_sorted; exact IH]. Qed.

(** ** The program *)
Definition is_some {A} (o : option A) : bool := match o with Some _ => true | None => false end.
Definition table_ok (f : list (string * nat)) : Prop := map snd f = seq 0 (length f) /\ NoDup (dkeys f).
Definition decode (f : list (string * nat)) (r : raw) : option string * (Q * Q) := (nth_error (map fst f) (r_id r), (r_t r, r_ovr r)).
Definition key (c : pcall) : string * (Q * Q) := (text (c_path c), (c_elapsed c, c_ovr c)).
Definition okey (c : pcall) : option string * (Q * Q) := (Some (text (c_path c)), (c_elapsed c, c_ovr c)).

Lemma decode_more : forall f ext l C, Permutation (map (decode f) l) (map okey C) -> map (decode (f ++ ext)) l = map (decode f) l.
Proof.
  intros f ext l C P. apply map_ext_in. intros r I. unfold decode. f_equal. rewrite map_app. assert (X : In (decode f r) (map okey C)) by (apply (Permutation_in _ P); apply in_map; exact I).
  apply in_map_iff in X. destruct X as (c & E & _). unfold decode, okey in E. injection E as E1 E2 E3. apply nth_error_app1. apply nth_error_Some. rewrite <- E1. discriminate.
Qed.
Lemma table_nth : forall f k i, table_ok f -> sget f k = Some i -> nth_error (map fst f) i = Some k.
Proof.
  intros f k i [S _] G. apply (dget_in String.eqb String.eqb_eq) in G. apply In_nth_error in G. destruct G as (j & Hj).
  assert (X : nth_error (map snd f) j = Some i) by (rewrite nth_error_map, Hj; reflexivity). assert (L : j < length f) by (apply nth_error_Some; congruence).
  rewrite S in X. rewrite (nth_error_nth' (seq 0 (length f)) 0) in X by (rewrite seq_length; exact L). rewrite seq_nth in X by exact L. inversion X; subst. rewrite nth_error_map. cbn. rewrite Hj. reflexivity.
Qed.
Lemma enter_table : forall n st, table_ok (p_funcs st) -> table_ok (p_funcs (enter n st)) /\ (exists ext, p_funcs (enter n st) = p_funcs st ++ ext) /\ exists i, sget (p_funcs (enter n st)) (join_comma (p_stack st ++ [n])) = Some i.
Proof.
  intros n st [S ND]. unfold enter. cbn [p_funcs]. set (path := join_comma (p_stack st ++ [n])). unfold smem, dmem. destruct (dget String.eqb (p_funcs st) path) as [i|] eqn:G.
  - split; [split; assumption|]. split; [exists []; rewrite app_nil_r; reflexivity|]. exists i. exact G.
  - assert (N : ~ In path (dkeys (p_funcs st))) by (apply (proj1 (dget_none String.eqb String.eqb_eq _ _)); exact G).
    assert (X : sset (p_funcs st) path (length (p_funcs st)) = p_funcs st ++ [(path, length (p_funcs st))]).
    { unfold sset. clear - N. generalize (length (p_funcs st)). intros v. induction (p_funcs st) as [|[k w] d IH]; [reflexivity|]. cbn in *. destruct (String.eqb_spec path k) as [->|Ne]; [exfalso; apply N; left; reflexivity|]. rewrite IH; [reflexivity|]. intros I. apply N. right. exact I. }
    rewrite X. split; [split|split].
    + rewrite map_app, S, app_length. cbn. rewrite Nat.add_1_r, seq_S. reflexivity.
    + unfold dkeys in *. rewrite map_app. apply NoDup_snoc; assumption.
    + eexists. reflexivity.
    + exists (length (p_funcs st)). rewrite <- X. unfold sget, sset. apply (dget_dset_eq String.eqb String.eqb_eq).
Qed.

Lemma prof_call_on : forall enc n o s b e x r, prof enc true (Call n o s b e x r) =
    (mkCall (enc ++ [n]) (e - s) (s - o) x :: fst (prof (enc ++ [n]) true b) ++ fst (prof enc (snd (prof (enc ++ [n]) true b)) r), snd (prof enc (snd (prof (enc ++ [n]) true b)) r)).
Proof. intros. cbn [prof]. destruct (prof (enc ++ [n]) true b) as [cb on1]. cbn [fst snd]. destruct (prof enc on1 r) as [cr on2]. reflexivity. Qed.
Lemma prof_call_off : forall enc n o s b e x r, prof enc false (Call n o s b e x r) =
    (fst (prof enc false b) ++ fst (prof enc (snd (prof enc false b)) r), snd (prof enc (snd (prof enc false b)) r)).
Proof. intros. cbn [prof]. destruct (prof enc false b) as [cb on1]. cbn [fst snd]. destruct (prof enc on1 r) as [cr on2]. reflexivity. Qed.

Definition quiet (C : list pcall) : Prop := Forall (fun c => c_raised c = false) C.
Lemma exec_prof : forall p st, table_ok (p_funcs st) -> quiet (fst (prof (p_stack st) (is_some (p_start st)) p)) ->
    p_stack (exec p st) = p_stack st /\ is_some (p_start (exec p st)) = snd (prof (p_stack st) (is_some (p_start st)) p) /\
    table_ok (p_funcs (exec p st)) /\ (exists ext, p_funcs (exec p st) = p_funcs st ++ ext) /\
    exists new, p_out (exec p st) = p_out st ++ new /\ Permutation (map (decode (p_funcs (exec p st))) new) (map okey (fst (prof (p_stack st) (is_some (p_start st)) p))).
Proof.
  induction p as [|t r IH|t r IH|n o s b IHb e x r IHr]; intros st T Qt.
  - cbn. split; [reflexivity|]. split; [reflexivity|]. split; [exact T|]. split; [exists []; rewrite app_nil_r; reflexivity|]. exists []. rewrite app_nil_r. split; reflexivity.
  - cbn [exec prof] in *. assert (E : do_start t st = mkPst (p_stack st) (p_funcs st) (p_out st) (p_start (do_start t st)) (p_total st) /\ is_some (p_start (do_start t st)) = true).
    { unfold do_start. destruct (p_start st) eqn:X; [split; [destruct st; reflexivity|rewrite X; reflexivity]|split; reflexivity]. }
    destruct E as [E1 E2]. specialize (IH (do_start t st)). rewrite E1 in IH. cbn [p_stack p_funcs p_out p_start] in IH. rewrite E2 in IH. rewrite E1. exact (IH T Qt).
  - cbn [exec prof] in *. assert (E : do_stop t st = mkPst (p_stack st) (p_funcs st) (p_out st) None (p_total (do_stop t st))).
    { unfold do_stop. destruct st as [a b c [q|] d]; reflexivity. }
    specialize (IH (do_stop t st)). rewrite E in IH. cbn [p_stack p_funcs p_out p_start is_some] in IH. rewrite E. exact (IH T Qt).
  - destruct (p_start st) as [t0|] eqn:On.
    + cbn [is_some] in *. rewrite prof_call_on in *. cbn [fst snd] in *. unfold quiet in Qt. inversion Qt as [|? ? Qx Qr]; subst. cbn in Qx. subst x. apply Forall_app in Qr. destruct Qr as [Qb Qr].
      cbn [exec]. rewrite On. cbv zeta. destruct (enter_table n st T) as (T1 & (ext1 & Ex1) & (i & Gi)).
      assert (S1 : p_stack (enter n st) = p_stack st ++ [n]) by reflexivity. assert (P1 : p_start (enter n st) = Some t0) by exact On. assert (O1 : p_out (enter n st) = p_out st) by reflexivity.
      specialize (IHb (enter n st) T1). rewrite S1, P1 in IHb. cbn [is_some] in IHb. destruct (IHb Qb) as (S2 & P2 & T2 & (ext2 & Ex2) & new2 & O2 & D2). rewrite O1 in O2.
      set (st2 := exec b (enter n st)) in *. set (st3 := leave (join_comma (p_stack (enter n st))) o s e st2).
      assert (S3 : p_stack st3 = p_stack st) by (unfold st3, leave; cbn; rewrite S2; apply removelast_last). assert (F3 : p_funcs st3 = p_funcs st2) by reflexivity. assert (P3 : p_start st3 = p_start st2) by reflexivity.
      assert (G2 : sget (p_funcs st2) (join_comma (p_stack st ++ [n])) = Some i).
      { rewrite Ex2. unfold sget in *. revert Gi. clear. induction (p_funcs (enter n st)) as [|[k v] d IH]; intros G; [discriminate|]. cbn in *. destruct (String.eqb _ k); [exact G|apply IH; exact G]. }
      assert (O3 : p_out st3 = p_out st ++ new2 ++ [mkRaw (e - s) (s - o) i]) by (unfold st3, leave; cbn [p_out]; rewrite S1, G2, O2, app_assoc; reflexivity).
      specialize (IHr st3). rewrite F3, S3, P3, P2 in IHr. destruct (IHr T2 Qr) as (S4 & P4 & T4 & (ext4 & Ex4) & new4 & O4 & D4).
      split; [exact S4|]. split; [exact P4|]. split; [exact T4|]. split; [exists (ext1 ++ ext2 ++ ext4); rewrite Ex4, Ex2, Ex1, !app_assoc; reflexivity|].
      exists ((new2 ++ [mkRaw (e - s) (s - o) i]) ++ new4). split; [rewrite O4, O3, <- !app_assoc; reflexivity|].
      assert (D2' : map (decode (p_funcs (exec r st3))) new2 = map (decode (p_funcs st2)) new2) by (rewrite Ex4; eapply decode_more; exact D2).
      assert (Dx : decode (p_funcs (exec r st3)) (mkRaw (e - s) (s - o) i) = okey (mkCall (p_stack st ++ [n]) (e - s) (s - o) false)).
      { unfold decode, okey. cbn. f_equal. rewrite <- join_text. apply (table_nth _ _ _ T4). rewrite Ex4. revert G2. unfold sget. clear. induction (p_funcs st2) as [|[k v] d IH]; intros G; [discriminate|]. cbn in *. destruct (String.eqb _ k); [exact G|apply IH; exact G]. }
      rewrite !map_app, D2'. cbn [map]. rewrite Dx, <- app_assoc. cbn [app]. transitivity (okey (mkCall (p_stack st ++ [n]) (e - s) (s - o) false) :: map (decode (p_funcs st2)) new2 ++ map (decode (p_funcs (exec r st3))) new4); [symmetry; apply Permutation_middle|].
      constructor. rewrite map_app. apply Permutation_app; assumption.
    + cbn [is_some] in *. rewrite prof_call_off in *. cbn [fst snd] in *. apply Forall_app in Qt. destruct Qt as [Qb Qr]. cbn [exec]. rewrite On.
      specialize (IHb st T). rewrite On in IHb. cbn [is_some] in IHb. destruct (IHb Qb) as (S2 & P2 & T2 & (ext2 & Ex2) & new2 & O2 & D2).
      specialize (IHr (exec b st) T2). rewrite S2, P2 in IHr. destruct (IHr Qr) as (S4 & P4 & T4 & (ext4 & Ex4) & new4 & O4 & D4).
      split; [exact S4|]. split; [exact P4|]. split; [exact T4|]. split; [exists (ext2 ++ ext4); rewrite Ex4, Ex2, app_assoc; reflexivity|].
      exists (new2 ++ new4). split; [rewrite O4, O2, app_assoc; reflexivity|]. rewrite !map_app. apply Permutation_app; [|exact D4].
      rewrite Ex4. erewrite decode_more; exact D2.
Qed.

Lemma exec_total : forall p st, (p_total (exec p st) == p_total st + fst (on_time (p_start st) p))%Q /\ p_start (exec p st) = snd (on_time (p_start st) p).
Proof.
  induction p as [|t r IH|t r IH|n o s b IHb e x r IHr]; intros st; cbn [exec on_time].
  - split; [cbn; ring|reflexivity].
  - destruct (IH (do_start t st)) as [A B]. rewrite A, B. unfold do_start. destruct (p_start st) eqn:E; cbn [p_start p_total]; rewrite ?E; split; reflexivity.
  - destruct (IH (do_stop t st)) as [A B]. rewrite A, B. unfold do_stop. destruct (p_start st) as [t0|] eqn:E; cbn; [|rewrite E]; destruct (on_time None r) as [q o]; cbn; split; try reflexivity; ring.
  - destruct (p_start st) as [t0|] eqn:E.
    + cbv zeta. destruct (IHb (enter n st)) as [A B]. replace (p_start (enter n st)) with (Some t0) in A, B by (symmetry; exact E). replace (p_total (enter n st)) with (p_total st) in A by reflexivity.
      destruct (on_time (Some t0) b) as [q1 o1]. cbn in A, B. set (st3 := if x then exec b (enter n st) else leave (join_comma (p_stack (enter n st))) o s e (exec b (enter n st))).
      assert (P3 : p_start st3 = o1) by (unfold st3; destruct x; exact B). assert (T3 : p_total st3 = p_total (exec b (enter n st))) by (unfold st3; destruct x; reflexivity).
      destruct (IHr st3) as [C D]. rewrite P3 in C, D. destruct (on_time o1 r) as [q2 o2]. cbn in *. split; [rewrite C, T3, A; ring|exact D].
    + destruct (IHb st) as [A B]. rewrite E in A, B. destruct (on_time None b) as [q1 o1]. cbn in A, B. destruct (IHr (exec b st)) as [C D]. rewrite B in C, D. destruct (on_time o1 r) as [q2 o2]. cbn in *. split; [rewrite C, A; ring|exact D].
Qed.

(** ** Reading *)
Lemma name_table_get : forall f i, map snd f = seq 0 (length f) -> dget Nat.eqb (name_table f) i = nth_error (map fst f) i.
Proof.
  induction f as [|[k v] f IH] using rev_ind; intros i S; [destruct i; reflexivity|]. rewrite map_app, app_length in S. cbn in S. rewrite Nat.add_1_r, seq_S in S. apply app_inj_tail in S. destruct S as [S V]. cbn in V. subst v.
  unfold name_table. rewrite fold_left_app. cbn [fold_left snd fst]. rewrite (dget_dset Nat.eqb Nat.eqb_eq). rewrite map_app. destruct (Nat.eqb_spec i (length f)) as [->|Ne].
  - rewrite nth_error_app2 by (rewrite map_length; lia). rewrite map_length, Nat.sub_diag. reflexivity.
  - fold (name_table f). rewrite IH by exact S. destruct (Nat.lt_ge_cases i (length f)) as [L|L].
    + rewrite nth_error_app1 by (rewrite map_length; exact L). reflexivity.
    + rewrite (proj2 (nth_error_None _ _)) by (rewrite map_length; exact L). symmetry. apply nth_error_None. rewrite app_length, map_length. cbn. lia.
Qed.
Lemma iter_raw_ok : forall tab l kl, map (fun r => (dget Nat.eqb tab (r_id r), (r_t r, r_ovr r))) l = map (fun x => (Some (fst x), snd x)) kl -> iter_raw tab l = Ok kl.
Proof.
  intros tab. induction l as [|r l IH]; intros [|[k q] kl] H; try discriminate; [reflexivity|]. cbn [map] in H. inversion H as [[H1 H2 H3]]. cbn [iter_raw]. rewrite H1. rewrite (IH kl H3). cbn in *. subst. reflexivity.
Qed.
Lemma file_calls : forall x, quiet (calls_of (x_prog x)) ->
    exists l, iter_raw (name_table (d_funcs (file_of x))) (d_recs (file_of x)) = Ok (map key l) /\ Permutation l (calls_of (x_prog x)).
Proof.
  intros x Qt. destruct (exec_prof (x_prog x) pst0) as (_ & _ & [T _] & _ & new & O & D); [split; [reflexivity|constructor]|exact Qt|]. cbn in O.
  assert (Fe : d_funcs (file_of x) = p_funcs (exec (x_prog x) pst0) /\ d_recs (file_of x) = new).
  { unfold file_of, finalize, do_stop. rewrite <- O. destruct (p_start (exec (x_prog x) pst0)); split; reflexivity. }
  destruct Fe as [-> ->]. destruct (Permutation_map_inv _ _ D) as (l & E & P). exists l. split; [|symmetry; exact P].
  apply iter_raw_ok. rewrite map_map. erewrite map_ext; [exact E|]. intros r. cbn. rewrite name_table_get by exact T. reflexivity.
Qed.
Lemma file_total : forall x, (d_total (file_of x) == profiled_time (x_prog x) (x_end x))%Q.
Proof.
  intros x. destruct (exec_total (x_prog x) pst0) as [A B]. unfold file_of, finalize, do_stop, profiled_time. rewrite B. change (p_start pst0) with (@None Q). cbn [p_start pst0 p_total] in A. destruct (on_time None (x_prog x)) as [q [t0|]]; cbn in *; rewrite A; ring.
Qed.

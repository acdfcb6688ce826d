(** load_model: every card is stored or reported. *)
From Verif Require Import Base FileModel NamelistModel NamelistSpec.
Local Open Scope nat_scope.

Lemma text_eqb_spec : forall a b, text_eqb a b = true <-> a = b.
Proof.
  induction a as [|x a IH]; intros [|y b]; cbn; split; intro H; try discriminate; try reflexivity.
  - apply andb_prop in H. destruct H as [H1 H2]. apply Ascii.eqb_eq in H1. apply IH in H2. congruence.
  - injection H as -> ->. rewrite Ascii.eqb_refl. apply IH. reflexivity.
Qed.
Lemma text_eqb_refl : forall a, text_eqb a a = true. Proof. intro. apply text_eqb_spec. reflexivity. Qed.
Lemma text_eqb_neq : forall a b, a <> b -> text_eqb a b = false.
Proof. intros a b H. destruct (text_eqb a b) eqn:E; [|reflexivity]. apply text_eqb_spec in E. congruence. Qed.

Lemma get_cons : forall A k' (v' : A) d k, get ((k', v') :: d) k = if text_eqb k' k then Some v' else get d k.
Proof. intros. unfold get. cbn. destruct (text_eqb k' k); reflexivity. Qed.
Lemma get_set : forall A (d : list (text * A)) k v x, get (set d k v) x = if text_eqb k x then Some v else get d x.
Proof.
  intros A d k v x. induction d as [|[k' v'] d IH]; cbn [set].
  - apply get_cons.
  - destruct (text_eqb k' k) eqn:E.
    + apply text_eqb_spec in E. subst k'. rewrite !get_cons. destruct (text_eqb k x); reflexivity.
    + rewrite !get_cons, IH. destruct (text_eqb k x) eqn:E2; [|reflexivity]. apply text_eqb_spec in E2. subst x. rewrite E. reflexivity.
Qed.

Section Load.
Variable F : Type.
Variable after_setup : bool.
Variable rules : rule.
Variable ignore : list text.
Variable p0 : params F.
Notation target := (target F p0 rules).
Notation stored_in := (stored_in F p0 rules).
Notation missing := (missing F p0 rules ignore).
Notation held := (held F after_setup).

Definition same_keys (p : params F) : Prop := forall k, has p k = has p0 k.
Lemma store_get : forall p k v x, has p k = true ->
  get (store F after_setup p k v) x = if text_eqb k x then option_map (fun old => held old v) (get p k) else get p x.
Proof.
  intros p k v x Hk. unfold store. rewrite get_set. destruct (text_eqb k x); [|reflexivity]. unfold has in Hk. destruct (get p k) as [old|]; [|discriminate].
  cbn. f_equal. destruct v as [s| | | | |]; destruct old; cbn; try destruct s; destruct after_setup; reflexivity.
Qed.
Lemma store_keys : forall p k v, same_keys p -> has p k = true -> same_keys (store F after_setup p k v).
Proof.
  intros p k v H Hk x. unfold has. rewrite (store_get p k v x Hk). destruct (text_eqb k x) eqn:E; [|apply H].
  apply text_eqb_spec in E. subst x. specialize (H k). unfold has in *. rewrite <- H. destruct (get p k); [reflexivity|discriminate].
Qed.
Lemma first_in_either : forall p prefix name, same_keys p -> first_in F p [prefix ++ name; prefix ++ lower name] = either F p0 prefix name.
Proof. intros p prefix name H. unfold either. cbn. rewrite !H. destruct (has p0 (prefix ++ name)); [reflexivity|]. destruct (has p0 (prefix ++ lower name)); reflexivity. Qed.
Lemma first_some_app : forall A (a b : list (option A)), first_some (a ++ b) = match first_some a with Some x => Some x | None => first_some b end.
Proof. intros A a b. induction a as [|[x|] a IH]; cbn; [reflexivity|reflexivity|exact IH]. Qed.
Lemma in_containers_spec : forall p name cs vp, same_keys p ->
  in_containers F p name cs vp = match first_some (map (fun c => either F p0 (c ++ t_ ":") name) (rev cs)) with Some v => Some v | None => vp end.
Proof.
  intros p name cs vp H. revert vp. induction cs as [|c cs IH]; intro vp; [reflexivity|]. cbn [in_containers]. rewrite IH. cbn [rev]. rewrite map_app, first_some_app.
  rewrite !app_assoc. rewrite (first_in_either p (c ++ t_ ":") name H). cbn [map first_some].
  destruct (first_some (map (fun c => either F p0 (c ++ t_ ":") name) (rev cs))); [reflexivity|]. destruct (either F p0 (c ++ t_ ":") name); reflexivity.
Qed.
Lemma either_has : forall prefix name t, either F p0 prefix name = Some t -> has p0 t = true.
Proof.
  intros prefix name t H. unfold either in H. cbn in H. destruct (has p0 (prefix ++ name)) eqn:E1; [injection H as <-; exact E1|].
  destruct (has p0 (prefix ++ lower name)) eqn:E2; [injection H as <-; exact E2|discriminate].
Qed.
Lemma first_some_in : forall A (l : list (option A)) x, first_some l = Some x -> In (Some x) l.
Proof. intros A l x H. induction l as [|[y|] l IH]; cbn in H; [discriminate|injection H as ->; left; reflexivity|right; apply IH; exact H]. Qed.
Lemma target_has : forall g n t, target g n = Some t -> has p0 t = true.
Proof.
  intros g n t H. unfold NamelistSpec.target in H. destruct rules as [|r rs]; [eapply either_has; exact H|]. destruct (get (r :: rs) g) as [cs|]; [|discriminate].
  apply first_some_in in H. apply in_map_iff in H. destruct H as (c & E & _). eapply either_has; exact E.
Qed.

(** the state after some cards [done] *)
Definition after (done : list (text * card F)) (s : loaded F) : Prop :=
  (forall v, get (l_params F s) v = option_map (fun x => fold_left held (flat_map (stored_in v) done) x) (get p0 v)) /\
  l_unlinked F s = flat_map missing done.
Lemma after_keys : forall done s, after done s -> same_keys (l_params F s).
Proof. intros done s [H _] k. unfold has. rewrite H. destruct (get p0 k); reflexivity. Qed.
Lemma load_cards_known : forall i g cs done s, (match rules with [] => True | _ => has rules g = true end) -> after done s ->
  let s' := load_cards F after_setup rules ignore i g cs s in
  after (done ++ map (pair g) cs) s' /\ l_empty F s' = l_empty F s /\ l_unlisted F s' = l_unlisted F s /\ l_used F s' = l_used F s.
Proof.
  intros i g cs done s Hk. revert done s. induction cs as [|c cs IH]; intros done s H.
  - cbn. rewrite app_nil_r. split; [exact H|]. repeat split; reflexivity.
  - pose proof (after_keys done s H) as Hkeys. cbn [load_cards].
    assert (Et : match rules with
                 | [] => Some (first_in F (l_params F s) [entry_name F c; lower (entry_name F c)])
                 | _ => match get rules g with None => None | Some cs => Some (in_containers F (l_params F s) (entry_name F c) cs None) end
                 end = Some (target g (entry_name F c))).
    { unfold NamelistSpec.target. destruct rules as [|r rs].
      - f_equal. apply (first_in_either (l_params F s) [] (entry_name F c) Hkeys).
      - unfold has in Hk. destruct (get (r :: rs) g) as [conts|]; [|discriminate]. f_equal. rewrite (in_containers_spec _ _ _ _ Hkeys).
        destruct (first_some _); reflexivity. }
    rewrite Et. assert (Ea : done ++ map (pair g) (c :: cs) = (done ++ [(g, c)]) ++ map (pair g) cs) by (rewrite <- app_assoc; reflexivity). rewrite Ea.
    destruct (target g (entry_name F c)) as [t|] eqn:Etg.
    + apply (IH (done ++ [(g, c)]) (mkL F (store F after_setup (l_params F s) t (entry_value F c)) (l_empty F s) (l_unlisted F s) (l_unlinked F s) (l_used F s))).
      destruct H as [Hp Hu]. split; cbn [l_params l_unlinked].
      * intro v. rewrite store_get; [|rewrite Hkeys; eapply target_has; exact Etg]. rewrite flat_map_app. cbn [flat_map]. assert (Es : stored_in v (g, c) = if text_eqb t v then [entry_value F c] else []) by (unfold NamelistSpec.stored_in; cbn [fst snd]; rewrite Etg; reflexivity). rewrite Es. clear Es.
        destruct (text_eqb t v) eqn:E.
        -- apply text_eqb_spec in E. subst v. rewrite Hp. destruct (get p0 t) as [x|]; [|reflexivity]. cbn. f_equal. rewrite fold_left_app. reflexivity.
        -- cbn [app]. rewrite app_nil_r. apply Hp.
      * rewrite flat_map_app. cbn [flat_map]. assert (Es : missing (g, c) = []) by (unfold NamelistSpec.missing; cbn [fst snd]; rewrite Etg; reflexivity). rewrite Es. cbn [app]. rewrite app_nil_r. exact Hu.
    + set (s1 := if mem (entry_name F c) ignore || mem (lower (entry_name F c)) ignore then s else mkL F (l_params F s) (l_empty F s) (l_unlisted F s) (l_unlinked F s ++ [entry_name F c]) (l_used F s)).
      assert (A1 : after (done ++ [(g, c)]) s1).
      { destruct H as [Hp Hu]. split.
        - intro v. rewrite flat_map_app. cbn [flat_map]. assert (Es : stored_in v (g, c) = []) by (unfold NamelistSpec.stored_in; cbn [fst snd]; rewrite Etg; reflexivity). rewrite Es. clear Es. cbn [app]. rewrite app_nil_r, <- Hp.
          unfold s1. destruct (mem (entry_name F c) ignore || mem (lower (entry_name F c)) ignore); reflexivity.
        - rewrite flat_map_app. cbn [flat_map]. assert (Es : missing (g, c) = if mem (entry_name F c) ignore || mem (lower (entry_name F c)) ignore then [] else [entry_name F c]) by (unfold NamelistSpec.missing; cbn [fst snd]; rewrite Etg; reflexivity). rewrite Es. unfold s1.
          destruct (mem (entry_name F c) ignore || mem (lower (entry_name F c)) ignore); cbn [l_unlinked]; rewrite Hu, ?app_nil_r; reflexivity. }
      destruct (IH _ s1 A1) as (B1 & B2 & B3 & B4). split; [exact B1|]. rewrite B2, B3, B4. unfold s1.
      destruct (mem (entry_name F c) ignore || mem (lower (entry_name F c)) ignore); repeat split; reflexivity.
Qed.
Lemma load_cards_unknown : forall i g c cs s, rules <> [] -> has rules g = false ->
  load_cards F after_setup rules ignore i g (c :: cs) s = mkL F (l_params F s) (l_empty F s) (l_unlisted F s ++ [(i, g)]) (l_unlinked F s) (l_used F s).
Proof.
  intros i g c cs s Hr Hh. cbn [load_cards]. destruct rules as [|r rs]; [congruence|]. unfold has in Hh. destruct (get (r :: rs) g); [discriminate|reflexivity].
Qed.

Variable gs : list (group F).
Notation is_loaded := (is_loaded F rules gs).
Definition looked (l : list (nat * group F)) : list (text * card F) := flat_map (fun ig => map (pair (fst (snd ig))) (snd (snd ig))) (filter is_loaded l).
Definition no_cards (ig : nat * group F) : bool := negb (has_cards F (snd ig)).
Definition unlisted (ig : nat * group F) : bool := has_cards F (snd ig) && negb (is_loaded ig).
Definition inv (pre : list (group F)) (s : loaded F) : Prop :=
  let l := combine (seq 0 (length pre)) pre in
  after (looked l) s /\ l_empty F s = ids F (filter no_cards l) /\ l_unlisted F s = ids F (filter unlisted l) /\
  (forall n, mem n (l_used F s) = existsb (fun g => has_cards F g && text_eqb (fst g) n) pre).
Lemma combine_snoc : forall (pre : list (group F)) g, combine (seq 0 (length (pre ++ [g]))) (pre ++ [g]) = combine (seq 0 (length pre)) pre ++ [(length pre, g)].
Proof.
  intros pre g. rewrite app_length. cbn [length]. rewrite seq_app. cbn [seq]. generalize (seq_length (length pre) 0). generalize (seq 0 (length pre)).
  induction pre as [|x pre IH]; intros l Hl; destruct l as [|y l]; cbn in *; try discriminate; [reflexivity|]. f_equal.
  specialize (IH l). injection Hl as Hl.
  assert (G : forall (m : nat) (a : list nat) (b : list (group F)), length a = length b -> combine (a ++ [m]) (b ++ [g]) = combine a b ++ [(m, g)]).
  { intros m a. induction a as [|z a IHa]; intros [|w b] E; cbn in *; try discriminate; [reflexivity|]. f_equal. apply IHa. congruence. }
  apply G. exact Hl.
Qed.
Lemma mem_app : forall x a b, mem x (a ++ b) = mem x a || mem x b.
Proof. intros. unfold mem. apply existsb_app. Qed.
Lemma ids_app : forall a b, ids F (a ++ b) = ids F a ++ ids F b.
Proof. intros. apply map_app. Qed.
Lemma load_group_inv : forall pre g post s, gs = pre ++ g :: post -> inv pre s -> inv (pre ++ [g]) (load_group F after_setup rules ignore s (length pre, g)).
Proof.
  intros pre g post s Hgs (Ha & He & Hu & Hm). unfold inv. cbv zeta. rewrite combine_snoc. unfold looked. rewrite !filter_app, flat_map_app. fold (looked (combine (seq 0 (length pre)) pre)).
  rewrite !ids_app. rewrite <- He, <- Hu. cbn [filter].
  assert (Hf : fresh F gs (length pre, g) = negb (mem (fst g) (l_used F s))).
  { unfold fresh. cbn [fst snd]. rewrite Hgs, firstn_app, firstn_all, Nat.sub_diag. cbn [firstn]. rewrite app_nil_r, Hm. reflexivity. }
  assert (Hmem : forall u, existsb (fun g => has_cards F g && text_eqb (fst g) u) (pre ++ [g]) = mem u (l_used F s) || (has_cards F g && text_eqb (fst g) u)).
  { intro u. rewrite existsb_app, <- Hm. cbn. rewrite orb_false_r. reflexivity. }
  assert (Hl : is_loaded (length pre, g) = has_cards F g && (negb (mem (fst g) (l_used F s)) && known F rules g)).
  { unfold NamelistSpec.is_loaded. cbn [snd]. rewrite Hf. reflexivity. }
  assert (Hul : unlisted (length pre, g) = has_cards F g && negb (is_loaded (length pre, g))) by reflexivity.
  assert (Hno : no_cards (length pre, g) = negb (has_cards F g)) by reflexivity.
  rewrite Hul, Hno, Hl. clear Hul Hno Hl Hf. generalize (fun u => Hmem u). clear Hmem. intro Hmem. destruct g as [n cs]. cbn [fst] in Hmem |- *.
  unfold load_group. destruct cs as [|c cs].
  - cbn [has_cards snd negb andb flat_map map ids app]. rewrite !app_nil_r. split; [exact Ha|]. cbn [l_empty l_unlisted l_used]. split; [reflexivity|]. split; [reflexivity|].
    intro u. rewrite Hmem. cbn [has_cards snd andb]. rewrite orb_false_r. reflexivity.
  - cbn [has_cards snd negb andb]. destruct (mem n (l_used F s)) eqn:En.
    + cbn [negb andb flat_map map ids app fst snd]. rewrite !app_nil_r. split; [exact Ha|]. cbn [l_empty l_unlisted l_used]. split; [reflexivity|]. split; [reflexivity|].
      intro u. rewrite Hmem. cbn [has_cards snd andb]. destruct (text_eqb n u) eqn:E; [|rewrite orb_false_r; reflexivity]. apply text_eqb_spec in E. subst u. rewrite En. reflexivity.
    + cbn [negb andb]. set (s1 := mkL F (l_params F s) (l_empty F s) (l_unlisted F s) (l_unlinked F s) (l_used F s ++ [n])).
      assert (A1 : after (looked (combine (seq 0 (length pre)) pre)) s1) by exact Ha.
      assert (M1 : forall u, mem u (l_used F s1) = mem u (l_used F s) || text_eqb n u).
      { intro u. unfold s1. cbn [l_used]. rewrite mem_app. f_equal. unfold mem. cbn. rewrite orb_false_r. destruct (text_eqb u n) eqn:E1.
        - apply text_eqb_spec in E1. subst. symmetry. apply text_eqb_refl.
        - symmetry. apply text_eqb_neq. intros ->. rewrite text_eqb_refl in E1. discriminate. }
      destruct (known F rules (n, c :: cs)) eqn:Ek.
      * cbn [negb flat_map map ids app fst snd]. rewrite !app_nil_r.
        assert (Hkn : match rules with [] => True | _ => has rules n = true end) by (unfold known in Ek; cbn [fst] in Ek; destruct rules; [exact I|exact Ek]).
        destruct (load_cards_known (length pre) n (c :: cs) _ s1 Hkn A1) as (B1 & B2 & B3 & B4).
        split; [exact B1|]. rewrite B2, B3, B4. split; [reflexivity|]. split; [reflexivity|]. intro u. rewrite Hmem, M1. reflexivity.
      * assert (Hr : rules <> [] /\ has rules n = false) by (unfold known in Ek; cbn [fst] in Ek; destruct rules; [discriminate|split; [discriminate|exact Ek]]).
        destruct Hr as [Hr Hh]. rewrite (load_cards_unknown (length pre) n c cs s1 Hr Hh). cbn [negb flat_map map ids app fst snd l_params l_empty l_unlisted l_unlinked l_used]. rewrite !app_nil_r.
        split; [exact A1|]. split; [reflexivity|]. split; [reflexivity|]. intro u. rewrite Hmem. unfold s1 in M1. cbn [l_used] in M1. rewrite M1. reflexivity.
Qed.
Lemma load_all : forall post pre s, gs = pre ++ post -> inv pre s ->
  inv gs (fold_left (load_group F after_setup rules ignore) (combine (seq (length pre) (length post)) post) s).
Proof.
  induction post as [|g post IH]; intros pre s E H; cbn.
  - rewrite app_nil_r in E. subst pre. exact H.
  - assert (E' : gs = (pre ++ [g]) ++ post) by (rewrite <- app_assoc; exact E). specialize (IH (pre ++ [g]) _ E' (load_group_inv pre g post s E H)).
    rewrite app_length in IH. cbn [length] in IH. rewrite Nat.add_1_r in IH. exact IH.
Qed.
End Load.
Lemma load_model_all : forall F after_setup rules ignore (d : deck F) p0, groups F d <> [] ->
  exists s, load_model F after_setup rules ignore None d p0 = Ok s /\ inv F after_setup rules ignore p0 (groups F d) (groups F d) s.
Proof.
  intros F after_setup rules ignore d p0 H. unfold load_model. destruct (groups F d) as [|g gs] eqn:E; [congruence|]. cbn [bind]. eexists. split; [reflexivity|].
  apply (load_all F after_setup rules ignore p0 (g :: gs) (g :: gs) []); [reflexivity|]. split; [|split; [reflexivity|split; [reflexivity|intro; reflexivity]]].
  split; [|reflexivity]. intro v. cbn. destruct (get p0 v); reflexivity.
Qed.

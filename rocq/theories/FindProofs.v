From Verif Require Import Base BaseFacts ExprModel FindModel FindSpec.
Local Open Scope list_scope.

Lemma teqb_refl : forall a, teqb a a = true.
Proof. intros a. unfold teqb. destruct (text_dec a a); [reflexivity|contradiction]. Qed.
Lemma teqb_true : forall a b, teqb a b = true -> a = b.
Proof. intros a b H. unfold teqb in H. destruct (text_dec a b); [assumption|discriminate]. Qed.
Lemma teqb_neq : forall a b, a <> b -> teqb a b = false.
Proof. intros a b H. unfold teqb. destruct (text_dec a b); [contradiction|reflexivity]. Qed.
Lemma is_slash_true : forall c, is_slash c = true -> c = slash.
Proof. intros c H. apply Ascii.eqb_eq. exact H. Qed.
Lemma is_slash_no : forall c n, ~ In slash n -> In c n -> is_slash c = false.
Proof. intros c n N H. destruct (is_slash c) eqn:E; [|reflexivity]. apply is_slash_true in E. subst. contradiction. Qed.

Section TreeInd.
Variable P : tree -> Prop.
Hypothesis H : forall files dirs, Forall (fun nd => P (snd nd)) dirs -> P (Tree files dirs).
Fixpoint tree_ind2 (t : tree) : P t :=
  match t with
  | Tree files dirs => H files dirs ((fix go (l : list (txt * tree)) : Forall (fun nd => P (snd nd)) l :=
      match l with [] => Forall_nil _ | nd :: r => Forall_cons nd (tree_ind2 (snd nd)) (go r) end) dirs)
  end.
End TreeInd.

(** ** Filters *)
Lemma matching_wanted : forall fnm m e n, matching fnm m e n = true <-> wanted fnm m e n.
Proof.
  intros fnm m e n. unfold wanted. assert (A : matcher fnm m n = true <-> matches fnm m n).
  { destruct m; cbn; [|reflexivity|reflexivity]. split; intros H.
    - intros ->. rewrite teqb_refl in H. discriminate.
    - rewrite teqb_neq by exact H. reflexivity. }
  destruct e; cbn; rewrite ?andb_true_iff, ?negb_true_iff, A.
  - tauto.
  - destruct (fnm n p); intuition congruence.
  - destruct (f n); intuition congruence.
Qed.
Lemma filter_all : forall {A} (f : A -> bool) l, length (filter f l) = length l -> filter f l = l.
Proof.
  intros A f. induction l as [|a l IH]; intros E; [reflexivity|]. cbn in *. destruct (f a); [f_equal; apply IH; cbn in E; lia|].
  exfalso. assert (B : forall l : list A, (length (filter f l) <= length l)%nat) by (induction l0; cbn; [lia|destruct (f a0); cbn; lia]). specialize (B l). lia.
Qed.
Lemma pruned : forall (d : txt -> bool) names, (if Nat.eqb (length (filter d names)) (length names) then names else filter d names) = filter d names.
Proof. intros d names. destruct (Nat.eqb _ _) eqn:E; [|reflexivity]. apply Nat.eqb_eq in E. symmetry. apply filter_all. exact E. Qed.
Lemma in_pruned : forall (d : txt -> bool) names n, In n names -> existsb (teqb n) (filter d names) = d n.
Proof.
  intros d names n Hn. destruct (d n) eqn:E.
  - apply existsb_exists. exists n. split; [apply filter_In; split; assumption|apply teqb_refl].
  - apply not_true_iff_false. intros A. apply existsb_exists in A. destruct A as (x & Hx & Ex). apply teqb_true in Ex. subst x. apply filter_In in Hx. destruct Hx. congruence.
Qed.
Lemma flat_map_ext_in : forall {A B} (f g : A -> list B) l, (forall a, In a l -> f a = g a) -> flat_map f l = flat_map g l.
Proof. intros A B f g. induction l as [|a l IH]; intros H; [reflexivity|]. cbn. rewrite H by (left; reflexivity). rewrite IH; [reflexivity|]. intros x Hx. apply H. right. exact Hx. Qed.
Lemma walk_eq : forall fm d path files dirs,
  walk fm (Some d) path (Tree files dirs) =
  map (join path) (filter fm files) ++ flat_map (fun nd => if d (fst nd) then walk fm (Some d) (join path (fst nd)) (snd nd) else []) dirs.
Proof.
  intros. cbn [walk]. f_equal. apply flat_map_ext_in. intros nd Hn. rewrite pruned, in_pruned; [reflexivity|]. apply in_map. exact Hn.
Qed.
Lemma walk_in : forall fm d t path r, In r (walk fm (Some d) path t) <->
  exists ds f, has t ds f /\ Forall (fun x => d x = true) ds /\ fm f = true /\ r = fold_left join (ds ++ [f]) path.
Proof.
  intros fm d. induction t as [files dirs IH] using tree_ind2. intros path r. rewrite walk_eq, in_app_iff, in_map_iff, in_flat_map. rewrite Forall_forall in IH. split.
  - intros [(f & <- & Hf)|([n t] & Hn & Hr)].
    + apply filter_In in Hf. destruct Hf as [Hf1 Hf2]. exists [], f. split; [constructor; exact Hf1|]. split; [constructor|]. split; [exact Hf2|reflexivity].
    + cbn [fst snd] in Hr. destruct (d n) eqn:E; [|contradiction]. apply (IH _ Hn) in Hr. destruct Hr as (ds & f & H1 & H2 & H3 & ->).
      exists (n :: ds), f. split; [econstructor; eassumption|]. split; [constructor; assumption|]. split; [exact H3|reflexivity].
  - intros (ds & f & H1 & H2 & H3 & ->). inversion H1 as [? ? ? Hi|? ? n t ds' ? Hn Hb]; subst.
    + left. exists f. split; [reflexivity|]. apply filter_In. split; assumption.
    + right. exists (n, t). split; [exact Hn|]. cbn [fst snd]. inversion H2 as [|? ? Hd Hds]; subst. rewrite Hd. apply (IH _ Hn). exists ds', f. repeat split; assumption.
Qed.
Lemma find_concat : forall fnm disk starts mat exc dirm dire,
  find_files fnm disk starts mat exc dirm dire = concat (map (fun d => file_gen disk d (matching fnm mat exc) (Some (matching fnm dirm dire))) starts).
Proof.
  intros. unfold find_files. destruct starts as [|s [|s' r]]; [reflexivity| |reflexivity]. cbn. rewrite app_nil_r. reflexivity.
Qed.

(** ** No file twice *)
Definition base (p : txt) : txt := match rev p with [] => [] | d :: _ => if is_slash d then p else p ++ [slash] end.
Lemma join_base : forall p n, name_ok n -> join p n = base p ++ n.
Proof.
  intros p [|c n] [H1 H2]; [contradiction|]. unfold join, base. rewrite (is_slash_no c (c :: n) H2 (or_introl eq_refl)).
  destruct (rev p) as [|d q] eqn:E; [|destruct (is_slash d); [reflexivity|rewrite <- app_assoc; reflexivity]].
  reflexivity.
Qed.
Lemma base_join : forall p n, name_ok n -> base (join p n) = base p ++ n ++ [slash].
Proof.
  intros p n H. rewrite (join_base p n H). unfold base at 1. rewrite rev_app_distr. destruct H as [H1 H2]. destruct (rev n) as [|d q] eqn:E.
  - apply (f_equal (@rev ascii)) in E. rewrite rev_involutive in E. contradiction.
  - cbn [app]. rewrite (is_slash_no d n H2); [rewrite app_assoc; reflexivity|]. apply in_rev. rewrite E. left. reflexivity.
Qed.
Lemma walk_base : forall fm d t path, tree_ok t -> forall r, In r (walk fm (Some d) path t) -> exists w, r = base path ++ w.
Proof.
  intros fm d. induction t as [files dirs IH] using tree_ind2. intros path Ht r Hr. inversion Ht as [? ? Hf _ _ Hd]; subst. rewrite walk_eq, in_app_iff, in_map_iff, in_flat_map in Hr.
  destruct Hr as [(f & <- & Hi)|([n t] & Hn & Hr)].
  - apply filter_In in Hi. destruct Hi as [Hi _]. rewrite Forall_forall in Hf. exists f. apply join_base. apply Hf. exact Hi.
  - cbn [fst snd] in Hr. destruct (d n); [|contradiction]. destruct (Hd n t Hn) as [Ok Ot]. rewrite Forall_forall in IH. destruct (IH _ Hn _ Ot _ Hr) as (w & ->).
    rewrite (base_join _ _ Ok). exists (n ++ slash :: w). rewrite <- !app_assoc. reflexivity.
Qed.
Lemma first_part : forall n n' x x', ~ In slash n -> ~ In slash n' -> n ++ slash :: x = n' ++ slash :: x' -> n = n' /\ x = x'.
Proof.
  induction n as [|c n IH]; intros [|c' n'] x x' N N' E; cbn in E.
  - injection E as ->. split; reflexivity.
  - injection E as <- _. exfalso. apply N'. left. reflexivity.
  - injection E as -> _. exfalso. apply N. left. reflexivity.
  - injection E as -> E. destruct (IH n' x x') as [-> ->]; [intros A; apply N; right; exact A|intros A; apply N'; right; exact A|exact E|]. split; reflexivity.
Qed.
Lemma NoDup_app_intro : forall {A} (l m : list A), NoDup l -> NoDup m -> (forall x, In x l -> ~ In x m) -> NoDup (l ++ m).
Proof.
  intros A. induction l as [|a l IH]; intros m Hl Hm D; [exact Hm|]. inversion Hl; subst. cbn. constructor.
  - intros Hi. apply in_app_or in Hi. destruct Hi as [Hi|Hi]; [contradiction|]. exact (D a (or_introl eq_refl) Hi).
  - apply IH; [assumption|exact Hm|]. intros x Hx. apply D. right. exact Hx.
Qed.
Lemma NoDup_filter_map : forall {A B} (f : A -> bool) (g : A -> B) l, NoDup l -> (forall a b, In a l -> In b l -> g a = g b -> a = b) -> NoDup (map g (filter f l)).
Proof.
  intros A B f g. induction l as [|a l IH]; intros Hl Hg; [constructor|]. inversion Hl; subst. cbn.
  assert (R : NoDup (map g (filter f l))) by (apply IH; [assumption|intros x y Hx Hy; apply Hg; right; assumption]).
  destruct (f a); [|exact R]. cbn. constructor; [|exact R]. intros Hi. apply in_map_iff in Hi. destruct Hi as (b & Eb & Hb). apply filter_In in Hb. destruct Hb as [Hb _].
  assert (b = a) by (apply Hg; [right; exact Hb|left; reflexivity|exact Eb]). subst. contradiction.
Qed.
Lemma walk_nodup : forall fm d t path, tree_ok t -> NoDup (walk fm (Some d) path t).
Proof.
  intros fm d. induction t as [files dirs IH] using tree_ind2. intros path Ht. inversion Ht as [? ? Hf Nf Nd Hd]; subst. rewrite walk_eq. rewrite Forall_forall in Hf.
  apply NoDup_app_intro.
  - apply NoDup_filter_map; [exact Nf|]. intros a b Ha Hb E. rewrite (join_base _ a (Hf a Ha)), (join_base _ b (Hf b Hb)) in E. apply app_inv_head in E. exact E.
  - clear Ht. induction dirs as [|[n t] dirs IHd]; [constructor|]. inversion IH as [|? ? Hx Hr]; subst. cbn [flat_map fst snd map] in *. inversion Nd as [|? ? N1 N2]; subst.
    destruct (Hd n t (or_introl eq_refl)) as [On Ot].
    apply NoDup_app_intro; [destruct (d n); [apply Hx; exact Ot|constructor]|apply IHd; [exact Hr|exact N2|intros d0 t0 Hi; apply Hd; right; exact Hi]|].
    intros r H1 H2. destruct (d n); [|contradiction]. apply in_flat_map in H2. destruct H2 as ([n' t'] & Hn' & H2). cbn [fst snd] in H2. destruct (d n'); [|contradiction].
    destruct (Hd n' t' (or_intror Hn')) as [On' Ot'].
    destruct (walk_base _ _ _ _ Ot _ H1) as (w & E1). destruct (walk_base _ _ _ _ Ot' _ H2) as (w' & E2). rewrite E1 in E2. rewrite !base_join, <- !app_assoc in E2 by assumption.
    apply app_inv_head in E2. cbn [app] in E2. destruct (first_part n n' w w' (proj2 On) (proj2 On') E2) as [-> _]. apply N1. change n' with (fst (n', t')). apply in_map. exact Hn'.
  - intros r H1 H2. apply in_map_iff in H1. destruct H1 as (f & <- & Hi). apply filter_In in Hi. destruct Hi as [Hi _]. apply in_flat_map in H2. destruct H2 as ([n t] & Hn & H2). cbn [fst snd] in H2. destruct (d n); [|contradiction].
    destruct (Hd n t Hn) as [On Ot]. destruct (walk_base _ _ _ _ Ot _ H2) as (w & E). rewrite (join_base _ f (Hf f Hi)), (base_join _ n On), <- app_assoc in E. apply app_inv_head in E.
    apply (proj2 (Hf f Hi)). rewrite E. apply in_or_app. left. apply in_or_app. right. left. reflexivity.
Qed.

(** ** Upwards *)
Definition cat (cs : list txt) : txt := concat (map (fun c => slash :: c) cs).
Lemma cat_snoc : forall cs c, cat (cs ++ [c]) = cat cs ++ slash :: c.
Proof. intros. unfold cat. rewrite map_app, concat_app. cbn. rewrite app_nil_r. reflexivity. Qed.
Lemma abs_cat : forall cs, cs <> [] -> abs cs = cat cs.
Proof. intros [|c cs] H; [contradiction|reflexivity]. Qed.
Lemma abs_snoc : forall cs c, abs (cs ++ [c]) = cat cs ++ slash :: c.
Proof. intros. rewrite abs_cat, cat_snoc; [reflexivity|destruct cs; discriminate]. Qed.
Lemma dropwhile_app : forall f a b, forallb f a = true -> dropwhile f (a ++ b) = dropwhile f b.
Proof. induction a as [|c a IH]; intros b H; [reflexivity|]. cbn in *. apply andb_true_iff in H. destruct H as [H1 H2]. rewrite H1. apply IH. exact H2. Qed.
Lemma not_slash_all : forall n, ~ In slash n -> forallb (fun c => negb (is_slash c)) n = true.
Proof. intros n N. apply forallb_forall. intros c Hc. rewrite (is_slash_no c n N Hc). reflexivity. Qed.
Lemma dirname_snoc : forall cs c, Forall name_ok cs -> name_ok c -> dirname (abs (cs ++ [c])) = abs cs.
Proof.
  intros cs c Hcs [Hc Nc]. rewrite abs_snoc. unfold dirname. rewrite rev_app_distr. cbn [rev]. rewrite <- app_assoc.
  rewrite dropwhile_app by (apply not_slash_all; intros A; apply in_rev in A; contradiction). cbn [app dropwhile]. change (is_slash slash) with true. cbn [negb].
  destruct cs as [|c0 cs0] using rev_ind; [reflexivity|clear IHcs0]. apply Forall_app in Hcs. destruct Hcs as [_ Hc0]. inversion Hc0 as [|? ? [N0 S0] _]; subst.
  rewrite cat_snoc, rev_app_distr. cbn [rev]. rewrite <- app_assoc. rewrite abs_snoc.
  destruct (rev c0) as [|d q] eqn:E; [apply (f_equal (@rev ascii)) in E; rewrite rev_involutive in E; contradiction|].
  assert (Hd : is_slash d = false) by (apply (is_slash_no d c0 S0); apply in_rev; rewrite E; left; reflexivity).
  cbn [forallb app]. change (is_slash slash) with true. rewrite Hd. cbn [andb dropwhile]. change (is_slash slash) with true. rewrite Hd. cbv iota.
  assert (G : d :: q ++ [slash] ++ rev (cat cs0) = rev (cat cs0 ++ slash :: c0)) by (rewrite rev_app_distr; cbn [rev]; rewrite E, <- app_assoc; reflexivity).
  change (d :: q ++ slash :: rev (cat cs0)) with (d :: q ++ [slash] ++ rev (cat cs0)). rewrite G, rev_involutive. reflexivity.
Qed.
Lemma join_abs : forall cs n, Forall name_ok cs -> name_ok n -> join (abs cs) n = abs (cs ++ [n]).
Proof.
  intros cs n Hcs Hn. rewrite (join_base _ _ Hn), abs_snoc. destruct cs as [|c0 cs0] using rev_ind; [reflexivity|clear IHcs0]. apply Forall_app in Hcs. destruct Hcs as [_ Hc0]. inversion Hc0 as [|? ? [N0 S0] _]; subst.
  unfold base. rewrite abs_snoc, rev_app_distr. cbn [rev]. destruct (rev c0) as [|d q] eqn:E; [apply (f_equal (@rev ascii)) in E; rewrite rev_involutive in E; contradiction|].
  cbn [app]. rewrite (is_slash_no d c0 S0) by (apply in_rev; rewrite E; left; reflexivity). rewrite cat_snoc. cbn. rewrite <- app_assoc. reflexivity.
Qed.
Lemma split_word : forall n r, ~ In slash n -> split_slash (n ++ r) = match split_slash r with [] => [n] | w :: ws => (n ++ w) :: ws end.
Proof.
  induction n as [|c n IH]; intros r N; [cbn; destruct r; [reflexivity|]; cbn; destruct (is_slash a); [reflexivity|destruct (split_slash r); reflexivity]|].
  cbn [app split_slash]. rewrite (is_slash_no c (c :: n) N (or_introl eq_refl)). rewrite IH by (intros A; apply N; right; exact A). destruct (split_slash r); reflexivity.
Qed.
Lemma split_cat : forall cs, Forall name_ok cs -> split_slash (cat cs) = [] :: cs.
Proof.
  intros cs. unfold cat. induction cs as [|c cs IH]; intros H; [reflexivity|]. inversion H as [|? ? [_ N] H']; subst. cbn [map concat app split_slash]. change (is_slash slash) with true. cbv iota. f_equal.
  rewrite split_word by exact N. rewrite IH by exact H'. rewrite app_nil_r. reflexivity.
Qed.
Lemma norm_plain : forall cs new, Forall plain cs -> Forall (fun c => c <> dotdot) new -> fold_left (norm_step true) cs new = new ++ cs.
Proof.
  induction cs as [|c cs IH]; intros new H Hn; [rewrite app_nil_r; reflexivity|]. inversion H as [|? ? [[N _] [D DD]] H']; subst. cbn [fold_left].
  assert (E : norm_step true new c = new ++ [c]). { unfold norm_step. rewrite (teqb_neq c [] N), (teqb_neq c dot D), (teqb_neq c dotdot DD). reflexivity. }
  rewrite E, IH; [rewrite <- app_assoc; reflexivity|exact H'|]. apply Forall_app. split; [exact Hn|constructor; [exact DD|constructor]].
Qed.
Lemma join_slash_cat : forall c cs, slash :: join_slash (c :: cs) = cat (c :: cs).
Proof. intros c cs. revert c. induction cs as [|c' cs IH]; intros c; [unfold cat; cbn; rewrite app_nil_r; reflexivity|]. change (join_slash (c :: c' :: cs)) with (c ++ slash :: join_slash (c' :: cs)). rewrite IH. reflexivity. Qed.
Lemma norm_abs : forall cs, Forall plain cs -> normpath (abs cs) = abs cs.
Proof.
  intros [|c cs] H; [reflexivity|]. assert (Hk : Forall name_ok (c :: cs)) by (eapply Forall_impl; [|exact H]; intros a [A _]; exact A).
  rewrite abs_cat by discriminate. pose proof (split_cat _ Hk) as Sp.
  assert (Ei : initial (cat (c :: cs)) = 1%nat).
  { inversion Hk as [|? ? [N S] _]; subst. destruct c as [|a c]; [contradiction|]. assert (Ha : is_slash a = false) by (apply (is_slash_no a (a :: c) S); left; reflexivity).
    unfold cat. cbn [map concat app]. unfold initial. change (is_slash slash) with true. rewrite Ha. destruct (c ++ _); reflexivity. }
  assert (En : forall p, p <> [] -> normpath p = match repeat slash (initial p) ++ join_slash (fold_left (norm_step (Nat.ltb 0 (initial p))) (split_slash p) []) with [] => dot | r => r end).
  { intros [|b p] Hb; [contradiction|]. unfold normpath. destruct (repeat slash (initial (b :: p)) ++ _); reflexivity. }
  rewrite En by discriminate. rewrite Ei, Sp. cbn [Nat.ltb Nat.leb].
  assert (Fo : fold_left (norm_step true) ([] :: c :: cs) [] = c :: cs) by (exact (norm_plain (c :: cs) [] H (Forall_nil _))).
  rewrite Fo. cbn [repeat app]. rewrite join_slash_cat. reflexivity.
Qed.

(** ** The search *)
Lemma dropwhile_le : forall f l, (length (dropwhile f l) <= length l)%nat.
Proof. induction l as [|c l IH]; cbn; [lia|destruct (f c); cbn; lia]. Qed.
Lemma dirname_le : forall p, (length (dirname p) <= length p)%nat.
Proof.
  intros p. unfold dirname. rewrite rev_length. pose proof (dropwhile_le (fun c => negb (is_slash c)) (rev p)) as A. rewrite rev_length in A.
  destruct (forallb is_slash _); [exact A|]. pose proof (dropwhile_le is_slash (dropwhile (fun c => negb (is_slash c)) (rev p))). lia.
Qed.
Lemma dropwhile_suffix : forall f l, exists a, l = a ++ dropwhile f l.
Proof. induction l as [|c l IH]; [exists []; reflexivity|]. cbn. destruct (f c); [destruct IH as (a & E); exists (c :: a); cbn; rewrite <- E; reflexivity|exists []; reflexivity]. Qed.
Lemma dirname_prefix : forall p, exists a, p = dirname p ++ a.
Proof.
  intros p. unfold dirname. destruct (dropwhile_suffix (fun c => negb (is_slash c)) (rev p)) as (a & Ea). set (h := dropwhile _ (rev p)) in *.
  assert (X : exists b, rev p = b ++ (if forallb is_slash h then h else dropwhile is_slash h)).
  { destruct (forallb is_slash h); [exists a; exact Ea|]. destruct (dropwhile_suffix is_slash h) as (b & Eb). exists (a ++ b). rewrite <- app_assoc, <- Eb. exact Ea. }
  destruct X as (b & Eb). exists (rev b). rewrite <- rev_app_distr, <- Eb, rev_involutive. reflexivity.
Qed.
Lemma dirname_lt : forall p, dirname p <> p -> (length (dirname p) < length p)%nat.
Proof.
  intros p N. destruct (dirname_prefix p) as (a & E). destruct a as [|c a]; [rewrite app_nil_r in E; congruence|]. rewrite E at 2. rewrite app_length. cbn. lia.
Qed.
Lemma up_fuel : forall ex cwd name n path, (length path < n)%nat -> forall m, (length path < m)%nat -> up ex cwd n name path = up ex cwd m name path.
Proof.
  intros ex cwd name. induction n as [|n IH]; intros path Hn m Hm; [lia|]. destruct m as [|m]; [lia|]. cbn [up]. destruct path as [|c path]; [reflexivity|].
  destruct (ex _); [reflexivity|]. destruct (teqb (dirname (c :: path)) (c :: path)) eqn:E; [reflexivity|].
  assert (L : (length (dirname (c :: path)) < length (c :: path))%nat) by (apply dirname_lt; intros A; rewrite A, teqb_refl in E; discriminate). apply IH; lia.
Qed.
Lemma abs_inj_len : forall cs c, (length (abs cs) < length (abs (cs ++ [c])))%nat \/ cs = [].
Proof. intros cs c. rewrite abs_snoc. destruct cs as [|c0 cs]; [right; reflexivity|left]. rewrite abs_cat by discriminate. rewrite app_length. cbn. lia. Qed.
Lemma up_abs : forall ex cwd name, name_ok name -> forall cs fuel, Forall name_ok cs -> (length (abs cs) < fuel)%nat ->
  match up ex cwd fuel name (abs cs) with
  | Some r => exists k, nearest ex name cs k /\ r = abspath cwd (abs (firstn k cs ++ [name]))
  | None => forall k, (k <= length cs)%nat -> ex (abs (firstn k cs ++ [name])) = false
  end.
Proof.
  intros ex cwd name Hn. induction cs as [|c cs IH] using rev_ind; intros fuel Hcs Hf.
  - destruct fuel as [|fuel]; [lia|]. cbn [up abs]. change (join [slash] name) with (join (abs []) name). rewrite (join_abs [] name (Forall_nil _) Hn).
    destruct (ex (abs ([] ++ [name]))) eqn:E.
    + exists 0%nat. split; [|reflexivity]. split; [cbn; lia|]. split; [exact E|]. cbn. intros j Hj. lia.
    + change (dirname [slash]) with [slash]. rewrite teqb_refl. intros k Hk. destruct k; [exact E|cbn in Hk; lia].
  - destruct fuel as [|fuel]; [lia|]. pose proof Hcs as Hall. apply Forall_app in Hcs. destruct Hcs as [Hcs Hc]. inversion Hc as [|? ? Hc1 _]; subst.
    cbn [up]. destruct (abs (cs ++ [c])) as [|a0 p0] eqn:Ep; [rewrite abs_snoc in Ep; destruct (cat cs); discriminate|]. rewrite <- Ep in *. clear Ep a0 p0.
    rewrite (join_abs _ name Hall Hn).
    destruct (ex (abs ((cs ++ [c]) ++ [name]))) eqn:E.
    + exists (length (cs ++ [c])). rewrite firstn_all. split; [|reflexivity]. split; [lia|]. rewrite firstn_all. split; [exact E|]. intros j Hj. lia.
    + rewrite (dirname_snoc cs c Hcs Hc1). rewrite teqb_neq.
      * assert (Fi : forall k, (k <= length cs)%nat -> firstn k (cs ++ [c]) = firstn k cs) by (intros k Hk; rewrite firstn_app; replace (k - length cs)%nat with 0%nat by lia; cbn; apply app_nil_r).
        assert (Lf : (length (abs cs) < fuel)%nat). { destruct (abs_inj_len cs c) as [L|L]; [lia|]. subst cs. destruct Hc1 as [N1 _]. destruct c; [contradiction|]. cbn in Hf |- *. lia. }
        specialize (IH fuel Hcs Lf). destruct (up ex cwd fuel name (abs cs)) as [r|].
        -- destruct IH as (k & (K1 & K2 & K3) & ->). exists k. rewrite (Fi k K1). split; [|reflexivity]. unfold nearest. rewrite (Fi k K1), app_length. cbn [length]. split; [lia|]. split; [exact K2|].
           intros j Hj. destruct (Nat.eq_dec j (length cs + 1)) as [->|Nj].
           ++ rewrite firstn_all2 by (rewrite app_length; cbn; lia). exact E.
           ++ rewrite Fi by lia. apply K3. lia.
        -- intros k Hk. rewrite app_length in Hk. cbn in Hk. destruct (Nat.eq_dec k (length cs + 1)) as [->|Nj]; [rewrite firstn_all2 by (rewrite app_length; cbn; lia); exact E|]. rewrite Fi by lia. apply IH. lia.
      * intros A. destruct (abs_inj_len cs c) as [L|L]; [rewrite A in L; lia|]. subst cs. cbn in A. destruct Hc1 as [N1 _]. destruct c; [contradiction|discriminate].
Qed.

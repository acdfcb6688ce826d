(** Lemmas about sparse Jacobians in the pyOptSparse driver. *)
From Verif Require Import Base BaseFacts SpsModel SpsSpec.
Local Open Scope string_scope.
Local Open Scope nat_scope.
Local Open Scope list_scope.

Lemma inb_iff : forall x l, inb x l = true <-> In x l.
Proof. intros x l. unfold inb. rewrite existsb_exists. split; [intros (y & I & E); apply String.eqb_eq in E; subst; exact I|intros I; exists x; split; [exact I|apply String.eqb_refl]]. Qed.
Lemma mem_nat_iff : forall x l, mem_nat x l = true <-> In x l.
Proof. intros x l. unfold mem_nat. rewrite existsb_exists. split; [intros (y & I & E); apply Nat.eqb_eq in E; subst; exact I|intros I; exists x; split; [exact I|apply Nat.eqb_refl]]. Qed.
Lemma index_of_in : forall l x, In x l -> index_of x l < length l /\ nth (index_of x l) l 0 = x.
Proof.
  induction l as [|y l IH]; intros x I; [destruct I|]. cbn [index_of]. destruct (Nat.eqb_spec x y) as [->|N]; [split; [cbn; lia|reflexivity]|].
  destruct I as [->|I]; [contradiction|]. destruct (IH x I) as [A B]. split; [cbn; lia|exact B].
Qed.
Lemma index_of_nth : forall l j, NoDup l -> j < length l -> index_of (nth j l 0) l = j.
Proof. intros l j ND L. destruct (index_of_in l (nth j l 0) (nth_In l 0 L)) as [A B]. exact (proj1 (NoDup_nth l 0) ND _ _ A L B). Qed.

Lemma NoDup_fst_eq : forall {X : Type} (l : list (string * X)) k x y, NoDup (map fst l) -> In (k, x) l -> In (k, y) l -> x = y.
Proof.
  induction l as [|[k' z] l IH]; intros k x y ND I J; [destruct I|]. cbn [map fst] in ND. inversion ND; subst. destruct I as [E|I], J as [F|J].
  - congruence.
  - inversion E; subst. exfalso. apply (in_map fst) in J. auto.
  - inversion F; subst. exfalso. apply (in_map fst) in I. auto.
  - apply (IH k); assumption.
Qed.

Section Chain.
  Context {A : Type}.
  Variable zero : A.
  Variable add : A -> A -> A.
  Hypothesis add_zero : forall a, add zero a = a.
  Lemma total_zero : forall l, (forall x, In x l -> x = zero) -> total zero add l = zero.
  Proof. induction l as [|x l IH]; intros H; [reflexivity|]. cbn [total fold_right]. rewrite (H x (or_introl eq_refl)). change (add zero (total zero add l) = zero). rewrite add_zero. apply IH. intros y I. apply H. right. exact I. Qed.

  Variable enum : list nat -> list nat.
  Hypothesis En : enumerates enum.
  Variable D : string -> nat -> nat -> A.

  Lemma sub_in : forall path dv cs t idx, In (t, (path, Some idx)) cs -> In (t, mapped enum dv idx) (sub_conns enum path dv cs).
  Proof.
    intros path dv. induction cs as [|[t' [s o]] cs IH]; intros t idx I; [destruct I|]. cbn [sub_conns]. destruct I as [E|I].
    - inversion E; subst. rewrite String.eqb_refl. left. reflexivity.
    - apply IH in I. destruct o as [l|]; [destruct (String.eqb s path); [right|]|]; exact I.
  Qed.
  Lemma sub_out : forall path dv cs t m, In (t, m) (sub_conns enum path dv cs) -> exists idx, m = mapped enum dv idx /\ In (t, (path, Some idx)) cs.
  Proof.
    intros path dv. induction cs as [|[t' [s o]] cs IH]; intros t m I; [destruct I|]. cbn [sub_conns] in I. destruct o as [l|].
    - destruct (String.eqb_spec s path) as [->|N].
      + destruct I as [E|I]; [inversion E; subst; exists l; split; [reflexivity|left; reflexivity]|]. destruct (IH t m I) as (idx & E & J). exists idx. split; [exact E|right; exact J].
      + destruct (IH t m I) as (idx & E & J). exists idx. split; [exact E|right; exact J].
    - destruct (IH t m I) as (idx & E & J). exists idx. split; [exact E|right; exact J].
  Qed.
  Lemma full_in : forall path cs t, In (t, (path, None)) cs -> In t (full_conns path cs).
  Proof.
    intros path. induction cs as [|[t' [s o]] cs IH]; intros t I; [destruct I|]. cbn [full_conns]. destruct I as [E|I].
    - inversion E; subst. rewrite String.eqb_refl. left. reflexivity.
    - apply IH in I. destruct o as [l|]; [exact I|]. destruct (String.eqb s path); [right|]; exact I.
  Qed.
  (** what [rel_idx] contains *)
  Lemma rel_some : forall path dv cs rels rel, rel_idx enum path dv cs rels = Some rel ->
      (forall t, In (t, (path, None)) cs -> ~ In t rels) /\ NoDup rel /\
      (forall t idx k, In (t, (path, Some idx)) cs -> In t rels -> In k (mapped enum dv idx) -> In k rel) /\
      (forall k, In k rel -> exists t idx, In (t, (path, Some idx)) cs /\ In t rels /\ In k (mapped enum dv idx)).
  Proof.
    intros path dv cs rels rel H. unfold rel_idx in H. destruct (sub_conns enum path dv cs) as [|c0 r0] eqn:Es; [discriminate|]. rewrite <- Es in H. clear Es.
    destruct (existsb _ (full_conns path cs)) eqn:Ef; [discriminate|]. set (l := flat_map _ _) in H. destruct (En l) as [ND I].
    assert (E : enum l = rel) by (destruct (enum l); [discriminate|inversion H; reflexivity]). rewrite E in ND, I. split; [|split; [exact ND|split]].
    - intros t J K. apply full_in in J. assert (existsb (fun t => inb t rels) (full_conns path cs) = true) by (apply existsb_exists; exists t; split; [exact J|apply inb_iff; exact K]). congruence.
    - intros t idx k J K M. apply I. unfold l. apply in_flat_map. exists (t, mapped enum dv idx). split; [apply sub_in; exact J|]. cbn [fst snd]. rewrite (proj2 (inb_iff t rels) K). exact M.
    - intros k K. apply I in K. unfold l in K. apply in_flat_map in K. destruct K as ([t m] & J & K). cbn [fst snd] in K. destruct (inb t rels) eqn:Et; [|destruct K]. apply inb_iff in Et. destruct (sub_out _ _ _ _ _ J) as (idx & -> & J'). exists t, idx. auto.
  Qed.
  Lemma mapped_at : forall dv idx j, (forall l, dv = Some l -> NoDup l /\ j < length l) -> In (entry_at dv j) idx -> In j (mapped enum dv idx).
  Proof.
    intros [l|] idx j H I; [|exact I]. destruct (H l eq_refl) as [ND L]. cbn [mapped entry_at] in *. apply in_map_iff. exists (nth j l 0). split; [apply index_of_nth; assumption|]. apply filter_In. split; [apply En; exact I|]. apply mem_nat_iff. apply nth_In. exact L.
  Qed.
  Lemma mapped_bound : forall dv idx size k, (forall x, In x idx -> x < size) -> In k (mapped enum dv idx) -> k < width dv size.
  Proof.
    intros [l|] idx size k B I; cbn [mapped width] in *; [|apply B; exact I]. apply in_map_iff in I. destruct I as (x & <- & I). apply filter_In in I. destruct I as [_ I]. apply mem_nat_iff in I. apply index_of_in. exact I.
  Qed.

  (** a column that is left out is zero *)
  Lemma left_out : forall path dv size cs rels rel prom i j, rel_idx enum path dv cs rels = Some rel ->
      (forall t idx, In (t, (path, idx)) cs -> prom t = t) -> (forall t idx i k, In (t, (path, idx)) cs -> ~ In (prom t) rels -> D t i k = zero) ->
      (forall l, dv = Some l -> NoDup l) -> j < width dv size -> ~ In j rel -> chain zero add D path size cs i (entry_at dv j) = zero.
  Proof.
    intros path dv size cs rels rel prom i j H Pr Rl ND L N. destruct (rel_some _ _ _ _ _ H) as (Fu & _ & Su & _). unfold chain. apply total_zero. intros x I. apply in_map_iff in I. destruct I as ([t [s o]] & <- & I). cbn [fst snd] in *.
    apply filter_In in I. destruct I as [I E]. apply String.eqb_eq in E. cbn [fst snd] in E. subst s. apply total_zero. intros y J. apply in_map_iff in J. destruct J as (k & <- & J).
    apply filter_In in J. destruct J as [J1 J2]. apply in_seq in J1. apply Nat.eqb_eq in J2.
    destruct (in_dec string_dec t rels) as [It|Nt]; [|apply (Rl t o); [exact I|]; rewrite (Pr t o I); exact Nt].
    exfalso. destruct o as [idx|]; [|exact (Fu t I It)]. cbn [takes] in *. apply N. apply (Su t idx j I It). apply mapped_at; [|rewrite <- J2; apply nth_In; lia]. intros l ->. split; [exact (ND l eq_refl)|exact L].
  Qed.
End Chain.

Section Coo.
  Context {A : Type}.
  Variable zero : A.
  Lemma listed_row : forall i rel row j rows cols data, NoDup rel -> listed (repeat i (length rel) ++ rows) (rel ++ cols) (map (fun k => nth k row zero) rel ++ data) i j = if mem_nat j rel then Some (nth j row zero) else @listed A rows cols data i j.
  Proof.
    intros i rel row j rows cols data. induction rel as [|k rel IH]; intros ND; [reflexivity|]. inversion ND; subst. cbn [length repeat app map listed]. rewrite Nat.eqb_refl. cbn [andb]. unfold mem_nat. cbn [existsb]. rewrite Nat.eqb_sym. destruct (Nat.eqb_spec j k) as [->|N]; [reflexivity|]. cbn [orb]. apply IH. assumption.
  Qed.
  Lemma listed_other : forall i' i rel (xs : list A) j rows cols data, i' <> i -> length xs = length rel -> listed (repeat i' (length rel) ++ rows) (rel ++ cols) (xs ++ data) i j = listed rows cols data i j.
  Proof.
    intros i' i rel. induction rel as [|k rel IH]; intros xs j rows cols data N E; destruct xs as [|x xs]; try discriminate; [reflexivity|]. cbn [length repeat app listed]. apply Nat.eqb_neq in N. rewrite N. cbn [andb]. apply IH; [apply Nat.eqb_neq; exact N|cbn in E; lia].
  Qed.
  Lemma pick_ok : forall (row : list A) rel, (forall k, In k rel -> k < length row) -> pick zero row rel = Ok (map (fun k => nth k row zero) rel).
  Proof. intros row rel H. unfold pick. replace (forallb _ rel) with true; [reflexivity|]. symmetry. apply forallb_forall. intros k I. apply Nat.ltb_lt. auto. Qed.
  Lemma picks_ok : forall (m : list (list A)) rel, (forall row k, In row m -> In k rel -> k < length row) -> pick_rows zero m rel = Ok (flat_map (fun row => map (fun k => nth k row zero) rel) m).
  Proof.
    induction m as [|row m IH]; intros rel H; [reflexivity|]. cbn [pick_rows flat_map]. rewrite pick_ok by (intros k I; apply (H row k); [left; reflexivity|exact I]). cbn [bind]. rewrite IH by (intros r k I J; apply (H r k); [right; exact I|exact J]). reflexivity.
  Qed.
  Lemma coo_listed : forall rel (m : list (list A)) a i j, NoDup rel -> listed (flat_map (fun i => repeat i (length rel)) (seq a (length m))) (flat_map (fun _ => rel) (seq a (length m))) (flat_map (fun row => map (fun k => nth k row zero) rel) m) i j =
      if (a <=? i) && (i <? a + length m) && mem_nat j rel then Some (nth j (nth (i - a) m []) zero) else None.
  Proof.
    intros rel. induction m as [|row m IH]; intros a i j ND; cbn [length seq flat_map].
    - destruct (Nat.leb_spec a i), (Nat.ltb_spec i (a + 0)); try lia; reflexivity.
    - destruct (Nat.eq_dec a i) as [<-|N].
      + rewrite (listed_row a rel row j _ _ _ ND), (IH (S a) a j ND), Nat.leb_refl, Nat.sub_diag. replace (a <? a + S (length m)) with true by (symmetry; apply Nat.ltb_lt; lia). destruct (Nat.leb_spec (S a) a); [lia|]. reflexivity.
      + rewrite listed_other by (try exact N; rewrite map_length; reflexivity). rewrite (IH (S a) i j ND).
        destruct (Nat.leb_spec (S a) i), (Nat.leb_spec a i), (Nat.ltb_spec i (S a + length m)), (Nat.ltb_spec i (a + S (length m))); try lia; try reflexivity. cbn [andb]. replace (i - a) with (S (i - S a)) by lia. reflexivity.
  Qed.
  Lemma flat_len : forall {B : Type} (f : nat -> list B) n a k, (forall i, length (f i) = k) -> length (flat_map f (seq a n)) = n * k.
  Proof. intros B f. induction n as [|n IH]; intros a k H; [reflexivity|]. cbn [seq flat_map]. rewrite app_length, H, (IH (S a) k H). lia. Qed.
  Lemma combine_app_eq : forall {B C : Type} (a a' : list B) (b b' : list C), length a = length b -> combine (a ++ a') (b ++ b') = combine a b ++ combine a' b'.
  Proof. induction a as [|x a IH]; intros a' b b' E; destruct b as [|y b]; try discriminate; [reflexivity|]. cbn [app combine]. f_equal. apply IH. cbn in E. lia. Qed.
  Lemma pattern_nodup : forall (rel : list nat) n a, NoDup rel -> NoDup (combine (flat_map (fun i => repeat i (length rel)) (seq a n)) (flat_map (fun _ => rel) (seq a n))).
  Proof.
    intros rel. induction n as [|n IH]; intros a ND; [constructor|]. cbn [seq flat_map]. rewrite combine_app_eq by (rewrite repeat_length; reflexivity).
    assert (R : forall l : list nat, combine (repeat a (length l)) l = map (fun k => (a, k)) l) by (induction l as [|x l IHl]; [reflexivity|cbn [length repeat combine map]; rewrite IHl; reflexivity]). rewrite R.
    assert (M : forall l : list nat, NoDup l -> NoDup (map (fun k => (a, k)) l)). { induction 1 as [|x l Nx NDl IHl]; [constructor|]. cbn [map]. constructor; [|exact IHl]. intros I. apply in_map_iff in I. destruct I as (y & E & I). inversion E; subst. auto. }
    clear R. assert (Dj : forall p, In p (map (fun k => (a, k)) rel) -> ~ In p (combine (flat_map (fun i => repeat i (length rel)) (seq (S a) n)) (flat_map (fun _ => rel) (seq (S a) n)))).
    { intros p I J. apply in_map_iff in I. destruct I as (k & <- & _). apply in_combine_l in J. apply in_flat_map in J. destruct J as (i & J & K). apply in_seq in J. apply repeat_spec in K. lia. }
    specialize (M rel ND). specialize (IH (S a) ND). revert Dj IH. induction M as [|p l Np M IHM]; intros Dj IH; [exact IH|]. cbn [app]. constructor; [|apply IHM; [intros q I; apply Dj; right; exact I|exact IH]]. intros I. apply in_app_or in I. destruct I as [I|I]; [auto|]. apply (Dj p); [left; reflexivity|exact I].
  Qed.
  Lemma to_coo_ok : forall (m : list (list A)) rel nc, NoDup rel -> m <> [] -> Forall (fun row => length row = nc) m -> (forall k, In k rel -> k < nc) ->
      exists b, to_coo zero m rel = Ok b /\ well_formed b /\ shape b (length m) nc /\
        (exists data, b = Coo (fst (pattern (length m) rel)) (snd (pattern (length m) rel)) data (length m) nc) /\
        (forall i j, i < length m -> j < nc -> entry zero b i j = if mem_nat j rel then nth j (nth i m []) zero else zero).
  Proof.
    intros m rel nc ND Ne F B. unfold to_coo. rewrite picks_ok by (intros row k I J; rewrite Forall_forall in F; rewrite (F row I); apply B; exact J). cbn [bind].
    assert (W : ncols m = nc). { unfold ncols. destruct m as [|row m]; [contradiction|]. inversion F; subst. reflexivity. } rewrite W.
    eexists. split; [reflexivity|]. split; [|split; [split; reflexivity|split; [eexists; reflexivity|]]].
    - cbn [well_formed]. split; [|split; [|split; [|split]]].
      + rewrite !(flat_len _ (length m) 0 (length rel)); [reflexivity|intros; reflexivity|intros; apply repeat_length].
      + rewrite (flat_len _ (length m) 0 (length rel)) by (intros; reflexivity). clear. induction m as [|row m IH]; [reflexivity|]. cbn [flat_map length]. rewrite app_length, map_length, IH. lia.
      + apply pattern_nodup. exact ND.
      + apply Forall_forall. intros r I. apply in_flat_map in I. destruct I as (i & I & J). apply in_seq in I. apply repeat_spec in J. lia.
      + apply Forall_forall. intros c I. apply in_flat_map in I. destruct I as (i & _ & J). apply B. exact J.
    - intros i j Li Lj. cbn [entry]. rewrite (coo_listed rel m 0 i j ND). cbn [Nat.leb andb plus]. replace (i <? length m) with true by (symmetry; apply Nat.ltb_lt; exact Li). rewrite Nat.sub_0_r. cbn [andb]. destruct (mem_nat j rel); reflexivity.
  Qed.

  (** ** the dictionary of blocks *)
  Lemma sens_get_set : forall (s : sens) c v b c' v', sens_get (sens_set s c v b) c' v' = if String.eqb c' c && String.eqb v' v then Some b else @sens_get A s c' v'.
  Proof.
    intros s c v b c' v'. unfold sens_get, sens_set. rewrite (dget_dset String.eqb String.eqb_eq). destruct (String.eqb_spec c' c) as [->|N]; cbn [andb]; [|reflexivity]. rewrite (dget_dset String.eqb String.eqb_eq). destruct (String.eqb v' v); [reflexivity|]. destruct (dget String.eqb s c); reflexivity.
  Qed.
  (** a pair with its dense block, and the block made of it *)
  Definition ready (s : @sens A) (e : string * string * list nat) : Prop :=
    exists m nc, sens_get s (fst (fst e)) (snd (fst e)) = Some (Dense m) /\ m <> [] /\ Forall (fun row => length row = nc) m /\ NoDup (snd e) /\ forall k, In k (snd e) -> k < nc.
  Lemma coo_all_ok : forall l (s : sens), NoDup (map fst l) -> Forall (ready s) l ->
      exists s', coo_all zero l s = Ok s' /\
        (forall c v rel, In (c, v, rel) l -> exists m b, sens_get s c v = Some (Dense m) /\ to_coo zero m rel = Ok b /\ sens_get s' c v = Some b) /\
        (forall c v, ~ In (c, v) (map fst l) -> sens_get s' c v = sens_get s c v).
  Proof.
    induction l as [|[[c v] rel] l IH]; intros s ND F; [exists s; split; [reflexivity|]; split; [intros ? ? ? []|reflexivity]|].
    cbn [map fst] in ND. inversion ND as [|? ? Nc ND']; subst. inversion F as [|? ? R F']; subst. destruct R as (m & nc & G & Ne & Fm & NDr & B). cbn [fst snd] in *.
    destruct (to_coo_ok m rel nc NDr Ne Fm B) as (b & Eb & _). cbn [coo_all]. rewrite G, Eb. cbn [bind].
    assert (Oth : forall c' v', (c', v') <> (c, v) -> sens_get (sens_set s c v b) c' v' = sens_get s c' v').
    { intros c' v' N. rewrite sens_get_set. destruct (String.eqb_spec c' c) as [->|N1]; [|reflexivity]. destruct (String.eqb_spec v' v) as [->|N2]; [contradiction|reflexivity]. }
    destruct (IH (sens_set s c v b) ND') as (s' & E & H1 & H2).
    { rewrite Forall_forall in *. intros [[c' v'] rel'] I. destruct (F' _ I) as (m' & nc' & G' & R). exists m', nc'. split; [|exact R]. cbn [fst snd] in *. rewrite Oth; [exact G'|]. intros K. inversion K; subst. apply Nc. apply (in_map fst) in I. exact I. }
    exists s'. split; [exact E|]. split.
    - intros c' v' rel' [K|I].
      + inversion K; subst. exists m, b. split; [exact G|]. split; [exact Eb|]. rewrite H2 by exact Nc. rewrite sens_get_set, !String.eqb_refl. reflexivity.
      + destruct (H1 c' v' rel' I) as (m' & b' & G' & E' & S'). exists m', b'. split; [|auto]. rewrite Oth in G'; [exact G'|]. intros K. inversion K; subst. apply Nc. apply (in_map fst) in I. exact I.
    - intros c' v' N. rewrite H2 by (intros I; apply N; right; exact I). apply Oth. intros K. apply N. left. symmetry. exact K.
  Qed.
  Lemma dget_map : forall {X B : Type} (g : string * X -> B) l x k, NoDup (map fst l) -> In (k, x) l -> dget String.eqb (map (fun f => (fst f, g f)) l) k = Some (g (k, x)).
  Proof.
    intros X B g. induction l as [|[k' x'] l IH]; intros x k ND I; [destruct I|]. cbn [map fst] in *. inversion ND; subst. cbn [dget]. destruct I as [E|I].
    - inversion E; subst. rewrite String.eqb_refl. reflexivity.
    - destruct (String.eqb_spec k k') as [->|N]; [exfalso; apply (in_map fst) in I; cbn in I; auto|]. apply IH; assumption.
  Qed.
  Lemma zeros_get : forall funcs dvs c nr v nc, NoDup (map fst funcs) -> NoDup (map fst dvs) -> In (c, nr) funcs -> In (v, nc) dvs -> sens_get (zeros zero funcs dvs) c v = Some (Dense (repeat (repeat zero nc) nr)).
  Proof.
    intros funcs dvs c nr v nc NF NV Ic Iv. unfold sens_get, zeros. rewrite (dget_map (fun f => map (fun v => (fst v, Dense (repeat (repeat zero (snd v)) (snd f)))) dvs) funcs nr c NF Ic). apply (dget_map (fun v => Dense (repeat (repeat zero (snd v)) nr)) dvs nc v NV Iv).
  Qed.
End Coo.

Section Obj.
  Context {State Val : Type}.
  Variable set_desvar : string -> Val -> State -> res State.
  Lemma set_all_ok : forall names dv s s', set_all set_desvar names dv s = (s', None) <-> set_to set_desvar dv names s s'.
  Proof.
    induction names as [|n r IH]; intros dv s s'; cbn [set_all].
    - split; [intros E; inversion E; constructor|intros H; inversion H; reflexivity].
    - split.
      + intros E. destruct (dget String.eqb dv n) as [v|] eqn:G; [|discriminate]. destruct (set_desvar n v s) as [s1|e] eqn:S; [|discriminate]. econstructor; [exact G|exact S|]. apply IH. exact E.
      + intros H. inversion H as [|? v ? ? s1 ? G S T]; subst. rewrite G, S. apply IH. exact T.
  Qed.
End Obj.

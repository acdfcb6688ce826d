(** Lemmas for C103: owning ranks, startup and one vector of one recorder. *)
From Verif Require Import Base BaseFacts RecordModel RecordSpec RecordProofs RmModel RmSpec.
Local Open Scope string_scope.

(** ** owning ranks *)
Lemma own_one_get : forall rank vs ranks n,
    sget (fold_left (own_one rank) vs ranks) n =
    match sget ranks n with Some k => Some k
    | None => if existsb (String.eqb n) vs then Some rank else None end.
Proof.
  induction vs as [|a vs IH]; intros ranks n; simpl.
  - destruct (sget ranks n); reflexivity.
  - rewrite IH. unfold own_one, smem, dmem. fold (sget ranks a).
    destruct (sget ranks a) as [k|] eqn:A.
    + destruct (sget ranks n) eqn:N; auto.
      destruct (String.eqb n a) eqn:E; simpl; auto. apply String.eqb_eq in E. congruence.
    + rewrite sget_sset. destruct (String.eqb n a) eqn:E; simpl.
      * apply String.eqb_eq in E; subst. now rewrite A.
      * destruct (sget ranks n); auto.
Qed.

Lemma existsb_in : forall n l, existsb (String.eqb n) l = true <-> In n l.
Proof.
  intros. rewrite existsb_exists. split.
  - intros (x & I & E). apply String.eqb_eq in E; now subst.
  - intro I. exists n. split; auto. apply String.eqb_refl.
Qed.
Lemma existsb_notin : forall n l, existsb (String.eqb n) l = false <-> ~ In n l.
Proof.
  intros. rewrite <- existsb_in. destruct (existsb _ _); split; intros; try congruence; try discriminate.
Qed.

Lemma first_at_cons : forall l locals n k,
    first_at (l :: locals) n (S k) <-> ~ In n l /\ first_at locals n k.
Proof.
  intros. unfold first_at. simpl. split.
  - intros [E F]. split; [apply (F 0%nat l); auto; lia|]. split; [exact E|].
    intros j l' J N. apply (F (S j) l'); auto. lia.
  - intros [A [E F]]. split; [exact E|]. intros [|j] l' J N; simpl in N.
    + injection N as <-. exact A.
    + apply (F j l'); auto. lia.
Qed.
Lemma first_at_head : forall l locals n, first_at (l :: locals) n 0 <-> In n l.
Proof.
  intros. unfold first_at. simpl. split.
  - intros [(x & E & I) _]. injection E as <-. exact I.
  - intro I. split; [eauto|]. intros j x J. lia.
Qed.
Lemma first_at_nil : forall n k, ~ first_at [] n k.
Proof. intros n k [(l & E & _) _]. destruct k; discriminate. Qed.
Lemma first_at_uniq : forall locals n j k, first_at locals n j -> first_at locals n k -> j = k.
Proof.
  intros locals n j k [(l & E & I) F] [(l' & E' & I') F'].
  destruct (Nat.lt_trichotomy j k) as [L|[L|L]]; auto.
  - exfalso. exact (F' _ _ L E I).
  - exfalso. exact (F _ _ L E' I').
Qed.
Lemma first_at_ex : forall locals n, (exists l, In l locals /\ In n l) -> exists k, first_at locals n k.
Proof.
  induction locals as [|a locals IH]; intros n (l & I & J); [destruct I|].
  destruct (in_dec string_dec n a) as [A|A].
  - exists 0%nat. now apply first_at_head.
  - destruct I as [<-|I]; [contradiction|]. destruct (IH n) as (k & K); [eauto|].
    exists (S k). apply first_at_cons. auto.
Qed.

Lemma own_from_get : forall locals rank ranks n k,
    sget (own_from rank locals ranks) n = Some k <->
    sget ranks n = Some k \/
    (sget ranks n = None /\ exists j, k = (rank + j)%nat /\ first_at locals n j).
Proof.
  induction locals as [|l locals IH]; intros rank ranks n k; simpl.
  - split; auto. intros [H|(_ & j & _ & F)]; auto. exfalso. eapply first_at_nil; eauto.
  - rewrite IH, own_one_get. destruct (sget ranks n) as [q|] eqn:G.
    + split; [intros [H|[H _]]; [auto|discriminate]|intros [H|[H _]]; [auto|discriminate]].
    + destruct (existsb (String.eqb n) l) eqn:X.
      * apply existsb_in in X. split.
        -- intros [H|[H _]]; [|discriminate]. injection H as <-. right. split; auto.
           exists 0%nat. split; [lia|]. now apply first_at_head.
        -- intros [H|(_ & j & -> & F)]; [discriminate|]. left. destruct j.
           ++ f_equal; lia.
           ++ apply first_at_cons in F. tauto.
      * apply existsb_notin in X. split.
        -- intros [H|(_ & j & -> & F)]; [discriminate|]. right. split; auto. exists (S j).
           split; [lia|]. apply first_at_cons. auto.
        -- intros [H|(_ & j & -> & F)]; [discriminate|]. right. split; auto. destruct j.
           ++ apply first_at_head in F. contradiction.
           ++ apply first_at_cons in F. exists j. split; [lia|tauto].
Qed.

Lemma owning_get : forall locals n k, sget (owning_ranks locals) n = Some k <-> first_at locals n k.
Proof.
  intros. unfold owning_ranks. rewrite own_from_get. split.
  - intros [H|(_ & j & -> & F)]; [discriminate|exact F].
  - intro F. right. split; [reflexivity|]. exists k. auto.
Qed.

Lemma all_locals_first_u : forall lu lp n k, length lp = length lu ->
    (forall l, In l lp -> ~ In n l) -> (first_at (all_locals lu lp) n k <-> first_at lu n k).
Proof.
  induction lu as [|u lu IH]; intros [|p lp] n k L D; try discriminate; simpl; [tauto|].
  assert (~ In n p) by (apply D; simpl; auto).
  destruct k.
  - rewrite !first_at_head, in_app_iff. tauto.
  - rewrite !first_at_cons, in_app_iff, IH; [tauto|now injection L|intros; apply D; simpl; auto].
Qed.
Lemma all_locals_first_p : forall lu lp n k, length lp = length lu ->
    (forall l, In l lu -> ~ In n l) -> (first_at (all_locals lu lp) n k <-> first_at lp n k).
Proof.
  induction lu as [|u lu IH]; intros [|p lp] n k L D; try discriminate; simpl; [tauto|].
  assert (~ In n u) by (apply D; simpl; auto).
  destruct k.
  - rewrite !first_at_head, in_app_iff. tauto.
  - rewrite !first_at_cons, in_app_iff, IH; [tauto|now injection L|intros; apply D; simpl; auto].
Qed.

(** ** localize *)
Definition ownb (rank : nat) (rowned : list (string * nat)) (n : string) : bool :=
  match sget rowned n with Some o => Nat.eqb rank o | None => false end.

Lemma localize_ok : forall rank rowned names,
    (forall n, In n names -> exists k, sget rowned n = Some k) ->
    localize rank rowned names = Ok (filter (ownb rank rowned) names).
Proof.
  induction names as [|a names IH]; intro H; simpl; auto.
  destruct (H a) as (k & E); [simpl; auto|]. unfold ownb at 1. rewrite E.
  rewrite IH by (intros; apply H; simpl; auto). cbn [bind]. destruct (Nat.eqb rank k); reflexivity.
Qed.

Lemma supdate_in : forall ns l n, In n (supdate l ns) <-> In n l \/ In n ns.
Proof.
  unfold supdate. induction ns as [|a ns IH]; intros l n; simpl; [tauto|].
  rewrite IH. unfold sadd. destruct (existsb (String.eqb a) l) eqn:E.
  - apply existsb_in in E. split; [tauto|]. intros [H|[<-|H]]; auto.
  - rewrite in_app_iff. simpl. tauto.
Qed.

(** ** one vector of one recorder *)
Lemma lookup_all_full : forall V (vec : list (string * V)) names,
    (forall n, In n names -> In n (dkeys vec)) ->
    exists d, lookup_all vec names = Ok d /\ NoDup (dkeys d) /\
              forall n, sget d n = if existsb (String.eqb n) names then sget vec n else None.
Proof.
  induction names as [|a names IH]; intros H; simpl.
  - exists []. split; [reflexivity|]. split; [constructor|auto].
  - destruct IH as (d & E & N & S); [intros; apply H; simpl; auto|].
    destruct (sget vec a) as [v|] eqn:G.
    + rewrite E. simpl. eexists; split; [reflexivity|]. split.
      { unfold sset. apply NoDup_dkeys_dset; auto. exact String.eqb_eq. }
      intro n. rewrite sget_sset. destruct (String.eqb n a) eqn:Q; simpl.
      * apply String.eqb_eq in Q; subst. auto.
      * apply S.
    + exfalso. assert (I : In a (dkeys vec)) by (apply H; simpl; auto).
      unfold sget in G. exact (proj1 (dget_none String.eqb String.eqb_eq vec a) G I).
Qed.

Lemma sget_keys : forall V (d : list (string * V)) n, In n (dkeys d) <-> sget d n <> None.
Proof.
  intros. unfold sget. rewrite (dget_none String.eqb String.eqb_eq).
  split; [tauto|]. intro H. destruct (in_dec string_dec n (dkeys d)); tauto.
Qed.

Lemma filter_vector_ok : forall V table (vec : list (string * V)) k c f,
    sget table (get_pathname c) = Some f ->
    (forall n, In n (f_names f k) -> In n (dkeys vec)) ->
    exists d, filter_vector table vec k c = Ok d /\ NoDup (dkeys d) /\
              forall n, sget d n = if existsb (String.eqb n) (f_names f k) then sget vec n else None.
Proof.
  intros V table vec k c f T H. unfold filter_vector. destruct vec as [|x vec].
  - exists []. split; [reflexivity|]. split; [constructor|]. intro n. simpl. now destruct (existsb _ _).
  - rewrite T. apply lookup_all_full. exact H.
Qed.

(** the pieces of holds_exactly *)
Lemma holds_of_get : forall V (d vec : list (string * V)) names (chosen : string -> Prop) (value : string -> V -> Prop),
    NoDup (dkeys d) ->
    (forall n, sget d n = if existsb (String.eqb n) names then sget vec n else None) ->
    (forall n, In n names -> In n (dkeys vec)) ->
    (forall n, In n names <-> chosen n) ->
    (forall n v, In n names -> sget vec n = Some v -> value n v) ->
    holds_exactly d chosen value.
Proof.
  intros V d vec names chosen value N G K C W. split; [exact N|]. split.
  - intro n. change (map fst d) with (dkeys d). rewrite sget_keys, G, <- C.
    destruct (existsb (String.eqb n) names) eqn:X.
    + apply existsb_in in X. split; auto. intro. apply sget_keys. auto.
    + apply existsb_notin in X. split; [congruence|tauto].
  - intros n v I. assert (E : sget d n = Some v) by (unfold sget; apply (in_dget String.eqb String.eqb_eq); auto).
    rewrite G in E. destruct (existsb (String.eqb n) names) eqn:X; [|discriminate].
    apply existsb_in in X. auto.
Qed.

(** ** merging *)
Lemma dupdate_get : forall V (d a : dict V) n, NoDup (dkeys d) ->
    sget (dupdate a d) n = match sget d n with Some v => Some v | None => sget a n end.
Proof.
  unfold dupdate. induction d as [|[k v] d IH]; intros a n N; simpl; auto.
  inversion N; subst. rewrite IH by auto. rewrite sget_sset.
  unfold sget at 3. simpl. destruct (String.eqb n k) eqn:E.
  - apply String.eqb_eq in E; subst.
    assert (X : sget d k = None) by (unfold sget; apply (dget_none String.eqb String.eqb_eq); auto).
    now rewrite X.
  - fold (sget d n). reflexivity.
Qed.

Lemma fold_dupdate_get : forall V (ds : list (dict V)) a n v,
    Forall (fun d => NoDup (dkeys d)) ds ->
    (forall d, In d ds -> sget d n = None \/ sget d n = Some v) ->
    (sget a n = Some v \/ (sget a n = None /\ exists d, In d ds /\ sget d n = Some v)) ->
    sget (fold_left dupdate ds a) n = Some v.
Proof.
  induction ds as [|d ds IH]; intros a n v N A H; simpl.
  - destruct H as [H|(_ & d & [] & _)]; auto.
  - inversion N; subst. apply IH; auto; [intros; apply A; simpl; auto|].
    rewrite dupdate_get by auto. destruct (A d) as [E|E]; [simpl; auto| |]; rewrite E.
    + destruct H as [H|(H & d' & [<-|I] & E')]; auto; [congruence|]. right. eauto.
    + now left.
Qed.

Lemma fold_dupdate_none : forall V (ds : list (dict V)) a n,
    Forall (fun d => NoDup (dkeys d)) ds -> (forall d, In d ds -> sget d n = None) ->
    sget (fold_left dupdate ds a) n = sget a n.
Proof.
  induction ds as [|d ds IH]; intros a n N A; simpl; auto.
  inversion N; subst. rewrite IH; auto; [|intros; apply A; simpl; auto].
  rewrite dupdate_get by auto. rewrite A by (simpl; auto). reflexivity.
Qed.

Lemma last_split : forall A (l : list A) d, l <> [] -> l = (removelast l ++ [last l d])%list.
Proof. intros. now apply app_removelast_last. Qed.

Lemma merge_get : forall V (ds : list (dict V)) n v,
    Forall (fun d => NoDup (dkeys d)) ds ->
    (forall d, In d ds -> sget d n = None \/ sget d n = Some v) ->
    (exists d, In d ds /\ sget d n = Some v) ->
    sget (merge ds) n = Some v.
Proof.
  intros V ds n v N A (d & I & E). unfold merge.
  assert (L := last_split _ ds (@nil (string * V))). destruct ds as [|d0 ds0]; [destruct I|].
  specialize (L ltac:(discriminate)). set (l := d0 :: ds0) in *. clearbody l.
  assert (S : forall x, In x l <-> In x (removelast l) \/ x = last l []).
  { intro x. rewrite L at 1. rewrite in_app_iff. simpl. split; [intros [H|[H|[]]]; auto|intros [H|H]; auto]. }
  apply fold_dupdate_get.
  - apply Forall_forall. intros x X. rewrite Forall_forall in N. apply N. apply S. auto.
  - intros x X. apply A. apply S. auto.
  - destruct (A (last l [])) as [F|F]; [apply S; auto| |auto]. right. split; auto.
    apply S in I. destruct I as [I| ->]; [eauto|congruence].
Qed.

Lemma oks_map : forall A B (f : A -> res B) (g : A -> B -> Prop) l,
    (forall a, In a l -> exists b, f a = Ok b /\ g a b) ->
    exists bs, oks (map f l) = Some bs /\ Forall2 g l bs.
Proof.
  unfold oks. induction l as [|a l IH]; intro H; simpl.
  - exists []. auto.
  - destruct (H a) as (b & E & G); [simpl; auto|]. destruct IH as (bs & E' & F); [intros; apply H; simpl; auto|].
    rewrite E, E'. exists (b :: bs). auto.
Qed.

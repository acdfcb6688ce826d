(** Proofs for recording (no property statements here). *)
From Coq Require Import Permutation.
From Coq Require Import DecimalString DecimalNat DecimalFacts Decimal.
From Verif Require Import Base BaseFacts OptionsProofs RecordModel RecordSpec.
Local Open Scope nat_scope.
Local Open Scope string_scope.

(** ** characters of strings *)
Lemma chars_app : forall a b,
    list_ascii_of_string (a ++ b) = (list_ascii_of_string a ++ list_ascii_of_string b)%list.
Proof. induction a; intros; simpl; [auto|now rewrite IHa]. Qed.

Lemma lacks_app : forall c a b, lacks c a -> lacks c b -> lacks c (a ++ b).
Proof. unfold lacks; intros; rewrite chars_app, in_app_iff; tauto. Qed.

Lemma append_assoc' : forall a b c : string, (a ++ b) ++ c = a ++ (b ++ c).
Proof. induction a; simpl; intros; [auto|now rewrite IHa]. Qed.

Lemma append_nil_r : forall a : string, a ++ "" = a.
Proof. induction a; simpl; auto. now rewrite IHa. Qed.

(** cutting at the first occurrence of a character is unambiguous *)
Lemma cut_unique : forall c a a' b b', lacks c a -> lacks c a' ->
    a ++ String c b = a' ++ String c b' -> a = a' /\ b = b'.
Proof.
  induction a as [|x a IH]; intros [|y a'] b b' Ha Ha' E; simpl in E.
  - injection E; auto.
  - injection E as -> E. exfalso; apply Ha'; simpl; auto.
  - injection E as -> E. exfalso; apply Ha; simpl; auto.
  - injection E as -> E. apply IH in E.
    + destruct E; subst; auto.
    + intro; apply Ha; simpl; auto.
    + intro; apply Ha'; simpl; auto.
Qed.

Lemma lacks_no_cut : forall c a b s, lacks c s -> a ++ String c b <> s.
Proof. intros c a b s H <-. apply H. rewrite chars_app, in_app_iff. right; simpl; auto. Qed.

Lemma concat_cons : forall sep x y l,
    String.concat sep (x :: y :: l) = x ++ sep ++ String.concat sep (y :: l).
Proof. reflexivity. Qed.

(** joining is injective on nonempty lists of strings without the separator *)
Lemma concat_inj_ne : forall c l l', l <> [] -> l' <> [] ->
    Forall (lacks c) l -> Forall (lacks c) l' ->
    String.concat (String c "") l = String.concat (String c "") l' -> l = l'.
Proof.
  induction l as [|x l IH]; intros l' N N' F F' E; [congruence|].
  destruct l' as [|x' l']; [congruence|]. inversion F; inversion F'; subst.
  destruct l as [|y l], l' as [|y' l'].
  - simpl in E. now subst.
  - rewrite concat_cons in E. simpl in E. symmetry in E. now apply lacks_no_cut in E.
  - rewrite concat_cons in E. simpl in E. now apply lacks_no_cut in E.
  - rewrite !concat_cons in E. simpl in E. apply cut_unique in E; auto.
    destruct E as [-> E]. f_equal. apply IH; auto; discriminate.
Qed.

(** ** decimal numbers *)
Lemma uint_digits : forall u, Forall (fun a => In a ["0"; "1"; "2"; "3"; "4"; "5"; "6"; "7"; "8"; "9"]%char)
                                (list_ascii_of_string (NilEmpty.string_of_uint u)).
Proof. induction u; simpl; constructor; auto; simpl; tauto. Qed.

Lemma to_uint_ne : forall n, Nat.to_uint n <> Nil.
Proof.
  intros n H. assert (E : Nat.to_uint n = unorm (Nat.to_uint n)).
  { rewrite <- Unsigned.to_of, Unsigned.of_to. reflexivity. }
  rewrite H in E. discriminate E.
Qed.

Lemma str_int_empty_form : forall n, str_int n = NilEmpty.string_of_uint (Nat.to_uint n).
Proof.
  intro n. unfold str_int. pose proof (to_uint_ne n). unfold NilZero.string_of_uint.
  destruct (Nat.to_uint n); congruence.
Qed.

Lemma str_int_lacks : forall c n, ~ In c ["0"; "1"; "2"; "3"; "4"; "5"; "6"; "7"; "8"; "9"]%char ->
    lacks c (str_int n).
Proof.
  intros c n H. rewrite str_int_empty_form. intro I.
  pose proof (uint_digits (Nat.to_uint n)) as F. rewrite Forall_forall in F. auto.
Qed.

Lemma str_int_inj : forall a b, str_int a = str_int b -> a = b.
Proof.
  intros a b E. rewrite !str_int_empty_form in E.
  assert (Some (Nat.to_uint a) = Some (Nat.to_uint b)) as E'.
  { rewrite <- !NilEmpty.usu. now rewrite E. }
  injection E'. apply Unsigned.to_uint_inj.
Qed.

Lemma str_int_ne : forall n, str_int n <> "".
Proof.
  intros n E. rewrite str_int_empty_form in E. pose proof (to_uint_ne n).
  destruct (Nat.to_uint n); simpl in E; congruence.
Qed.

Lemma str_int_lacks_bar : forall n, lacks "|" (str_int n).
Proof. intro; apply str_int_lacks; simpl; intuition discriminate. Qed.
Lemma str_int_lacks_dash : forall n, lacks "-" (str_int n).
Proof. intro; apply str_int_lacks; simpl; intuition discriminate. Qed.
Lemma str_int_lacks_colon : forall n, lacks ":" (str_int n).
Proof. intro; apply str_int_lacks; simpl; intuition discriminate. Qed.

Lemma map_str_int_inj : forall l l', map str_int l = map str_int l' -> l = l'.
Proof.
  induction l; intros [|b l'] E; simpl in E; try discriminate; auto.
  injection E as E1 E2. apply str_int_inj in E1. f_equal; auto.
Qed.

Lemma dashes_inj : forall l l',
    String.concat "-" (map str_int l) = String.concat "-" (map str_int l') -> l = l'.
Proof.
  intros l l' E. apply map_str_int_inj.
  destruct l as [|a l], l' as [|b l']; auto.
  - exfalso. simpl map in E. destruct l'; simpl in E; symmetry in E.
    + now apply str_int_ne in E.
    + pose proof (str_int_ne b). destruct (str_int b); [congruence|discriminate].
  - exfalso. simpl map in E. destruct l; simpl in E.
    + now apply str_int_ne in E.
    + pose proof (str_int_ne a). destruct (str_int a); [congruence|discriminate].
  - apply (concat_inj_ne "-"); simpl; try discriminate; auto;
      rewrite <- map_cons; rewrite Forall_forall; intros x Hx; apply in_map_iff in Hx;
        destruct Hx as (y & <- & _); apply str_int_lacks_dash.
Qed.

Lemma concat_lacks : forall c sep l, lacks c sep -> Forall (lacks c) l -> lacks c (String.concat sep l).
Proof.
  induction l as [|x [|y l] IH]; intros Hs F; inversion F; subst.
  - simpl. unfold lacks; simpl; auto.
  - exact H1.
  - rewrite concat_cons. apply lacks_app; auto. apply lacks_app; auto.
Qed.

Lemma dashes_lack_bar : forall l, lacks "|" (String.concat "-" (map str_int l)).
Proof.
  intro l. apply concat_lacks.
  - unfold lacks; simpl; intuition discriminate.
  - rewrite Forall_forall; intros x Hx; apply in_map_iff in Hx; destruct Hx as (y & <- & _).
    apply str_int_lacks_bar.
Qed.

Definition flat (l : list (string * list nat)) : list string :=
  flat_map (fun x => [fst x; String.concat "-" (map str_int (snd x))]) l.

Lemma flat_inj : forall l l', flat l = flat l' -> l = l'.
Proof.
  induction l as [|[n i] l IH]; intros [|[n' i'] l'] E; simpl in E; try discriminate; auto.
  injection E as -> E2 E3. apply dashes_inj in E2. subst. f_equal. auto.
Qed.

Lemma flat_lacks : forall l, Forall (fun x => lacks "|" (fst x)) l -> Forall (lacks "|") (flat l).
Proof.
  induction 1; simpl; constructor; auto. constructor; auto. apply dashes_lack_bar.
Qed.

Lemma flat_concat_inj : forall l l',
    Forall (fun x => lacks "|" (fst x)) l -> Forall (fun x => lacks "|" (fst x)) l' ->
    String.concat "|" (flat l) = String.concat "|" (flat l') -> l = l'.
Proof.
  intros l l' F F' E. apply flat_lacks in F. apply flat_lacks in F'.
  apply flat_inj. destruct l as [|[n i] l], l' as [|[n' i'] l']; auto.
  - exfalso. simpl in E. destruct n'; discriminate.
  - exfalso. simpl in E. destruct n; discriminate.
  - apply (concat_inj_ne "|"); auto; discriminate.
Qed.

Lemma format_inj : forall c c', no_bars c -> no_bars c' -> format_coord c = format_coord c' -> c = c'.
Proof.
  intros [r l] [r' l'] F F' E. unfold format_coord in E. cbn [c_rank c_items] in E.
  change (flat_map _ l) with (flat l) in E. change (flat_map _ l') with (flat l') in E.
  rewrite !concat_cons in E. simpl in E. injection E as E.
  apply cut_unique in E; try apply str_int_lacks_colon.
  destruct E as [E1 E2]. apply str_int_inj in E1. apply flat_concat_inj in E2; auto. now subst.
Qed.

Lemma legal_no_bars : forall c, legal_names c -> no_bars c.
Proof.
  intros c H. unfold legal_names, no_bars in *. eapply Forall_impl; [|exact H].
  intros x Hx I. rewrite forallb_forall in Hx. apply Hx in I. discriminate.
Qed.

(** ** selection *)
Lemma check_path_selected : forall m o n,
    check_path m n (ro_includes o) (ro_excludes o) = true <-> selected m o n.
Proof.
  intros m o n. unfold selected.
  assert (X : negb (existsb (fun ex => m n ex) (ro_excludes o)) = true
              <-> (forall p, In p (ro_excludes o) -> m n p = false)).
  { rewrite negb_true_iff. split.
    - intros E p I. destruct (m n p) eqn:M; auto.
      assert (existsb (fun ex => m n ex) (ro_excludes o) = true) by (apply existsb_exists; eauto). congruence.
    - intros H. destruct (existsb _ _) eqn:M; auto. apply existsb_exists in M.
      destruct M as (p & I & M). rewrite (H p I) in M. discriminate. }
  induction (ro_includes o) as [|i inc IH]; simpl.
  - split; [discriminate|]. intros [(p & [] & _) _].
  - destruct (m n i) eqn:M.
    + rewrite X. split.
      * intro; split; eauto.
      * tauto.
    + rewrite IH. split.
      * intros [(p & I & P) E]. split; eauto.
      * intros [(p & [<-|I] & P) E]; [congruence|]. split; eauto.
Qed.

Lemma lookup_all_spec : forall V (vec : list (string * V)) names,
    (forall n, In n names -> In n (dkeys vec)) ->
    exists d, lookup_all vec names = Ok d /\
              forall n, sget d n = if existsb (String.eqb n) names then sget vec n else None.
Proof.
  induction names as [|a names IH]; intros H; simpl.
  - exists []. split; auto.
  - destruct IH as (d & E & S); [intros; apply H; simpl; auto|].
    destruct (sget vec a) as [v|] eqn:G.
    + rewrite E. simpl. eexists; split; [reflexivity|]. intro n.
      rewrite sget_sset. destruct (String.eqb n a) eqn:Q; simpl.
      * apply String.eqb_eq in Q; subst. auto.
      * apply S.
    + exfalso. assert (I : In a (dkeys vec)) by (apply H; simpl; auto).
      unfold sget in G. exact (proj1 (dget_none String.eqb String.eqb_eq vec a) G I).
Qed.

Lemma existsb_filter : forall (p : string -> bool) l n,
    existsb (String.eqb n) (filter p l) = true <-> In n l /\ p n = true.
Proof.
  intros. rewrite existsb_exists. split.
  - intros (x & I & E). apply String.eqb_eq in E; subst. now apply filter_In in I.
  - intros [I P]. exists n. split; [apply filter_In; auto|apply String.eqb_refl].
Qed.

Lemma started_get : forall m o gs t g, NoDup (map g_path gs) -> In g gs ->
    sget (fold_left (fun t g => startup m o t (g_path g) (g_params g) (g_unknowns g) (g_unknowns g)) gs t) (g_path g)
    = sget (startup m o [] (g_path g) (g_params g) (g_unknowns g) (g_unknowns g)) (g_path g).
Proof.
  assert (K : forall m o gs t p, ~ In p (map g_path gs) ->
    sget (fold_left (fun t g => startup m o t (g_path g) (g_params g) (g_unknowns g) (g_unknowns g)) gs t) p = sget t p).
  { induction gs as [|h gs IH]; intros t p H; simpl; auto.
    rewrite IH by (intro; apply H; simpl; auto). unfold startup. rewrite sget_sset.
    destruct (String.eqb p (g_path h)) eqn:E; auto. apply String.eqb_eq in E; subst.
    exfalso; apply H; simpl; auto. }
  induction gs as [|h gs IH]; intros t g N I; [destruct I|]. simpl in *. inversion N; subst.
  destruct I as [->|I].
  - rewrite K by assumption. unfold startup. rewrite !sget_sset, String.eqb_refl. reflexivity.
  - auto.
Qed.

Lemma startup_names : forall m o g k, recorded o k = true ->
    exists f, sget (startup m o [] (g_path g) (g_params g) (g_unknowns g) (g_unknowns g)) (g_path g) = Some f /\      f_names f k = filter (fun n => check_path m n (ro_includes o) (ro_excludes o)) (g_names g k).
Proof.
  intros m o g k R. unfold startup. rewrite sget_sset, String.eqb_refl. eexists; split; [reflexivity|].
  destruct k; simpl in *; rewrite ?R; auto. destruct (ro_unknowns o); auto.
Qed.

Lemma filter_vector_own : forall V m o gs g (vec : list (string * V)) k c,
    NoDup (map g_path gs) -> In g gs -> recorded o k = true ->
    dkeys vec = g_names g k -> get_pathname c = g_path g ->
    exists d, filter_vector (started m o gs) vec k c = Ok d /\      forall n v, sget d n = Some v <-> (selected m o n /\ sget vec n = Some v).
Proof.
  intros V m o gs g vec k c N I R K P. unfold filter_vector.
  destruct vec as [|x vec'] eqn:EV; [exists []; split; auto; intros n v; split; [discriminate|intros [_ H]; discriminate]|].
  rewrite <- EV in *. rewrite P. unfold started. rewrite started_get by assumption.
  destruct (startup_names m o g k R) as (f & -> & F). rewrite F.
  destruct (lookup_all_spec V vec (filter (fun n => check_path m n (ro_includes o) (ro_excludes o)) (g_names g k)))
    as (d & E & S).
  { intros n H. apply filter_In in H. rewrite K. tauto. }
  exists d; split; auto. intros n v. rewrite S.
  destruct (existsb (String.eqb n) _) eqn:X.
  - apply existsb_filter in X. destruct X as [_ X]. apply check_path_selected in X. tauto.
  - split; [discriminate|]. intros [H1 H2]. exfalso.
    assert (In n (g_names g k)).
    { rewrite <- K. unfold sget in H2. eapply dget_some_in_keys; [exact String.eqb_eq|exact H2]. }
    apply check_path_selected in H1.
    assert (existsb (String.eqb n) (filter (fun n => check_path m n (ro_includes o) (ro_excludes o)) (g_names g k)) = true)
      by (apply existsb_filter; auto). congruence.
Qed.

(** ** the key of a group *)
Lemma set_last_snoc : forall l x it, set_last (l ++ [x])%list it = (l ++ [(fst x, it)])%list.
Proof.
  induction l as [|[yn yi] l IH]; intros [n i] it; simpl; auto.
  rewrite IH. destruct (l ++ [(n, i)])%list eqn:E; auto. destruct l; discriminate.
Qed.

Lemma extend : forall c r name it, 2 <= length (c_items c) ->
    update_local_meta (create_local_meta r (Some c) name) it
    = mkCoord (c_rank c) (c_items c ++ [(name, it)]).
Proof.
  intros c r name it H. unfold update_local_meta, create_local_meta. simpl.
  assert (E : Nat.eqb (length (c_items c)) 1 = false) by (apply Nat.eqb_neq; lia).
  rewrite E. simpl. rewrite set_last_snoc. reflexivity.
Qed.

(** the names that a chain adds to the coordinate *)
Fixpoint chain_names (path : string) (chain : list level) : list string :=
  match chain with
  | [] => []
  | l :: rest => let path' := child_path path (l_name l) in
                 coord_name (l_solver l) (l_name l) path' :: chain_names path' rest
  end.

Lemma descend_names : forall chain c path, 2 <= length (c_items c) ->
    skipn 2 (map fst (c_items (fst (descend c path chain))))
    = (skipn 2 (map fst (c_items c)) ++ chain_names path chain)%list.
Proof.
  induction chain as [|l chain IH]; intros c path H; simpl descend; simpl chain_names.
  - now rewrite app_nil_r.
  - rewrite extend by assumption. rewrite IH.
    + cbn [c_items c_rank]. rewrite map_app, skipn_app, <- app_assoc.
      rewrite map_length. replace (2 - length (c_items c)) with 0 by lia. reflexivity.
    + cbn [c_items]. rewrite app_length. simpl. lia.
Qed.

Lemma group_coord_names : forall rank driver it0 it1 chain,
    skipn 2 (map fst (c_items (fst (group_coord rank driver it0 it1 chain)))) = chain_names "" chain.
Proof.
  intros. unfold group_coord. rewrite descend_names; auto.
Qed.

(** pathnames are the dotted names *)
Lemma descend_path : forall chain c path, snd (descend c path chain) = fold_left child_path (map l_name chain) path.
Proof. induction chain; intros; simpl; auto. Qed.

Lemma fold_path : forall names path, path <> "" ->
    fold_left child_path names path = String.concat "." (path :: names).
Proof.
  induction names as [|n names IH]; intros path H; simpl fold_left; auto.
  unfold child_path at 2. destruct (String.eqb path "") eqn:E; [apply String.eqb_eq in E; contradiction|].
  rewrite IH.
  - destruct names as [|m names]; simpl; [reflexivity|]. now rewrite !append_assoc'.
  - destruct path; [contradiction|discriminate].
Qed.

Lemma group_path : forall rank driver it0 it1 chain, Forall (fun l => l_name l <> "") chain ->
    snd (group_coord rank driver it0 it1 chain) = dotted chain.
Proof.
  intros. unfold group_coord. rewrite descend_path. unfold dotted.
  destruct H as [|l chain H F]; auto. simpl map. simpl fold_left. unfold child_path at 2. simpl String.eqb.
  cbv iota. apply fold_path; auto.
Qed.

Lemma len_app : forall a b : string, String.length (a ++ b) = String.length a + String.length b.
Proof. induction a; intros; simpl; auto. Qed.

Definition total (l : list string) : nat := fold_right (fun s n => String.length s + n) 0 l.

Lemma concat_len : forall l, String.length (String.concat "." l) = total l + (length l - 1).
Proof.
  induction l as [|x [|y l] IH]; auto.
  - simpl. lia.
  - rewrite concat_cons, !len_app, IH. simpl. lia.
Qed.

Lemma chain_names_len : forall chain path, length (chain_names path chain) = length chain.
Proof. induction chain; intros; simpl; auto. Qed.

Lemma chain_names_total : forall chain path, path <> "" ->
    total (map l_name chain) <= total (chain_names path chain) /\    (total (chain_names path chain) <= total (map l_name chain) -> Forall (fun l => l_solver l = RunOnce) chain).
Proof.
  induction chain as [|l chain IH]; intros path H; simpl; auto.
  assert (P : child_path path (l_name l) <> "").
  { unfold child_path. destruct (String.eqb path "") eqn:E; [apply String.eqb_eq in E; contradiction|].
    destruct path; [contradiction|discriminate]. }
  destruct (IH _ P) as [I1 I2].
  assert (L : String.length (l_name l) < String.length (child_path path (l_name l))).
  { unfold child_path. destruct (String.eqb path "") eqn:E; [apply String.eqb_eq in E; contradiction|].
    rewrite !len_app. simpl. lia. }
  destruct (l_solver l) eqn:S; simpl; split; try lia; intros.
  - constructor; auto. apply I2. lia.
Qed.

Lemma chain_names_runonce : forall chain path, Forall (fun l => l_solver l = RunOnce) chain ->
    chain_names path chain = map l_name chain.
Proof. induction chain; intros path F; simpl; auto. inversion F; subst. rewrite H1. simpl. f_equal; auto. Qed.

Lemma key_iff : forall rank driver it0 it1 chain, Forall (fun l => l_name l <> "") chain ->
    get_pathname (fst (group_coord rank driver it0 it1 chain)) = dotted chain
    <-> Forall (fun l => l_solver l = RunOnce) (tl chain).
Proof.
  intros rank driver it0 it1 chain F. unfold get_pathname. rewrite group_coord_names. unfold dotted.
  destruct F as [|l chain N F]; [simpl; split; auto|]. simpl tl. simpl chain_names.
  assert (E : coord_name (l_solver l) (l_name l) (child_path "" (l_name l)) = l_name l)
    by (destruct (l_solver l); reflexivity).
  rewrite E. split.
  - intro H. assert (L : String.length (String.concat "." (l_name l :: chain_names (child_path "" (l_name l)) chain))
                         = String.length (String.concat "." (map l_name (l :: chain)))) by (now rewrite H).
    rewrite !concat_len in L. simpl length in L. rewrite chain_names_len, map_length in L. simpl in L.
    eapply chain_names_total; [|]. 
    + exact N.
    + change (child_path "" (l_name l)) with (l_name l) in L. lia.
  - intro H. rewrite chain_names_runonce by assumption. reflexivity.
Qed.

(** ** in-memory recording *)
Section InMem.
  Context {V : Type}.

  Lemma im_read_mem_other : forall (s : inmem V) m' k n v,
      (exists d, nth_error (im_iters s) k = Some d /\ sget d n = Some (SVal v)) ->
      im_read (mkInmem m' (im_iters s)) k n = Some v.
  Proof. intros s m' k n v (d & A & B). unfold im_read. simpl. now rewrite A, B. Qed.

  Lemma iters_prefix : forall g l (s : inmem V) k d,
      nth_error (im_iters s) k = Some d -> nth_error (im_iters (im_run g s l)) k = Some d.
  Proof.
    induction l as [|o l IH]; intros s k d H; simpl; auto.
    apply IH. destruct o; simpl; auto. rewrite nth_error_app1; auto. apply nth_error_Some. congruence.
  Qed.

  Lemma collect_get : forall g (mem : list (string * V)) names n,
      In n names -> forall x, getitem g mem n = Some x -> sget (collect g mem names) n = Some x.
  Proof.
    induction names as [|a names IH]; intros n I x G; [destruct I|]. simpl.
    destruct (String.eqb n a) eqn:E.
    - apply String.eqb_eq in E; subst. rewrite G. unfold sget. simpl. rewrite String.eqb_refl. reflexivity.
    - assert (In n names) by (destruct I; auto; subst; rewrite String.eqb_refl in E; discriminate).
      destruct (getitem g mem a); auto. unfold sget; simpl. rewrite E. apply IH; auto.
  Qed.

  Lemma by_value_kept : forall g (s : inmem V) names n v later,
      In n names -> sget (im_mem s) n = Some v -> by_value (g n) ->
      im_read (im_run g (im_step g s (Record_ names)) later) (length (im_iters s)) n = Some v.
  Proof.
    intros g s names n v later I E B. unfold im_read.
    rewrite (iters_prefix g later _ _ (collect g (im_mem s) names)).
    - rewrite (collect_get _ _ _ _ I (SVal v)); auto. unfold getitem. rewrite E.
      unfold by_value in B. destruct (g n); auto. congruence.
    - simpl. rewrite nth_error_app2, Nat.sub_diag by lia. reflexivity.
  Qed.

  Lemma array_current : forall g (s : inmem V) names n v later,
      In n names -> sget (im_mem s) n = Some v -> g n = GArray ->
      im_read (im_run g (im_step g s (Record_ names)) later) (length (im_iters s)) n
      = sget (im_mem (im_run g (im_step g s (Record_ names)) later)) n.
  Proof.
    intros g s names n v later I E B. unfold im_read.
    rewrite (iters_prefix g later _ _ (collect g (im_mem s) names)).
    - rewrite (collect_get _ _ _ _ I (SView n)); auto. unfold getitem. rewrite B, E. reflexivity.
    - simpl. rewrite nth_error_app2, Nat.sub_diag by lia. reflexivity.
  Qed.
End InMem.

(** ** files *)
Lemma sdel_keys_in : forall V (d : list (string * V)) k x, In x (dkeys (sdel d k)) -> In x (dkeys d).
Proof.
  intros V d k x. unfold sdel. induction d as [|[k' v'] d IH]; simpl; auto.
  destruct (String.eqb k k'); simpl; tauto.
Qed.

Lemma sget_app : forall V (a b : list (string * V)) k,
    sget (a ++ b)%list k = match sget a k with Some v => Some v | None => sget b k end.
Proof.
  intros V a b k. unfold sget. induction a as [|[k' v'] a IH]; simpl; auto. destruct (String.eqb k k'); auto.
Qed.

Lemma replace_row_get : forall A (d : list (string * A)) k v k', NoDup (dkeys d) ->
    sget (replace_row d k v) k' = if String.eqb k' k then Some v else sget d k'.
Proof.
  intros A d k v k' N. unfold replace_row. rewrite sget_app. cbn [sget dget].
  destruct (smem d k) eqn:M.
  - destruct (String.eqb k' k) eqn:E.
    + apply String.eqb_eq in E; subst. rewrite sget_sdel by assumption. unfold sget; simpl. now rewrite String.eqb_refl.
    + apply String.eqb_neq in E. rewrite sget_sdel_other by congruence. unfold sget; simpl.
      destruct (dget _ _ _); auto.
  - unfold smem, dmem in M. unfold sget; simpl.
    destruct (String.eqb k' k) eqn:E.
    + apply String.eqb_eq in E; subst. destruct (dget String.eqb d k); [discriminate|]. auto.
    + destruct (dget String.eqb d k'); auto.
Qed.

Lemma replace_row_nodup : forall A (d : list (string * A)) k v, NoDup (dkeys d) -> NoDup (dkeys (replace_row d k v)).
Proof.
  intros A d k v N. unfold replace_row, dkeys. rewrite map_app. simpl. apply NoDup_snoc.
  - destruct (smem d k); auto. now apply NoDup_sdel.
  - destruct (smem d k) eqn:M.
    + intro I. assert (G : sget (sdel d k) k = None) by (rewrite sget_sdel; auto; now rewrite String.eqb_refl). unfold sget in G.
      apply (proj1 (dget_none String.eqb String.eqb_eq _ _) G). exact I.
    + apply (proj1 (dget_none String.eqb String.eqb_eq d k)). unfold smem, dmem in M.
      destruct (dget String.eqb d k); [discriminate|auto].
Qed.

Lemma replace_row_new : forall A (d : list (string * A)) k v, ~ In k (dkeys d) ->
    replace_row d k v = (d ++ [(k, v)])%list.
Proof.
  intros A d k v N. unfold replace_row, smem, dmem.
  rewrite (proj2 (dget_none String.eqb String.eqb_eq d k) N). reflexivity.
Qed.

Lemma NoDup_app_left : forall A (a b : list A), NoDup (a ++ b)%list -> NoDup a.
Proof.
  induction a; intros b H; [constructor|]. inversion H; subst. constructor; eauto.
  intro I; apply H2; apply in_or_app; auto.
Qed.

Section FileProofs.
  Context {V D T : Type}.
  Notation ev := (event V D T).

  Definition good (l : list ev) : Prop :=
    Forall (fun e => no_bars (event_coord e)) l /\ NoDup (iter_coords l).

  Definition iters (l : list ev) : list (iteration V T) :=
    flat_map (fun e => match e with EIter i => [i] | _ => [] end) l.

  Lemma iter_coords_iters : forall l : list ev, iter_coords l = map i_coord (iters l).
  Proof. induction l as [|[i|c t d] l IH]; simpl; auto. now rewrite IH. Qed.

  Lemma iters_nb : forall l : list ev, Forall (fun e => no_bars (event_coord e)) l ->
      Forall (fun i => no_bars (i_coord i)) (iters l).
  Proof. induction 1 as [|[i|c t d] l H F IH]; simpl; auto. Qed.

  Lemma iters_app : forall a b : list ev, iters (a ++ b)%list = (iters a ++ iters b)%list.
  Proof. intros; unfold iters; apply flat_map_app. Qed.

  Lemma sq_iterations : forall o (l : list ev), good l ->
      q_iterations (sq_write o l) = map (fun i => (format_coord (i_coord i), idata_of o i)) (iters l).
  Proof.
    intros o l. induction l as [|e l IH] using rev_ind; intros [F N]; auto.
    rewrite iter_coords_iters, iters_app, map_app in N.
    assert (G : good l).
    { apply Forall_app in F. split; [tauto|]. rewrite iter_coords_iters. now apply NoDup_app_left in N. }
    unfold sq_write. rewrite fold_left_app. simpl. fold (sq_write o l). rewrite iters_app, map_app.
    destruct e as [i|c t d]; simpl.
    - rewrite IH by assumption. rewrite replace_row_new; auto.
      intro I. unfold dkeys in I. rewrite map_map in I. simpl in I. apply in_map_iff in I.
      destruct I as (j & E & J).
      apply Forall_app in F. destruct F as [F1 F2]. inversion F2; subst. simpl in H1.
      pose proof (iters_nb _ F1) as NB. rewrite Forall_forall in NB.
      apply format_inj in E; auto. simpl in N. apply NoDup_remove_2 in N. apply N. rewrite app_nil_r.
      rewrite <- E. now apply in_map.
    - rewrite app_nil_r. auto.
  Qed.

  Lemma last_derivs_snoc : forall eqb (l : list ev) c c' t d,
      last_derivs eqb (l ++ [EDerivs c' t d])%list c = if eqb c' c then Some d else last_derivs eqb l c.
  Proof.
    induction l as [|[i|c0 t0 d0] l IH]; intros; simpl; auto.
    rewrite IH. destruct (eqb c' c); auto.
  Qed.
  Lemma last_derivs_snoc_iter : forall eqb (l : list ev) c i,
      last_derivs eqb (l ++ [EIter i])%list c = last_derivs eqb l c.
  Proof.
    induction l as [|[j|c0 t0 d0] l IH]; intros; simpl; auto. now rewrite IH.
  Qed.

  Lemma sq_derivs_nodup : forall o (l : list ev), NoDup (dkeys (q_derivs (sq_write o l))).
  Proof.
    intros o l. induction l as [|e l IH] using rev_ind; [constructor|].
    unfold sq_write. rewrite fold_left_app. simpl. fold (sq_write o l).
    destruct e; simpl; auto. now apply replace_row_nodup.
  Qed.

  Lemma sq_derivs_get : forall eqb o (l : list ev) c, (forall a b, eqb a b = true <-> a = b) ->
      Forall (fun e => no_bars (event_coord e)) l -> no_bars c ->
      sget (q_derivs (sq_write o l)) (format_coord c) = last_derivs eqb l c.
  Proof.
    intros eqb o l c Q. induction l as [|e l IH] using rev_ind; intros F B; auto.
    apply Forall_app in F. destruct F as [F1 F2]. inversion F2; subst.
    unfold sq_write. rewrite fold_left_app. simpl. fold (sq_write o l).
    destruct e as [i|c' t d]; simpl in *.
    - rewrite last_derivs_snoc_iter. auto.
    - rewrite last_derivs_snoc, replace_row_get by apply sq_derivs_nodup.
      destruct (eqb c' c) eqn:E.
      + apply Q in E; subst. rewrite String.eqb_refl. reflexivity.
      + destruct (String.eqb (format_coord c) (format_coord c')) eqn:X; auto.
        apply String.eqb_eq in X. apply format_inj in X; auto. subst.
        assert (eqb c' c' = true) by (apply Q; auto). congruence.
  Qed.

  Lemma sget_map_nodup : forall A (l : list (iteration V T)) (f : iteration V T -> A) i,
      Forall (fun i => no_bars (i_coord i)) l -> NoDup (map i_coord l) -> In i l ->
      sget (map (fun i => (format_coord (i_coord i), f i)) l) (format_coord (i_coord i)) = Some (f i).
  Proof.
    intros A l f i F N I. unfold sget. apply in_dget.
    - exact String.eqb_eq.
    - unfold dkeys. rewrite map_map. simpl.
      clear I. induction l as [|j l IH]; simpl; [constructor|]. inversion F; inversion N; subst.
      constructor; auto. intro I. apply in_map_iff in I. destruct I as (j' & E & J).
      rewrite Forall_forall in H2. apply format_inj in E; auto. apply H5. rewrite <- E. now apply in_map.
    - apply in_map_iff. eauto.
  Qed.

  Lemma sq_case : forall eqb o (l : list ev) i, (forall a b, eqb a b = true <-> a = b) -> good l -> In (EIter i) l ->
      sq_get_case (sq_write o l) (format_coord (i_coord i))
      = Ok (mkCase (format_coord (i_coord i)) (Some (i_timestamp i)) (Some (i_success i)) (Some (i_msg i))
              (if ro_params o then Some (i_params i) else None)
              (if ro_unknowns o then Some (i_unknowns i) else None) None
              (if ro_resids o then Some (i_resids i) else None)
              (last_derivs eqb l (i_coord i))).
  Proof.
    intros eqb o l i Q G I. unfold sq_get_case. rewrite sq_iterations by assumption.
    destruct G as [F N].
    assert (In i (iters l)) by (unfold iters; apply in_flat_map; exists (EIter i); simpl; auto).
    rewrite (sget_map_nodup _ _ (idata_of o)); auto.
    2: now apply iters_nb. 2: now rewrite <- iter_coords_iters.
    rewrite (sq_derivs_get eqb); auto.
    - destruct (last_derivs eqb l (i_coord i)); reflexivity.
    - rewrite Forall_forall in F. exact (F _ I).
  Qed.

  Lemma sq_keys_all : forall o (l : list ev), good l -> sq_keys (sq_write o l) = map format_coord (iter_coords l).
  Proof.
    intros o l G. unfold sq_keys. rewrite sq_iterations by assumption. rewrite map_map, iter_coords_iters, map_map.
    reflexivity.
  Qed.

  Lemma py_index_nat : forall A (l : list A) k a, nth_error l k = Some a -> py_index l (Z.of_nat k) = Ok a.
  Proof.
    intros A l k a H. unfold py_index. assert (k < length l) by (apply nth_error_Some; congruence).
    assert (E : (Z.of_nat k <? 0)%Z = false) by (apply Z.ltb_ge; lia). rewrite E, E.
    assert (E2 : (Z.of_nat (length l) <=? Z.of_nat k)%Z = false) by (apply Z.leb_gt; lia). rewrite E2.
    simpl. rewrite Nat2Z.id, H. reflexivity.
  Qed.

  Lemma sq_case_int : forall o (l : list ev) k i, good l -> nth_error (iters l) k = Some i ->
      sq_get_case_int (sq_write o l) (Z.of_nat k) = sq_get_case (sq_write o l) (format_coord (i_coord i)).
  Proof.
    intros o l k i G H. unfold sq_get_case_int.
    rewrite (py_index_nat _ _ k (format_coord (i_coord i))); auto.
    rewrite sq_keys_all, iter_coords_iters, map_map by assumption.
    rewrite nth_error_map, H. reflexivity.
  Qed.

  Lemma sq_never_derivs : forall o (l : list ev) id c, sq_get_case (sq_write o l) id = Ok c -> k_derivs c = None.
  Proof.
    intros o l id c. unfold sq_get_case. destruct (sget _ id); [|discriminate].
    destruct (sget _ id); intro E; injection E as <-; reflexivity.
  Qed.

  (** HDF5 *)
  Definition h5_of (o : rec_opts) (i : iteration V T) (d : option D) :=
    mkH5 (i_timestamp i) (i_success i) (i_msg i)
      (if ro_params o then Some (i_params i) else None)
      (if ro_unknowns o then Some (i_unknowns i) else None)
      (if ro_resids o then Some (i_resids i) else None) d.

  Lemma h5_inv : forall o (l : list ev) f, good l -> h5_write o [] l = (f, Ok tt) ->
      map fst f = map format_coord (iter_coords l) /\
      forall i, In (EIter i) l -> exists d, sget f (format_coord (i_coord i)) = Some (h5_of o i d).
  Proof.
    intros o l.
    assert (S : forall (a b : list ev) f0, h5_write o f0 (a ++ b)%list
              = match h5_write o f0 a with (f1, Ok _) => h5_write o f1 b | (f1, Err x) => (f1, Err x) end).
    { induction a as [|e a IH]; intros b f0; simpl; auto. destruct (h5_record o f0 e) as [f1 [u|x]]; auto. }
    induction l as [|e l IH] using rev_ind; intros f [F N] H.
    - simpl in H. injection H as <-. split; auto. intros i [].
    - rewrite iter_coords_iters, iters_app, map_app in N.
      assert (G : good l).
      { apply Forall_app in F. split; [tauto|]. rewrite iter_coords_iters. now apply NoDup_app_left in N. }
      apply Forall_app in F. destruct F as [F1 F2]. inversion F2; subst. clear F2 H3.
      pose proof (iters_nb _ F1) as NB. rewrite Forall_forall in NB.
      rewrite S in H. destruct (h5_write o [] l) as [f1 [[]|x]]; [|discriminate].
      destruct (IH f1 G eq_refl) as [K C]. clear IH S.
      rewrite iter_coords_iters, iters_app, map_app, map_app. rewrite iter_coords_iters in K.
      destruct e as [i|c t d]; simpl in *.
      + assert (NK : ~ In (format_coord (i_coord i)) (dkeys f1)).
        { unfold dkeys. rewrite K, map_map. intro I. apply in_map_iff in I. destruct I as (j & E & J).
          apply format_inj in E; auto. apply NoDup_remove_2 in N. apply N. rewrite app_nil_r, <- E. now apply in_map. }
        assert (NG : sget f1 (format_coord (i_coord i)) = None) by (apply (dget_none String.eqb String.eqb_eq); auto).
        rewrite NG in H. injection H as <-. split.
        * fold (dkeys (sset f1 (format_coord (i_coord i)) (h5_of o i None))). unfold sset.
          etransitivity; [apply (dkeys_dset_new String.eqb String.eqb_eq); assumption|].
          unfold dkeys. now rewrite K.
        * intros j I. rewrite sget_sset. apply in_app_or in I. destruct I as [I|[I|[]]].
          -- destruct (String.eqb (format_coord (i_coord j)) (format_coord (i_coord i))) eqn:E.
             ++ exfalso. apply String.eqb_eq in E. apply NK. rewrite <- E.
                destruct (C j I) as (d & G2). eapply dget_some_in_keys; [exact String.eqb_eq|exact G2].
             ++ apply C; auto.
          -- injection I as ->. rewrite String.eqb_refl. exists None. reflexivity.
      + rewrite app_nil_r.
        destruct (sget f1 (format_coord c)) as [g|] eqn:G1; [|discriminate].
        destruct (h_derivs g) eqn:HD; [discriminate|]. injection H as <-. split.
        * fold (@dkeys string _ (sset f1 (format_coord c) (mkH5 (h_timestamp g) (h_success g) (h_msg g)
                                  (h_params g) (h_unknowns g) (h_resids g) (Some d)))). unfold sset.
          etransitivity; [apply (dkeys_dset_in String.eqb String.eqb_eq)|exact K].
          eapply dget_some_in_keys; [exact String.eqb_eq|exact G1].
        * intros j I. rewrite sget_sset. apply in_app_or in I. destruct I as [I|[I|[]]]; [|discriminate].
          destruct (C j I) as (d' & G2).
          destruct (String.eqb (format_coord (i_coord j)) (format_coord c)) eqn:E.
          -- apply String.eqb_eq in E. rewrite E in G2. rewrite G1 in G2. injection G2 as ->.
             exists (Some d). reflexivity.
          -- eauto.
  Qed.

  Lemma insert_perm : forall k l, Permutation (insert_key k l) (k :: l).
  Proof.
    induction l as [|x l IH]; simpl; auto. destruct (k <=? x)%string; auto.
    rewrite IH. apply perm_swap.
  Qed.
  Lemma sort_perm : forall l, Permutation (sort_keys l) l.
  Proof. induction l; simpl; auto. rewrite insert_perm. auto. Qed.

  Lemma h5_case : forall o (l : list ev) f i, good l -> h5_write o [] l = (f, Ok tt) -> In (EIter i) l ->
      Permutation (h5_keys f) (map format_coord (iter_coords l)) /\
      h5_get_case f (format_coord (i_coord i))
      = Ok (mkCase (format_coord (i_coord i)) None None None
              (if ro_params o then Some (i_params i) else None)
              (if ro_unknowns o then Some (i_unknowns i) else None) None
              (if ro_resids o then Some (i_resids i) else None) None).
  Proof.
    intros o l f i G H I. destruct (h5_inv o l f G H) as [K C]. split.
    - unfold h5_keys. rewrite sort_perm, K. reflexivity.
    - unfold h5_get_case. destruct (C i I) as (d & ->). reflexivity.
  Qed.


  Lemma h5_ok : forall o (l : list ev), good l -> Forall (fun e => exists i, e = EIter i) l ->
      snd (h5_write o [] l) = Ok tt.
  Proof.
    intros o l G A.
    assert (S : forall (a b : list ev) f0, h5_write o f0 (a ++ b)%list
              = match h5_write o f0 a with (f1, Ok _) => h5_write o f1 b | (f1, Err x) => (f1, Err x) end).
    { induction a as [|e a IH]; intros b f0; simpl; auto. destruct (h5_record o f0 e) as [f1 [u|x]]; auto. }
    induction l as [|e l IH] using rev_ind; auto.
    apply Forall_app in A. destruct A as [A1 A2]. inversion A2; subst. destruct H1 as [i ->].
    destruct G as [F N]. rewrite iter_coords_iters, iters_app, map_app in N.
    apply Forall_app in F. destruct F as [F1 F2]. inversion F2; subst.
    assert (G : good l) by (split; [assumption|]; rewrite iter_coords_iters; now apply NoDup_app_left in N).
    specialize (IH G A1). rewrite S. destruct (h5_write o [] l) as [f1 r] eqn:E. simpl in IH. subst r.
    simpl. destruct (h5_inv o l f1 G E) as [K _].
    destruct (sget f1 (format_coord (i_coord i))) eqn:X; auto. exfalso.
    unfold sget in X. apply dget_some_in_keys in X; [|exact String.eqb_eq]. unfold dkeys in X.
    rewrite K, iter_coords_iters, map_map in X. apply in_map_iff in X. destruct X as (j & Q & J).
    pose proof (iters_nb _ F1) as NB. rewrite Forall_forall in NB.
    apply format_inj in Q; auto. simpl in N. apply NoDup_remove_2 in N. apply N.
    rewrite app_nil_r, <- Q. now apply in_map.
  Qed.
End FileProofs.

Lemma coord_eqb_spec : forall a b, coord_eqb a b = true <-> a = b.
Proof. intros. unfold coord_eqb. destruct (coord_eq_dec a b); split; congruence. Qed.

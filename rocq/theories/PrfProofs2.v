(** Proofs for PrfProps.v: the sums, and the tree. *)
From Coq Require Import Permutation Sorted Setoid.
From Verif Require Import Base BaseFacts PrfModel PrfSpec PrfProofs.
Local Open Scope string_scope.
Local Open Scope nat_scope.
Local Open Scope list_scope.

Local Arguments Qplus : simpl never.
Local Arguments Qminus : simpl never.
Local Arguments Qmult : simpl never.
Local Arguments Qeq : simpl never.
Local Arguments Qle : simpl never.
Local Arguments sumq : simpl never.

(** ** Sums *)
Lemma sumq_nil : forall {A} (f : A -> Q), sumq f [] = 0%Q.
Proof. reflexivity. Qed.
Lemma sumq_cons : forall {A} (f : A -> Q) a l, sumq f (a :: l) = (f a + sumq f l)%Q.
Proof. reflexivity. Qed.
Ltac sc := cbn [app map]; rewrite ?sumq_cons, ?sumq_nil.
Lemma sumq_app : forall {A} (f : A -> Q) l m, (sumq f (l ++ m) == sumq f l + sumq f m)%Q.
Proof. induction l as [|a l IH]; intros m; sc; [ring|]. rewrite IH. ring. Qed.
Lemma sumq_perm : forall {A} (f : A -> Q) l m, Permutation l m -> (sumq f l == sumq f m)%Q.
Proof. intros A f l m P. induction P; sc; [reflexivity|rewrite IHP; reflexivity|ring|rewrite IHP1; exact IHP2]. Qed.
Lemma sumq_ext : forall {A} (f g : A -> Q) l, (forall a, In a l -> (f a == g a)%Q) -> (sumq f l == sumq g l)%Q.
Proof. induction l as [|a l IH]; intros H; [reflexivity|]. sc. rewrite (H a (or_introl eq_refl)), IH; [reflexivity|]. intros b I. apply H. right. exact I. Qed.
Lemma sumq_zero : forall {A} (f : A -> Q) l, (forall a, In a l -> (f a == 0)%Q) -> (sumq f l == 0)%Q.
Proof. induction l as [|a l IH]; intros H; [reflexivity|]. sc. rewrite (H a (or_introl eq_refl)), IH; [reflexivity|]. intros b I. apply H. right. exact I. Qed.
Lemma sumq_add : forall {A} (f g : A -> Q) l, (sumq (fun a => f a + g a) l == sumq f l + sumq g l)%Q.
Proof. induction l as [|a l IH]; [reflexivity|]. sc. rewrite IH. ring. Qed.
Lemma sumq_swap : forall {A B} (f : A -> B -> Q) la lb, (sumq (fun a => sumq (f a) lb) la == sumq (fun b => sumq (fun a => f a b) la) lb)%Q.
Proof.
  intros A B f. induction la as [|a la IH]; intros lb; sc.
  - symmetry. apply sumq_zero. reflexivity.
  - rewrite IH. rewrite <- sumq_add. reflexivity.
Qed.
Lemma sumq_map : forall {A B} (f : B -> Q) (g : A -> B) l, sumq f (map g l) = sumq (fun a => f (g a)) l.
Proof. induction l as [|a l IH]; [reflexivity|]. sc. rewrite IH. reflexivity. Qed.
Lemma sumq_le : forall {A} (f g : A -> Q) l, (forall a, In a l -> (f a <= g a)%Q) -> (sumq f l <= sumq g l)%Q.
Proof. induction l as [|a l IH]; intros H; [apply Qle_refl|]. sc. apply Qplus_le_compat; [apply H; left; reflexivity|apply IH; intros b I; apply H; right; exact I]. Qed.
(** at most one element counts *)
Lemma sumq_one : forall {A} (f : A -> Q) (a : A) l, NoDup l -> In a l -> (forall b, In b l -> b <> a -> (f b == 0)%Q) -> (sumq f l == f a)%Q.
Proof.
  induction l as [|b l IH]; intros ND I H; [destruct I|]. inversion ND; subst. sc. destruct I as [->|I].
  - rewrite (sumq_zero f l); [ring|]. intros c Ic. apply H; [right; exact Ic|]. intros ->. contradiction.
  - rewrite IH; [|assumption|exact I|intros c Ic; apply H; right; exact Ic]. rewrite (H b (or_introl eq_refl)); [ring|]. intros ->. contradiction.
Qed.

Lemma same_iff : forall p q, same p q = true <-> p = q.
Proof. intros p q. unfold same. destruct (list_eq_dec string_dec p q); split; intros; congruence. Qed.
Lemma same_refl : forall p, same p p = true.
Proof. intros p. apply same_iff. reflexivity. Qed.
Lemma below_iff : forall p q, below p q = true <-> exists n r, q = p ++ n :: r.
Proof.
  intros p q. unfold below. rewrite andb_true_iff, Nat.ltb_lt, same_iff. split.
  - intros [L E]. rewrite <- (firstn_skipn (length p) q), E. destruct (skipn (length p) q) as [|n r] eqn:X; [|exists n, r; reflexivity].
    apply (f_equal (@length string)) in X. rewrite skipn_length in X. cbn in X. lia.
  - intros (n & r & ->). split; [rewrite app_length; cbn; lia|]. rewrite firstn_app, Nat.sub_diag, firstn_all. cbn. rewrite app_nil_r. reflexivity.
Qed.

(** ** The calls by path *)
Definition wf_call (c : pcall) : Prop := c_path c <> [] /\ Forall no_comma (c_path c).
Definition ovr_at (C : list pcall) (p : list string) : Q := sumq (fun c => if same p (c_path c) then c_ovr c else 0%Q) C.

Record finv (C : list pcall) (funcs : list (string * (nat * Q * Q))) (tops : list string) : Prop := mkFinv {
  fi_nodup : NoDup (dkeys funcs);
  fi_keys : forall k, In k (dkeys funcs) <-> exists p, called C p /\ k = text p;
  fi_val : forall p, called C p -> exists n t o, sget funcs (text p) = Some (n, t, o) /\ n = number (fun c => same p (c_path c)) C /\ (t == elapsed C p)%Q /\ (o == ovr_at C p)%Q;
  fi_tops : forall k, In k tops <-> exists n, called C [n] /\ k = n }.

Lemma number_perm : forall f C D, Permutation C D -> number f C = number f D.
Proof. intros f C D P. unfold number. apply Permutation_length. induction P; cbn; [constructor|destruct (f x); [constructor|]; assumption| |eapply perm_trans; eassumption]. destruct (f x), (f y); try reflexivity. apply perm_swap. Qed.
Lemma called_perm : forall C D p, Permutation C D -> called C p -> called D p.
Proof. intros C D p P (c & I & E). exists c. split; [exact (Permutation_in _ P I)|exact E]. Qed.
Lemma finv_perm : forall C D f t, Permutation C D -> finv C f t -> finv D f t.
Proof.
  intros C D f t P [A B V T]. assert (P' := Permutation_sym P). constructor; [exact A| | |].
  - intros k. rewrite B. split; intros (p & Cp & E); exists p; (split; [eapply called_perm; eassumption|exact E]).
  - intros p Cp. destruct (V p (called_perm _ _ _ P' Cp)) as (n & tt & o & G & En & Et & Eo). exists n, tt, o. split; [exact G|]. split; [rewrite En; apply number_perm; exact P|].
    split; [rewrite Et; apply sumq_perm; exact P|rewrite Eo; apply sumq_perm; exact P].
  - intros k. rewrite T. split; intros (n & Cp & E); exists n; (split; [eapply called_perm; eassumption|exact E]).
Qed.

Definition step (acc : list (string * (nat * Q * Q)) * list string) (c : pcall) : list (string * (nat * Q * Q)) * list string :=
  (update_counts (fst acc) (text (c_path c)) (c_elapsed c) (c_ovr c), match removelast (c_path c) with [] => snd acc ++ [text (c_path c)] | _ => snd acc end).

Lemma wf_ext : forall many ext c, (forall d, ext = Some d -> no_comma d) -> wf_call c -> wf_call (with_ext many ext c).
Proof.
  intros many ext c Hd [Ne F]. unfold with_ext. destruct many; [|split; assumption]. destruct ext as [d|]; [|split; assumption]. split; cbn.
  - destruct (c_path c); [congruence|discriminate].
  - apply Forall_map. eapply Forall_impl; [|exact F]. intros n Hn. apply no_comma_app; [exact Hn|apply Hd; reflexivity].
Qed.
Lemma add_call_step : forall (many : bool) ext acc c, wf_call c -> add_call (if many then ext else None) acc (key c) = step acc (with_ext many ext c).
Proof.
  intros many ext [f t] c [Ne F]. unfold add_call, key, step, with_ext. rewrite split_text by assumption. destruct many; [destruct ext as [d|]|]; cbn [fst snd c_path c_elapsed c_ovr]; try reflexivity.
  rewrite join_text. reflexivity.
Qed.
Lemma fold_add_call : forall (many : bool) ext l acc, Forall wf_call l -> fold_left (add_call (if many then ext else None)) (map key l) acc = fold_left step (map (with_ext many ext) l) acc.
Proof. intros many ext. induction l as [|c l IH]; intros acc F; [reflexivity|]. inversion F; subst. cbn [map fold_left]. rewrite add_call_step by assumption. apply IH. assumption. Qed.

Lemma called_snoc : forall C c p, called (C ++ [c]) p <-> called C p \/ p = c_path c.
Proof.
  intros C c p. unfold called. split.
  - intros (d & I & E). apply in_app_or in I. destruct I as [I|[->|[]]]; [left; exists d; split; assumption|right; congruence].
  - intros [(d & I & E)| ->]; [exists d; split; [apply in_or_app; left; exact I|exact E]|exists c; split; [apply in_or_app; right; left; reflexivity|reflexivity]].
Qed.
Lemma number_snoc : forall f C c, number f (C ++ [c]) = number f C + if f c then 1 else 0.
Proof. intros f C c. unfold number. rewrite filter_app, app_length. cbn. destruct (f c); reflexivity. Qed.
Lemma not_called_number : forall C p, ~ called C p -> number (fun c => same p (c_path c)) C = 0.
Proof.
  intros C p N. unfold number. induction C as [|c C IH]; [reflexivity|]. cbn. destruct (same p (c_path c)) eqn:E.
  - apply same_iff in E. exfalso. apply N. exists c. split; [left; reflexivity|congruence].
  - apply IH. intros (d & I & Ed). apply N. exists d. split; [right; exact I|exact Ed].
Qed.
Lemma not_called_sum : forall C p (g : pcall -> Q), ~ called C p -> (sumq (fun c => if same p (c_path c) then g c else 0%Q) C == 0)%Q.
Proof. intros C p g N. apply sumq_zero. intros c I. destruct (same p (c_path c)) eqn:E; [|reflexivity]. apply same_iff in E. exfalso. apply N. exists c. split; [exact I|congruence]. Qed.

Lemma called_wf : forall C p, Forall wf_call C -> called C p -> p <> [] /\ Forall no_comma p.
Proof. intros C p F (c & I & <-). exact (proj1 (Forall_forall _ _) F c I). Qed.
Lemma finv_step : forall C f t c, Forall wf_call C -> wf_call c -> finv C f t -> finv (C ++ [c]) (fst (step (f, t) c)) (snd (step (f, t) c)).
Proof.
  intros C f t c FC [Ne Fc] [A B V T]. unfold step. cbn [fst snd].
  assert (Inj : forall p, called C p -> text p = text (c_path c) -> p = c_path c) by (intros p Cp E; destruct (called_wf C p FC Cp); apply text_inj; assumption).
  assert (K : forall k, In k (dkeys (update_counts f (text (c_path c)) (c_elapsed c) (c_ovr c))) <-> In k (dkeys f) \/ k = text (c_path c)).
  { intros k. unfold update_counts. assert (X : forall v : nat * Q * Q, In k (dkeys (sset f (text (c_path c)) v)) <-> In k (dkeys f) \/ k = text (c_path c)).
    { intros v. split.
      - intros I. destruct (String.eqb_spec k (text (c_path c))) as [->|Nk]; [right; reflexivity|left]. destruct (dget String.eqb f k) as [w|] eqn:G; [exact (dget_some_in_keys String.eqb String.eqb_eq _ _ _ G)|].
        exfalso. apply (proj1 (dget_none String.eqb String.eqb_eq (sset f (text (c_path c)) v) k)); [|exact I]. unfold sset. rewrite (dget_dset_ne String.eqb String.eqb_eq) by exact Nk. exact G.
      - intros [I| ->].
        + destruct (dget String.eqb (sset f (text (c_path c)) v) k) as [w|] eqn:G; [exact (dget_some_in_keys String.eqb String.eqb_eq _ _ _ G)|]. exfalso. unfold sset in G. rewrite (dget_dset String.eqb String.eqb_eq) in G.
          destruct (String.eqb k (text (c_path c))); [discriminate|]. apply (proj1 (dget_none String.eqb String.eqb_eq f k) G I).
        + apply (dget_some_in_keys String.eqb String.eqb_eq _ _ v). apply (dget_dset_eq String.eqb String.eqb_eq). }
    destruct (sget f (text (c_path c))) as [[[n tt] o]|]; apply X. }
  constructor.
  - unfold update_counts. destruct (sget f (text (c_path c))) as [[[n tt] o]|]; apply (NoDup_dkeys_dset String.eqb String.eqb_eq); exact A.
  - intros k. rewrite K, B. split.
    + intros [(p & Cp & E)|E]; [exists p|exists (c_path c)]; (split; [apply called_snoc|exact E]); [left; exact Cp|right; reflexivity].
    + intros (p & Cp & E). apply called_snoc in Cp. destruct Cp as [Cp| ->]; [left; exists p; split; assumption|right; exact E].
  - intros p Cp. rewrite number_snoc. unfold elapsed, ovr_at. destruct (same p (c_path c)) eqn:Sp.
    + apply same_iff in Sp. subst p. destruct (sget f (text (c_path c))) as [[[n tt] o]|] eqn:G.
      * assert (Cc : called C (c_path c)). { assert (I : In (text (c_path c)) (dkeys f)) by exact (dget_some_in_keys String.eqb String.eqb_eq _ _ _ G). apply B in I. destruct I as (p & Cq & E). rewrite <- (Inj p Cq (eq_sym E)). exact Cq. }
        destruct (V _ Cc) as (n' & t' & o' & G' & En & Et & Eo). rewrite G in G'. injection G' as X1 X2 X3. rewrite <- X1 in En. rewrite <- X2 in Et. rewrite <- X3 in Eo. exists (S n), (tt + c_elapsed c)%Q, (o + c_ovr c)%Q.
        unfold update_counts. rewrite G. split; [apply (dget_dset_eq String.eqb String.eqb_eq)|]. split; [rewrite En; lia|]. rewrite !sumq_app, !sumq_cons, !sumq_nil. rewrite same_refl. rewrite Et, Eo. split; unfold elapsed, ovr_at; ring.
      * assert (Nc : ~ called C (c_path c)). { intros Cc. destruct (V _ Cc) as (n & tt & o & G' & _). congruence. }
        exists 1, (c_elapsed c), (c_ovr c). unfold update_counts. rewrite G. split; [apply (dget_dset_eq String.eqb String.eqb_eq)|]. rewrite (not_called_number _ _ Nc). split; [reflexivity|].
        rewrite !sumq_app, !sumq_cons, !sumq_nil. rewrite same_refl. rewrite !(not_called_sum C (c_path c) _ Nc). split; ring.
    + apply called_snoc in Cp. destruct Cp as [Cp| ->]; [|rewrite same_refl in Sp; discriminate]. destruct (V p Cp) as (n & tt & o & G & En & Et & Eo).
      assert (Nt : text p <> text (c_path c)) by (intros E; rewrite (Inj p Cp E), same_refl in Sp; discriminate).
      exists n, tt, o. split; [|split; [lia|]].
      * unfold update_counts. destruct (sget f (text (c_path c))) as [[[n' t'] o']|]; unfold sget, sset; rewrite (dget_dset_ne String.eqb String.eqb_eq) by exact Nt; exact G.
      * rewrite !sumq_app, !sumq_cons, !sumq_nil. rewrite Sp, Et, Eo. split; unfold elapsed, ovr_at; ring.
  - intros k. assert (X : In k (match removelast (c_path c) with [] => t ++ [text (c_path c)] | _ :: _ => t end) <-> In k t \/ c_path c = [k]).
    { destruct (c_path c) as [|a [|b r]]; [congruence| |].
      - cbn [removelast]. change (text [a]) with a. rewrite in_app_iff. cbn. split; (intros [I|I]; [left; exact I|right]); [destruct I as [->|[]]; reflexivity|inversion I; left; reflexivity].
      - change (removelast (a :: b :: r)) with (a :: removelast (b :: r)). cbv beta iota. split; [intros I; left; exact I|intros [I|I]; [exact I|discriminate]]. }
    rewrite X, T. split.
    + intros [(n & Cn & E)|E]; [exists n; split; [apply called_snoc; left; exact Cn|exact E]|exists k; split; [apply called_snoc; right; congruence|reflexivity]].
    + intros (n & Cn & ->). apply called_snoc in Cn. destruct Cn as [Cn|E]; [left; exists n; split; [exact Cn|reflexivity]|right; congruence].
Qed.
Lemma finv_fold : forall D C f t, Forall wf_call C -> Forall wf_call D -> finv C f t -> finv (C ++ D) (fst (fold_left step D (f, t))) (snd (fold_left step D (f, t))).
Proof.
  induction D as [|c D IH]; intros C f t FC FD I; [rewrite app_nil_r; exact I|]. inversion FD; subst. cbn [fold_left]. destruct (step (f, t) c) as [f1 t1] eqn:E.
  assert (I1 : finv (C ++ [c]) f1 t1) by (pose proof (finv_step C f t c FC H1 I) as X; rewrite E in X; exact X).
  specialize (IH (C ++ [c]) f1 t1). rewrite <- app_assoc in IH. apply IH; [apply Forall_app; split; [assumption|constructor; [assumption|constructor]]|assumption|exact I1].
Qed.

Lemma prof_paths : forall p enc on c, In c (fst (prof enc on p)) -> exists n r, c_path c = enc ++ n :: r.
Proof.
  induction p as [|t r IH|t r IH|n o s b IHb e x r IHr]; intros enc on c I.
  - destruct I.
  - exact (IH _ _ _ I).
  - exact (IH _ _ _ I).
  - destruct on.
    + rewrite prof_call_on in I. cbn [fst] in I. destruct I as [<-|I]; [exists n, []; reflexivity|]. apply in_app_or in I. destruct I as [I|I]; [|exact (IHr _ _ _ I)].
      destruct (IHb _ _ _ I) as (m & q & E). exists n, (m :: q). rewrite E, <- app_assoc. reflexivity.
    + rewrite prof_call_off in I. cbn [fst] in I. apply in_app_or in I. destruct I as [I|I]; [exact (IHb _ _ _ I)|exact (IHr _ _ _ I)].
Qed.
Lemma good_wf : forall x, good_process x -> Forall wf_call (calls_of (x_prog x)) /\ quiet (calls_of (x_prog x)).
Proof.
  intros x [G _]. split; apply Forall_forall; intros c I; destruct (G c I) as [F R]; [|exact R]. split; [|exact F]. destruct (prof_paths _ _ _ _ I) as (n & r & E). rewrite E. discriminate.
Qed.
Lemma read_files_ok : forall (many : bool) xs C f t tot, Forall wf_call C -> Forall good_process xs -> finv C f t ->
    exists f' t' tot', read_files many (map file_of xs) (f, t, tot) = Ok (f', t', tot') /\ finv (C ++ flat_map (fun x => map (with_ext many (x_ext x)) (calls_of (x_prog x))) xs) f' t' /\
      (tot' == tot + sumq (fun x => profiled_time (x_prog x) (x_end x)) xs)%Q.
Proof.
  intros many. induction xs as [|x xs IH]; intros C f t tot FC G I.
  - exists f, t, tot. split; [reflexivity|]. cbn [flat_map]. rewrite app_nil_r. split; [exact I|sc; ring].
  - inversion G; subst. destruct (good_wf x H1) as [W Qt]. destruct (file_calls x Qt) as (l & El & P). cbn [map read_files]. rewrite El. cbn [bind].
    assert (Wl : Forall wf_call l) by (apply (Permutation_Forall (Permutation_sym P)); exact W).
    assert (Ex : d_ext (file_of x) = x_ext x) by reflexivity. rewrite Ex, fold_add_call by exact Wl.
    assert (WD : Forall wf_call (map (with_ext many (x_ext x)) l)) by (apply Forall_map; eapply Forall_impl; [|exact Wl]; intros c Hc; apply wf_ext; [apply H1|exact Hc]).
    pose proof (finv_fold _ C f t FC WD I) as I1. destruct (fold_left step (map (with_ext many (x_ext x)) l) (f, t)) as [f1 t1]. cbn [fst snd] in I1.
    assert (I2 : finv (C ++ map (with_ext many (x_ext x)) (calls_of (x_prog x))) f1 t1) by (eapply finv_perm; [|exact I1]; apply Permutation_app_head; apply Permutation_map; exact P).
    assert (F2 : Forall wf_call (C ++ map (with_ext many (x_ext x)) (calls_of (x_prog x)))) by (apply Forall_app; split; [exact FC|]; apply (Permutation_Forall (Permutation_map (with_ext many (x_ext x)) P)); exact WD).
    destruct (IH _ f1 t1 (tot + d_total (file_of x))%Q F2 H2 I2) as (f' & t' & tot' & E & I3 & ET). exists f', t', tot'. split; [exact E|]. cbn [flat_map]. rewrite app_assoc. split; [exact I3|]. rewrite ET, (file_total x). sc. ring.
Qed.
Lemma finv_nil : finv [] [] [].
Proof. constructor; [constructor| | |]; cbn; intros; [split; [intros []|intros (p & (c & [] & _) & _)]|destruct H as (c & [] & _)|split; [intros []|intros (p & (c & [] & _) & _)]]. Qed.

Lemma app_front : forall {A} (a b c d : list A), a ++ b = c ++ d -> length a = length c -> a = c.
Proof. induction a as [|x a IH]; intros b [|y c] d E L; try discriminate; [reflexivity|]. inversion E; subst. f_equal. apply (IH b c d); [assumption|cbn in L; lia]. Qed.

(** ** The tree is closed *)
Definition closed (C : list pcall) : Prop := forall p n, p <> [] -> called C (p ++ [n]) -> called C p.
Lemma prof_closed : forall p enc on q n, length enc < length q -> called (fst (prof enc on p)) (q ++ [n]) -> called (fst (prof enc on p)) q.
Proof.
  induction p as [|t r IH|t r IH|m o s b IHb e x r IHr]; intros enc on q n L (c & I & E).
  - destruct I.
  - apply (IH enc true q n L). exists c. split; assumption.
  - apply (IH enc false q n L). exists c. split; assumption.
  - destruct on.
    + rewrite prof_call_on in *. cbn [fst] in *. destruct I as [<-|I].
      * cbn in E. apply (f_equal (@length string)) in E. rewrite !app_length in E. cbn in E. lia.
      * apply in_app_or in I. destruct I as [I|I].
        -- destruct (Nat.eq_dec (length q) (S (length enc))) as [Eq|Nq].
           ++ destruct (prof_paths _ _ _ _ I) as (k & w & Ek). rewrite E in Ek. assert (X : q = enc ++ [m]).
              { apply (app_front _ _ _ _ Ek). rewrite app_length. cbn. lia. }
              subst q. eexists. split; [left; reflexivity|reflexivity].
           ++ destruct (IHb (enc ++ [m]) true q n) as (d & Id & Ed); [rewrite app_length; cbn; lia|exists c; split; assumption|]. exists d. split; [right; apply in_or_app; left; exact Id|exact Ed].
        -- destruct (IHr enc _ q n L (ex_intro _ c (conj I E))) as (d & Id & Ed). exists d. split; [right; apply in_or_app; right; exact Id|exact Ed].
    + rewrite prof_call_off in *. cbn [fst] in *. apply in_app_or in I. destruct I as [I|I].
      * destruct (IHb enc false q n L (ex_intro _ c (conj I E))) as (d & Id & Ed). exists d. split; [apply in_or_app; left; exact Id|exact Ed].
      * destruct (IHr enc _ q n L (ex_intro _ c (conj I E))) as (d & Id & Ed). exists d. split; [apply in_or_app; right; exact Id|exact Ed].
Qed.
Lemma map_snoc_inv : forall {A B} (g : A -> B) l q y, map g l = q ++ [y] -> exists l0 z, l = l0 ++ [z] /\ map g l0 = q.
Proof.
  intros A B g l q y E. destruct l as [|a l] using rev_ind; [destruct q; discriminate|]. rewrite map_app in E. cbn in E. apply app_inj_tail in E. exists l, a. split; [reflexivity|apply E].
Qed.
Lemma closed_ext : forall many ext C, closed C -> closed (map (with_ext many ext) C).
Proof.
  intros many ext C Cl p n Np (c & I & E). apply in_map_iff in I. destruct I as (c0 & <- & I). unfold with_ext in *.
  destruct many; [destruct ext as [d|]|]; cbn in E.
  - destruct (map_snoc_inv _ _ _ _ E) as (l0 & z & El & <-). destruct (Cl l0 z) as (c1 & I1 & E1); [intros ->; apply Np; reflexivity|exists c0; split; assumption|].
    eexists. split; [apply in_map; exact I1|]. cbn. rewrite E1. reflexivity.
  - destruct (Cl p n Np (ex_intro _ c0 (conj I E))) as (c1 & I1 & E1). exists c1. split; [|exact E1]. rewrite map_id. exact I1.
  - destruct (Cl p n Np (ex_intro _ c0 (conj I E))) as (c1 & I1 & E1). exists c1. split; [|exact E1]. rewrite map_id. exact I1.
Qed.
Lemma all_closed : forall xs, closed (all_calls xs).
Proof.
  intros xs p n Np (c & I & E). unfold all_calls in *. apply in_flat_map in I. destruct I as (x & Ix & I).
  assert (Cl : closed (map (with_ext (1 <? length xs) (x_ext x)) (calls_of (x_prog x)))).
  { apply closed_ext. intros q m Nq Cq. unfold calls_of in *. apply (prof_closed _ _ _ q m); [destruct q; [congruence|cbn; lia]|exact Cq]. }
  destruct (Cl p n Np (ex_intro _ c (conj I E))) as (d & Id & Ed). exists d. split; [apply in_flat_map; exists x; split; assumption|exact Ed].
Qed.
Lemma all_wf : forall xs, Forall good_process xs -> Forall wf_call (all_calls xs).
Proof.
  intros xs G. apply Forall_forall. intros c I. apply in_flat_map in I. destruct I as (x & Ix & I). apply in_map_iff in I. destruct I as (c0 & <- & I). pose proof (proj1 (Forall_forall _ _) G x Ix) as Gx.
  apply wf_ext; [apply Gx|]. exact (proj1 (Forall_forall _ _) (proj1 (good_wf x Gx)) c0 I).
Qed.

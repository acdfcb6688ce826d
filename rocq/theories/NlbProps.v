(** C132: how a namelist is put together. *)
From Verif Require Import Base BaseFacts PrfModel PrfProofs NlbModel NlbSpec.
Local Open Scope list_scope.
Local Open Scope nat_scope.

(** ** Sorting *)
Lemma insert_in : forall n l m, In m (insert n l) <-> m = n \/ In m l.
Proof. intros n. induction l as [|a l IH]; intros m; cbn; [split; [intros [<-|[]]; auto|intros [->|[]]; auto]|]. destruct (String.leb n a); cbn; [split; [intros [<-|K]; auto|intros [->|K]; auto]|]. rewrite IH. split; [intros [K|[K|K]]; auto|intros [K|[K|K]]; auto]. Qed.
Lemma sort_in : forall l m, In m (sort l) <-> In m l.
Proof. induction l as [|a l IH]; intros m; cbn; [tauto|]. rewrite insert_in, IH. split; intros [K|K]; auto. Qed.
Lemma insert_asc : forall n l, ~ In n l -> ascending l -> ascending (insert n l).
Proof.
  intros n. induction l as [|a l IH]; intros Nn A; [split; [constructor|exact I]|]. cbn [insert]. destruct A as [A1 A2]. destruct (String.leb n a) eqn:E.
  - split; [|split; assumption]. rewrite Forall_forall in A1 |- *. intros b [<-|K]; [split; [exact E|intros ->; apply Nn; left; reflexivity]|]. split; [exact (leb_trans _ _ _ E (proj1 (A1 b K)))|intros ->; apply Nn; right; exact K].
  - split; [|apply IH; [intros K; apply Nn; right; exact K|exact A2]]. rewrite Forall_forall in A1 |- *. intros b K. apply insert_in in K. destruct K as [->|K]; [|exact (A1 b K)]. split; [destruct (String.leb_total n a) as [T|T]; [congruence|exact T]|intros ->; apply Nn; left; reflexivity].
Qed.
Lemma sort_asc : forall l, NoDup l -> ascending (sort l).
Proof. intros l N. induction N as [|a l Na N IH]; [exact I|]. cbn. apply insert_asc; [rewrite sort_in; exact Na|exact IH]. Qed.
Lemma filter_asc : forall f l, ascending l -> ascending (filter f l).
Proof. intros f. induction l as [|a l IH]; intros A; [exact I|]. destruct A as [A1 A2]. cbn. destruct (f a); [|exact (IH A2)]. split; [|exact (IH A2)]. rewrite Forall_forall in A1 |- *. intros b K. apply filter_In in K. apply A1. apply K. Qed.
Lemma asc_unique : forall l m, ascending l -> ascending m -> (forall n, In n l <-> In n m) -> l = m.
Proof.
  induction l as [|a l IH]; intros m A B E.
  - destruct m as [|b m]; [reflexivity|]. destruct (proj2 (E b) (or_introl eq_refl)).
  - destruct m as [|b m]; [destruct (proj1 (E a) (or_introl eq_refl))|]. destruct A as [A1 A2]. destruct B as [B1 B2]. rewrite Forall_forall in A1, B1.
    assert (Eab : a = b). { destruct (proj1 (E a) (or_introl eq_refl)) as [K|K]; [symmetry; exact K|]. destruct (proj2 (E b) (or_introl eq_refl)) as [K'|K']; [exact K'|]. apply String.leb_antisym; [apply A1; exact K'|apply B1; exact K]. }
    subst b. f_equal. apply IH; [exact A2|exact B2|]. intros n. split; intros K.
    + destruct (proj1 (E n) (or_intror K)) as [->|K']; [destruct (A1 n K) as [_ Z]; contradiction|exact K'].
    + destruct (proj2 (E n) (or_intror K)) as [->|K']; [destruct (B1 n K) as [_ Z]; contradiction|exact K'].
Qed.

Lemma after_iff : forall p n s, after p n = Some s <-> n = (p ++ s)%string.
Proof.
  induction p as [|a p IH]; intros n s; cbn; [split; [intros [= ->]; reflexivity|intros ->; reflexivity]|]. destruct n as [|b n]; [split; discriminate|]. destruct (Ascii.eqb_spec a b) as [->|Ne]; [|split; [discriminate|intros [= -> _]; contradiction]]. rewrite IH. split; [intros ->; reflexivity|intros [= ->]; reflexivity].
Qed.
Lemma app_str : forall a b c : string, ((a ++ b) ++ c = a ++ b ++ c)%string.
Proof. induction a as [|x a IH]; intros b c; cbn; [reflexivity|]. rewrite IH. reflexivity. Qed.
Lemma chosen_iff : forall path skip n, chosen path skip n = true <-> exists sub, n = (path ++ ":" ++ sub)%string /\ ~ In sub skip.
Proof.
  intros path skip n. unfold chosen. assert (X : forall sub, existsb (String.eqb sub) skip = true <-> In sub skip).
  { intros sub. rewrite existsb_exists. split; [intros (x & K & E); apply String.eqb_eq in E; subst; exact K|intros K; exists sub; split; [exact K|apply String.eqb_refl]]. }
  destruct (after (append path ":") n) as [s|] eqn:E.
  - apply after_iff in E. rewrite app_str in E. subst n. split.
    + intros K. exists s. split; [reflexivity|]. intros Z. apply X in Z. rewrite Z in K. discriminate K.
    + intros (sub & K & Z). assert (Es : sub = s). { clear - K. induction path as [|a p IH]; cbn in K; [injection K as ->; reflexivity|]. injection K as K. exact (IH K). } subst sub. destruct (existsb (String.eqb s) skip) eqn:Q; [apply X in Q; contradiction|reflexivity].
  - split; [discriminate|]. intros (sub & -> & _). assert (K : after (append path ":") (path ++ ":" ++ sub)%string = Some sub) by (apply after_iff; rewrite app_str; reflexivity). congruence.
Qed.

Section Facts.
  Context {V : Type} (params : list string) (value : string -> option V).
  Hypothesis (Nd : NoDup params).
  Notation add_var := (add_var value).
  Notation perform := (perform params value).
  Notation adds := (adds params value).

  Record inv (d : deck V) (D : list (string * list (card V))) : Prop := {
    i_groups : groups d = map fst D;
    i_cards : cards d = map snd D;
    i_current : current d = length D - 1 }.

  Lemma append_last : forall A (l : list (list A)) x a, append_at (l ++ [x]) (length l) a = Ok (l ++ [x ++ [a]]).
  Proof. induction l as [|y l IH]; intros x a; [reflexivity|]. cbn. rewrite IH. reflexivity. Qed.
  Lemma card_some : forall d D g cs c, inv d (D ++ [(g, cs)]) -> exists d', add_card d c = Ok d' /\ inv d' (D ++ [(g, cs ++ [c])]).
  Proof.
    intros d D g cs c [Hg Hc Hk]. unfold add_card. rewrite Hc, Hk, map_app, app_length. cbn [map snd length]. replace (length D + 1 - 1) with (length (map snd D)) by (rewrite map_length; lia). rewrite append_last. eexists. split; [reflexivity|]. split; cbn; [rewrite Hg, !map_app; reflexivity|rewrite map_app; reflexivity|rewrite app_length; cbn; rewrite ?map_length; lia].
  Qed.
  Lemma card_none : forall d c, inv d [] -> add_card d c = Err IndexError.
  Proof. intros d c [_ Hc _]. unfold add_card. rewrite Hc. reflexivity. Qed.

  Lemma fold_err : forall (f : deck V -> string -> res (deck V)) l e, fold_left (fun r n => let! d := r in f d n) l (Err e) = Err e.
  Proof. intros f. induction l as [|a l IH]; intros e; [reflexivity|exact (IH e)]. Qed.
  Lemma fold_filter : forall (f : string -> bool) l (r : res (deck V)), fold_left (fun r n => let! d := r in if f n then add_var d n else Ok d) l r = fold_left (fun r n => let! d := r in add_var d n) (filter f l) r.
  Proof. intros f. induction l as [|a l IH]; intros r; [reflexivity|]. cbn. destruct (f a); cbn; rewrite IH; [reflexivity|]. f_equal. destruct r; reflexivity. Qed.

  Definition valued (cs : list (card V)) : Prop := forall c, In c cs -> value (c_name c) = Some (c_value c) /\ c_comment c = false.
  Lemma vars_down : forall ns d D g cs d', inv d (D ++ [(g, cs)]) -> fold_left (fun r n => let! d := r in add_var d n) ns (Ok d) = Ok d' -> exists cs', map c_name cs' = ns /\ valued cs' /\ inv d' (D ++ [(g, cs ++ cs')]).
  Proof.
    induction ns as [|n ns IH]; intros d D g cs d' I R; cbn in R.
    - injection R as <-. exists []. split; [reflexivity|]. split; [intros c []|rewrite app_nil_r; exact I].
    - unfold add_var, NlbModel.add_var in R. destruct (value n) as [v|] eqn:E; [|rewrite fold_err in R; discriminate R]. destruct (card_some d D g cs (Card n v false) I) as (d1 & E1 & I1). rewrite E1 in R. destruct (IH d1 D g _ d' I1 R) as (cs' & Hm & Hv & I2). exists (Card n v false :: cs'). split; [cbn; rewrite Hm; reflexivity|]. split; [intros c [<-|K]; [split; [exact E|reflexivity]|exact (Hv c K)]|]. rewrite <- app_assoc in I2. exact I2.
  Qed.
  Lemma vars_up : forall cs' d D g cs, inv d (D ++ [(g, cs)]) -> valued cs' -> exists d', fold_left (fun r n => let! d := r in add_var d n) (map c_name cs') (Ok d) = Ok d' /\ inv d' (D ++ [(g, cs ++ cs')]).
  Proof.
    induction cs' as [|c cs' IH]; intros d D g cs I Hv; cbn.
    - exists d. split; [reflexivity|]. rewrite app_nil_r. exact I.
    - destruct (Hv c (or_introl eq_refl)) as [Ev Ec]. unfold NlbModel.add_var at 2. rewrite Ev. destruct c as [n v k]. cbn in *. subst k. destruct (card_some d D g cs (Card n v false) I) as (d1 & E1 & I1). rewrite E1. destruct (IH d1 D g _ I1) as (d' & E2 & I2); [intros c K; apply Hv; right; exact K|]. exists d'. split; [exact E2|]. rewrite <- app_assoc in I2. exact I2.
  Qed.
  Definition names (path : string) (skip : list string) : list string := filter (chosen path skip) (sort params).
  Lemma names_adds : forall path skip cs, adds (AddContainer path skip) cs <-> map c_name cs = names path skip /\ valued cs.
  Proof.
    intros path skip cs. cbn. assert (A : ascending (names path skip)) by (apply filter_asc, sort_asc; exact Nd). assert (E : forall n, In n (names path skip) <-> In n params /\ exists sub, n = (path ++ ":" ++ sub)%string /\ ~ In sub skip) by (intros n; unfold names; rewrite filter_In, sort_in, chosen_iff; reflexivity). split.
    - intros (H1 & H2 & H3). split; [|exact H2]. apply asc_unique; [exact H1|exact A|]. intros n. rewrite H3, E. reflexivity.
    - intros [H1 H2]. rewrite H1. split; [exact A|]. split; [exact H2|exact E].
  Qed.
  Lemma perform_some : forall d D g cs o d', inv d (D ++ [(g, cs)]) -> (forall n, o <> AddGroup n) -> perform d o = Ok d' -> exists cs', adds o cs' /\ inv d' (D ++ [(g, cs ++ cs')]).
  Proof.
    intros d D g cs o d' I No R. destruct o as [n|n|n v|p s|v]; cbn [NlbModel.perform] in R.
    - destruct (No n eq_refl).
    - unfold NlbModel.add_var in R. destruct (value n) as [v|] eqn:E; [|discriminate R]. destruct (card_some d D g cs (Card n v false) I) as (d1 & E1 & I1). exists [Card n v false]. split; [exists v; auto|]. congruence.
    - destruct (card_some d D g cs (Card n v false) I) as (d1 & E1 & I1). exists [Card n v false]. split; [reflexivity|congruence].
    - unfold add_container in R. rewrite fold_filter in R. destruct (vars_down _ _ _ _ _ _ I R) as (cs' & H1 & H2 & H3). exists cs'. split; [apply names_adds; auto|exact H3].
    - destruct (card_some d D g cs (Card "C" v true) I) as (d1 & E1 & I1). exists [Card "C" v true]. split; [reflexivity|congruence].
  Qed.
  Lemma perform_adds : forall d D g cs o cs', inv d (D ++ [(g, cs)]) -> adds o cs' -> exists d', perform d o = Ok d' /\ inv d' (D ++ [(g, cs ++ cs')]).
  Proof.
    intros d D g cs o cs' I A. destruct o as [n|n|n v|p s|v]; cbn [NlbModel.perform].
    - destruct A.
    - destruct A as (v & E & ->). unfold NlbModel.add_var. rewrite E. apply card_some. exact I.
    - cbn in A. subst. apply card_some. exact I.
    - apply names_adds in A. destruct A as [Hm Hv]. unfold add_container. rewrite fold_filter. fold (names p s). rewrite <- Hm. apply vars_up; assumption.
    - cbn in A. subst. apply card_some. exact I.
  Qed.
  Lemma perform_none : forall d o d', inv d [] -> (forall n, o <> AddGroup n) -> (perform d o = Ok d' <-> d' = d /\ adds o []).
  Proof.
    intros d o d' I No. destruct o as [n|n|n v|p s|v]; cbn [NlbModel.perform].
    - destruct (No n eq_refl).
    - unfold NlbModel.add_var. split; [destruct (value n); [rewrite card_none by exact I|]; discriminate|]. intros [_ (v & _ & K)]. discriminate K.
    - rewrite card_none by exact I. split; [discriminate|]. intros [_ K]. discriminate K.
    - rewrite names_adds. unfold add_container. rewrite fold_filter. fold (names p s). destruct (names p s) as [|n ns]; cbn.
      + split; [intros [= <-]; split; [reflexivity|]; split; [reflexivity|intros c []]|intros [-> _]; reflexivity].
      + unfold NlbModel.add_var at 2. split; [|intros [_ [K _]]; discriminate K]. destruct (value n); [rewrite card_none by exact I|]; rewrite fold_err; discriminate.
    - rewrite card_none by exact I. split; [discriminate|]. intros [_ K]. discriminate K.
  Qed.
  Lemma group_inv : forall d D n, inv d D -> inv (add_group d n) (D ++ [(n, [])]).
  Proof. intros d D n [Hg Hc Hk]. unfold add_group. split; cbn; [rewrite Hg, map_app; reflexivity|rewrite Hc, map_app; reflexivity|rewrite Hg, !app_length, map_length; reflexivity]. Qed.
  Lemma build_app : forall l o, build params value (l ++ [o]) = bind (build params value l) (fun d => perform d o).
  Proof. intros l o. unfold build. rewrite fold_left_app. reflexivity. Qed.
  Lemma inv_fun : forall d D D', inv d D -> inv d D' -> D = D'.
  Proof.
    intros d D D' [Hg Hc _] [Hg' Hc' _]. rewrite Hg in Hg'. rewrite Hc in Hc'. clear - Hg' Hc'. revert D' Hg' Hc'. induction D as [|[a b] D IH]; intros [|[a' b'] D'] H1 H2; try discriminate; [reflexivity|]. injection H1 as -> H1. injection H2 as -> H2. rewrite (IH D' H1 H2). reflexivity.
  Qed.

  Lemma build_holds : forall l D, holds params value l D -> exists d, build params value l = Ok d /\ inv d D.
  Proof.
    intros l D H. induction H as [|l D n H IH|l D g cs o cs' H IH A|l o H IH A].
    - exists (empty (V := V)). split; [reflexivity|split; reflexivity].
    - destruct IH as (d & E & I). rewrite build_app, E. cbn. eexists. split; [reflexivity|exact (group_inv d D n I)].
    - destruct IH as (d & E & I). rewrite build_app, E. cbn [bind]. exact (perform_adds d D g cs o cs' I A).
    - destruct IH as (d & E & I). rewrite build_app, E. cbn [bind]. exists d. split; [|exact I]. apply perform_none; [exact I|intros n ->; exact A|auto].
  Qed.
  Lemma holds_build : forall l d, build params value l = Ok d -> exists D, inv d D /\ holds params value l D.
  Proof.
    induction l as [|o l IH] using rev_ind; intros d R.
    - injection R as <-. exists []. split; [split; reflexivity|constructor].
    - rewrite build_app in R. destruct (build params value l) as [d0|] eqn:E; [|discriminate R]. cbn [bind] in R. destruct (IH d0 eq_refl) as (D & I & H). assert (C : (exists n, o = AddGroup n) \/ forall n, o <> AddGroup n) by (destruct o as [n|n|n v|p s|v]; [left; exists n; reflexivity|right; discriminate..]). destruct C as [(n & ->)|No].
      + injection R as <-. exists (D ++ [(n, [])]). split; [exact (group_inv d0 D n I)|constructor; exact H].
      + destruct D as [|[g cs] D _] using rev_ind.
        * apply (perform_none d0 o d I No) in R. destruct R as [-> A]. exists []. split; [exact I|constructor; assumption].
        * destruct (perform_some d0 D g cs o d I No R) as (cs' & A & I'). exists (D ++ [(g, cs ++ cs')]). split; [exact I'|constructor; assumption].
  Qed.
  (** The groups and cards of a namelist are those of the calls that built it; it can be built if
      and only if every variable exists and no card comes before the first group. *)
  Theorem C132_build : forall l D, holds params value l D <-> exists d, build params value l = Ok d /\ groups d = map fst D /\ cards d = map snd D.
  Proof.
    intros l D. split.
    - intros H. destruct (build_holds l D H) as (d & E & [I1 I2 _]). exists d. auto.
    - intros (d & E & H1 & H2). destruct (holds_build l d E) as (D' & I & H). assert (I' : inv d D). { split; [exact H1|exact H2|]. rewrite (i_current _ _ I), <- (map_length fst D'), <- (i_groups _ _ I), H1, map_length. reflexivity. } rewrite (inv_fun d D D' I' I). exact H.
  Qed.
  (** "Add every variable from a given variable tree path", without a path: none *)
  Theorem C132_no_path_refuted : forall d skip, (forall n s, In n params -> n <> String ":" s) -> perform d (AddContainer "" skip) = Ok d.
  Proof.
    intros d skip H. cbn. unfold add_container. rewrite fold_filter. replace (filter (chosen "" skip) (sort params)) with (@nil string); [reflexivity|]. symmetry. assert (K : forall n, In n (filter (chosen "" skip) (sort params)) -> False). { intros n I. apply filter_In in I. destruct I as [I C]. apply chosen_iff in C. destruct C as (sub & -> & _). apply (H _ sub (proj1 (sort_in _ _) I)). reflexivity. } destruct (filter _ _) as [|n l]; [reflexivity|]. destruct (K n (or_introl eq_refl)).
  Qed.
End Facts.
Print Assumptions C132_build.
Print Assumptions C132_no_path_refuted.

Lemma split_plain : forall x, ~ In ":"%char (list_ascii_of_string x) -> split_on ":" x = [x].
Proof. induction x as [|c x IH]; intros H; [reflexivity|]. cbn. destruct (Ascii.eqb_spec c ":") as [->|N]; [exfalso; apply H; left; reflexivity|]. rewrite IH; [reflexivity|]. intros K. apply H. right. exact K. Qed.
Lemma split_nonempty : forall c x, split_on c x <> [].
Proof. intros c. induction x as [|a x IH]; cbn; [discriminate|]. destruct (Ascii.eqb a c); [discriminate|]. destruct (split_on c x); discriminate. Qed.
(** The variables of a tree are written under the last part of their name, so that those of
    different subtrees are not told apart. *)
Theorem C132_same_name_refuted : forall p q x, ~ In ":"%char (list_ascii_of_string x) -> written_name (p ++ ":" ++ x) = x /\ written_name (q ++ ":" ++ x) = x.
Proof.
  assert (H : forall p x, ~ In ":"%char (list_ascii_of_string x) -> last (split_on ":" (p ++ String ":" x)) ""%string = x /\ 2 <= length (split_on ":" (p ++ String ":" x))); [|intros p q x N; split; apply H; exact N]. intros p x N. induction p as [|c p [IH IL]].
  - cbn [append split_on]. rewrite Ascii.eqb_refl, (split_plain x N). split; [reflexivity|cbn; lia].
  - cbn [append split_on]. destruct (split_on ":" (p ++ String ":" x)) as [|a [|b l]]; cbn [length] in IL; [lia|lia|]. destruct (Ascii.eqb c ":"); (split; [exact IH|cbn; lia]).
Qed.
Print Assumptions C132_same_name_refuted.

Local Open Scope string_scope.
Local Open Scope list_scope.
Definition nlb_value (n : string) : option nat := if existsb (String.eqb n) ["b:y"; "a:x"; "b:x"; "b:c:x"] then Some (String.length n) else None.
Example C132_ex :
  build ["b:y"; "a:x"; "b:x"; "b:c:x"] nlb_value [AddContainer "" []; AddGroup "one"; AddVar "a:x"; AddGroup "two"; AddComment 7; AddContainer "b" ["y"]; AddNew "z" 1]
    = Ok (Deck ["one"; "two"] [[Card "a:x" 3 false]; [Card "C" 7 true; Card "b:c:x" 5 false; Card "b:x" 3 false; Card "z" 1 false]] 1)
  /\ map written_name ["b:c:x"; "b:x"] = ["x"; "x"]
  /\ build [] nlb_value [AddNew "z" 1] = Err IndexError /\ build [] nlb_value [AddGroup "g"; AddVar "z"] = Err KeyError.
Proof. vm_compute. repeat split. Qed.

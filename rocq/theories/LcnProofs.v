From Coq Require Import Permutation.
From Verif Require Import Base ExprModel LcnModel LcnSpec.
Local Open Scope list_scope.

Lemma teqb_spec : forall a b, reflect (a = b) (teqb a b).
Proof. intros. unfold teqb. destruct (text_dec a b); constructor; assumption. Qed.
Lemma teqb_refl : forall a, teqb a a = true.
Proof. intros. destruct (teqb_spec a a); congruence. Qed.

(** ** order *)
Lemma leb_refl : forall a, leb_text a a = true.
Proof. induction a as [|c a IH]; [reflexivity|]. cbn. rewrite Ascii.eqb_refl. exact IH. Qed.
Lemma leb_total : forall a b, leb_text a b = false -> leb_text b a = true.
Proof.
  induction a as [|c a IH]; intros [|d b] H; try reflexivity; try discriminate. cbn in *. rewrite (Ascii.eqb_sym d c). destruct (Ascii.eqb c d) eqn:E; [apply IH; exact H|].
  apply Nat.ltb_ge in H. apply Nat.ltb_lt. assert (nat_of_ascii c <> nat_of_ascii d); [|lia]. intros F. apply Ascii.eqb_neq in E. apply E. rewrite <- (ascii_nat_embedding c), <- (ascii_nat_embedding d), F. reflexivity.
Qed.
Section Sort.
  Context {A : Type}.
  Variable key : A -> txt.
  Lemma insert_perm : forall a l, Permutation (a :: l) (insert key a l).
  Proof. induction l as [|b l IH]; [apply Permutation_refl|]. cbn. destruct (leb_text (key a) (key b)); [apply Permutation_refl|]. eapply perm_trans; [apply perm_swap|]. apply perm_skip. exact IH. Qed.
  Lemma sorted_perm : forall l, Permutation l (sorted_by key l).
  Proof. induction l as [|a l IH]; [apply perm_nil|]. cbn. eapply perm_trans; [apply perm_skip; exact IH|]. apply insert_perm. Qed.
  (** adjacent elements in order *)
  Fixpoint chain (l : list A) : Prop := match l with [] => True | a :: r => match r with [] => True | b :: _ => leb_text (key a) (key b) = true end /\ chain r end.
  Lemma insert_chain : forall a l, chain l -> chain (insert key a l).
  Proof.
    intros a. induction l as [|b l IH]; intros H; [cbn; split; exact I|]. cbn [insert]. destruct (leb_text (key a) (key b)) eqn:E; [cbn [chain]; split; [exact E|exact H]|].
    destruct H as [H1 H2]. specialize (IH H2). destruct l as [|c l]; cbn [insert] in *; [cbn; split; [apply leb_total; exact E|split; exact I]|].
    destruct (leb_text (key a) (key c)) eqn:E2; split; try exact IH; [apply leb_total; exact E|exact H1].
  Qed.
  Lemma sorted_chain : forall l, chain (sorted_by key l).
  Proof. induction l as [|a l IH]; [exact I|]. cbn. apply insert_chain. exact IH. Qed.
End Sort.

(** ** blanks *)
Lemma rtrim_pad : forall w s, rtrim (pad w s) = rtrim s.
Proof.
  intros. unfold rtrim, pad. rewrite rev_app_distr. f_equal. generalize (w - length s)%nat. intros n. assert (R : forall n, rev (repeat space n) = repeat space n).
  { intros m. induction m as [|k IH]; [reflexivity|]. cbn. rewrite IH. clear. induction k as [|k IH]; [reflexivity|]. cbn. rewrite IH. reflexivity. }
  rewrite R. induction n as [|n IH]; [reflexivity|]. exact IH.
Qed.
Lemma blank_repeat : forall n, blank (repeat space n) = true.
Proof. induction n; [reflexivity|exact IHn]. Qed.
Lemma blank_pad_nil : forall w, blank (pad w []) = true.
Proof. intros. unfold pad. cbn [app]. apply blank_repeat. Qed.
Lemma blank_pad : forall w s, blank s = false -> blank (pad w s) = false.
Proof. intros w s H. unfold pad, blank. rewrite forallb_app. unfold blank in H. rewrite H. reflexivity. Qed.
Lemma blank_head : forall c s, c <> space -> blank (c :: s) = false.
Proof. intros c s H. cbn. unfold is_space. destruct (Ascii.eqb_spec c space); [contradiction|reflexivity]. Qed.

(** ** the lines of one source *)
Lemma rows_block : forall w src tgts cur rest, blank src = false -> tgts <> [] ->
  rows cur (block w src tgts ++ rest) = map (pair (rtrim src)) (sorted_by (fun x => x) tgts) ++ rows (rtrim src) rest.
Proof.
  intros w src tgts cur rest B N. unfold block. destruct (sorted_by (fun x => x) tgts) as [|t r] eqn:E.
  - exfalso. pose proof (sorted_perm (fun x : txt => x) tgts) as P. rewrite E in P. apply Permutation_sym, Permutation_nil in P. contradiction.
  - cbn [app rows map]. rewrite (blank_pad w src B), rtrim_pad. f_equal. clear E. induction r as [|u r IH]; [reflexivity|]. cbn [map app rows]. rewrite blank_pad_nil. f_equal. exact IH.
Qed.
Lemma flat_perm : forall {A B} (f : A -> list B) l l', Permutation l l' -> Permutation (flat_map f l) (flat_map f l').
Proof.
  intros A B f l l' P. induction P; cbn; [apply perm_nil|apply Permutation_app_head; exact IHP| |eapply perm_trans; eassumption].
  rewrite !app_assoc. apply Permutation_app_tail. apply Permutation_app_comm.
Qed.
Lemma rows_blocks : forall w (d : dict) cur, (forall e, In e d -> blank (fst e) = false /\ snd e <> []) ->
  rows cur (flat_map (fun e => block w (fst e) (snd e)) d) = flat_map (fun e => map (pair (rtrim (fst e))) (sorted_by (fun x => x) (snd e))) d.
Proof.
  intros w. induction d as [|e d IH]; intros cur H; [reflexivity|]. cbn [flat_map]. destruct (H e (or_introl eq_refl)) as [H1 H2]. rewrite rows_block by assumption. f_equal. apply IH. intros x Hx. apply H. right. exact Hx.
Qed.
Lemma ordered_block : forall w src tgts rest prev, blank src = false -> tgts <> [] ->
  match prev with Some (s0, _) => leb_text s0 (pad w src) = true | None => True end ->
  (forall t, ordered (Some (pad w src, t)) rest) -> ordered prev (block w src tgts ++ rest).
Proof.
  intros w src tgts rest prev B N Hp Hr. unfold block. pose proof (sorted_chain (fun x : txt => x) tgts) as C. destruct (sorted_by (fun x => x) tgts) as [|t r] eqn:E.
  - exfalso. pose proof (sorted_perm (fun x : txt => x) tgts) as P. rewrite E in P. apply Permutation_sym, Permutation_nil in P. contradiction.
  - cbn [app ordered]. rewrite (blank_pad w src B). split; [exact Hp|]. clear E Hp. revert t C. induction r as [|u r IH]; intros t C; [apply Hr|]. cbn [map app ordered]. rewrite blank_pad_nil. cbn [chain] in C. destruct C as [C1 C2]. split; [exact C1|]. apply IH. exact C2.
Qed.

(** ** grouping by source *)
Definition flat (d : dict) : list (txt * txt) := flat_map (fun e => map (pair (fst e)) (snd e)) d.
Lemma append_flat : forall d src s, Permutation ((src, s) :: flat d) (flat (append_to d src s)).
Proof.
  induction d as [|[k l] d IH]; intros src s; [apply Permutation_refl|]. cbn [append_to]. destruct (teqb_spec k src) as [->|Hk].
  - unfold flat. cbn [flat_map fst snd]. rewrite map_app. cbn [map]. rewrite <- app_assoc. cbn [app]. apply Permutation_middle.
  - unfold flat in *. cbn [flat_map fst snd]. eapply perm_trans; [apply Permutation_middle|]. apply Permutation_app_head. apply IH.
Qed.
Lemma append_keys : forall d src s k, In k (map fst (append_to d src s)) <-> k = src \/ In k (map fst d).
Proof.
  induction d as [|[k0 l] d IH]; intros src s k; cbn [append_to]; [cbn; intuition congruence|]. destruct (teqb_spec k0 src) as [->|Hk]; cbn [map fst In]; [intuition congruence|]. rewrite IH. intuition congruence.
Qed.
Lemma append_nodup : forall d src s, NoDup (map fst d) -> NoDup (map fst (append_to d src s)).
Proof.
  induction d as [|[k0 l] d IH]; intros src s N; cbn [append_to]; [repeat constructor; intros []|]. inversion N as [|? ? N1 N2]; subst. destruct (teqb_spec k0 src) as [->|Hk]; cbn [map fst]; [exact N|]. constructor; [|apply IH; exact N2].
  rewrite append_keys. intros [F|F]; [congruence|contradiction].
Qed.
Definition filled (d : dict) : Prop := forall e, In e d -> snd e <> [].
Lemma append_filled : forall d src s, filled d -> filled (append_to d src s).
Proof.
  induction d as [|[k l] d IH]; intros src s F e He; cbn [append_to] in He; [destruct He as [<-|[]]; discriminate|]. destruct (teqb k src).
  - destruct He as [<-|He]; [intros E; cbn in E; destruct l; discriminate|]. apply F. right. exact He.
  - destruct He as [<-|He]; [apply (F (k, l)); left; reflexivity|]. apply (IH src s); [|exact He]. intros x Hx. apply F. right. exact Hx.
Qed.
Lemma put_new : forall d k v, ~ In k (map fst d) -> put d k v = d ++ [(k, v)].
Proof.
  induction d as [|[k0 l] d IH]; intros k v N; [reflexivity|]. cbn [put]. destruct (teqb_spec k0 k) as [->|Hk]; [exfalso; apply N; left; reflexivity|]. cbn [app]. f_equal. apply IH. intros H. apply N. right. exact H.
Qed.
Lemma haskey_iff : forall {A} (d : list (txt * A)) k, haskey d k = true <-> In k (map fst d).
Proof.
  intros A d k. unfold haskey. rewrite existsb_exists, in_map_iff. split.
  - intros (e & He & E). destruct (teqb_spec (fst e) k); [|discriminate]. exists e. split; assumption.
  - intros (e & <- & He). exists e. split; [exact He|apply teqb_refl].
Qed.

(** ** names *)
Lemma startswith_iff : forall s p, startswith s p = true <-> exists r, s = p ++ r.
Proof.
  intros s p. revert s. induction p as [|c p IH]; intros s; [split; [intros _; exists s; reflexivity|intros _; destruct s; reflexivity]|]. destruct s as [|d s]; cbn; [split; [discriminate|intros (r & E); discriminate]|].
  rewrite andb_true_iff, IH. split; [intros [E (r & ->)]; apply Ascii.eqb_eq in E; subst d; exists r; reflexivity|]. intros (r & E). injection E as -> ->. split; [apply Ascii.eqb_refl|exists r; reflexivity].
Qed.
Lemma skipn_app_len : forall {A} (a b : list A), skipn (length a) (a ++ b) = b.
Proof. intros A a b. induction a as [|x a IH]; [reflexivity|exact IH]. Qed.
Lemma firstn_app_len : forall {A} (a b : list A), firstn (length a) (a ++ b) = a.
Proof. intros A a b. induction a as [|x a IH]; [reflexivity|]. cbn. f_equal. exact IH. Qed.
Lemma shown_model : forall rel n, (if negb (teqb rel []) && startswith n (rel ++ t_ ".") then skipn (length rel) n else n) = shown rel n.
Proof.
  intros rel n. unfold shown. destruct (text_dec rel []) as [->|Hr]; [reflexivity|]. destruct (teqb_spec rel []) as [|_]; [contradiction|]. cbn [negb andb].
  change (t_ ".") with ["."%char]. destruct (startswith n (rel ++ ["."%char])) eqn:E.
  - apply startswith_iff in E. destruct E as (r & ->). destruct (text_dec _ _) as [_|F].
    + rewrite <- app_assoc, skipn_app_len. cbn [app]. f_equal. replace (S (length rel)) with (length (rel ++ ["."%char])) by (rewrite app_length; cbn; lia). change (rel ++ "."%char :: r) with (rel ++ ["."%char] ++ r). rewrite app_assoc, skipn_app_len. reflexivity.
    + exfalso. apply F. replace (S (length rel)) with (length (rel ++ ["."%char])) by (rewrite app_length; cbn; lia). apply firstn_app_len.
  - destruct (text_dec _ _) as [F|_]; [|reflexivity]. exfalso. assert (startswith n (rel ++ ["."%char]) = true); [|congruence]. apply startswith_iff. exists (skipn (S (length rel)) n). rewrite <- F. symmetry. apply firstn_skipn.
Qed.
Lemma shown_below : forall rel n, (exists r, n = rel ++ "."%char :: r /\ rel <> [] /\ shown rel n = "."%char :: r) \/ shown rel n = n.
Proof.
  intros rel n. unfold shown. destruct (text_dec rel []) as [->|Hr]; [right; reflexivity|]. destruct (text_dec _ _) as [E|E]; [|right; reflexivity]. left. exists (skipn (S (length rel)) n). split; [|split; [exact Hr|reflexivity]].
  rewrite <- (firstn_skipn (S (length rel)) n) at 1. rewrite E. rewrite <- app_assoc. reflexivity.
Qed.
Lemma shown_inj : forall rel a b, good a -> good b -> shown rel a = shown rel b -> a = b.
Proof.
  intros rel a b (_ & ca & ra & Ea & Da & _) (_ & cb & rb & Eb & Db & _) E.
  destruct (shown_below rel a) as [(r & Xa & _ & Sa)|Sa]; destruct (shown_below rel b) as [(r' & Xb & _ & Sb)|Sb]; rewrite Sa, Sb in E; [injection E as ->; congruence| | |exact E].
  - exfalso. rewrite Eb in E. injection E as <- _. congruence.
  - exfalso. rewrite Ea in E. injection E as -> _. congruence.
Qed.
Lemma shown_nospace : forall rel a, good a -> ~ In space (shown rel a).
Proof.
  intros rel a (N & _) H. destruct (shown_below rel a) as [(r & Xa & _ & Sa)|Sa]; rewrite Sa in H; [|contradiction]. apply N. rewrite Xa. apply in_or_app. right. exact H.
Qed.
Lemma shown_head : forall rel a, good a -> exists c r, shown rel a = c :: r /\ c <> space /\ c <> "{"%char.
Proof.
  intros rel a (N & c & r & E & D & B). destruct (shown_below rel a) as [(r' & Xa & _ & Sa)|Sa]; rewrite Sa; [exists "."%char, r'; repeat split; discriminate|]. exists c, r. split; [exact E|]. split; [|exact B]. intros ->. apply N. rewrite E. left. reflexivity.
Qed.
Lemma word_inj : forall a b x y, ~ In space a -> ~ In space b -> a ++ space :: x = b ++ space :: y -> a = b.
Proof.
  induction a as [|c a IH]; intros [|d b] x y Na Nb E; [reflexivity| | |]; cbn in E.
  - injection E as E _. exfalso. apply Nb. left. symmetry. exact E.
  - injection E as E _. exfalso. apply Na. left. exact E.
  - injection E as -> E. f_equal. apply (IH b x y); [intros H; apply Na; right; exact H|intros H; apply Nb; right; exact H|exact E].
Qed.
(** two texts whose first words differ: what follows does not change their order *)
Lemma leb_words : forall a b x y x' y', ~ In space a -> ~ In space b -> a <> b -> leb_text (a ++ space :: x) (b ++ space :: y) = leb_text (a ++ space :: x') (b ++ space :: y').
Proof.
  induction a as [|c a IH]; intros [|d b] x y x' y' Na Nb E; [congruence| | |]; cbn [app leb_text].
  - destruct (Ascii.eqb_spec space d) as [Es|]; [exfalso; apply Nb; left; symmetry; exact Es|reflexivity].
  - destruct (Ascii.eqb_spec c space) as [Es|]; [exfalso; apply Na; left; exact Es|reflexivity].
  - destruct (Ascii.eqb_spec c d) as [->|]; [|reflexivity]. apply IH; [intros H; apply Na; right; exact H|intros H; apply Nb; right; exact H|congruence].
Qed.

(** ** the labels *)
Section Labels.
  Variables punits uunits : txt -> unit_.
  Variable prom : txt -> txt.
  Notation param_str := (param_str punits prom).
  Notation src_key := (src_key uunits prom).
  Lemma unit_text_ok : forall u, has_text u -> unit_text u = Ok (unit_note u).
  Proof. intros [| |[|c t]] H; try reflexivity. contradiction H. reflexivity. Qed.
  Definition src_label (rel s : txt) : txt := words (shown rel s) (if text_dec (prom s) s then [] else "("%char :: prom s ++ [")"%char]) (unit_note (uunits s)).
  Lemma words_join : forall a b c, words a b c = join3 a b c.
  Proof. reflexivity. Qed.
  Lemma param_str_ok : forall rel t s, has_text (punits t) -> rel = [] \/ (exists c r, rel = c :: r /\ c <> "("%char) -> param_str t s rel = Ok (target_cell punits prom rel t s).
  Proof.
    intros rel t s H R. unfold LcnModel.param_str, target_cell. rewrite (unit_text_ok _ H). cbn [bind]. rewrite <- (shown_model rel t).
    set (pt := if teqb (prom t) t then [] else _). match goal with |- context [words _ ?x _] => set (pt' := x) end.
    assert (E : pt = pt').
    { unfold pt, pt'. unfold teqb at 1. destruct (text_dec (prom t) t); [reflexivity|]. destruct s as [s|]; [|reflexivity]. unfold teqb. destruct (text_dec (prom t) (prom s)); reflexivity. }
    destruct (negb (teqb rel []) && startswith t (rel ++ t_ ".")) eqn:B; [|rewrite E; reflexivity].
    destruct R as [->|(c & r & -> & Hc)]; [discriminate|]. assert (F : startswith pt ((c :: r) ++ t_ ".") = false).
    { rewrite E. clear E. unfold pt'. clear pt pt'. destruct (text_dec (prom t) t); [reflexivity|]. match goal with |- context [if ?b then t_ "(*)" else _] => destruct b end; cbn; destruct (Ascii.eqb_spec c "("%char); congruence || reflexivity. }
    rewrite F, E. reflexivity.
  Qed.
  Lemma src_key_ok : forall rel s, good s -> has_text (uunits s) -> src_key rel s = Ok (src_label rel s).
  Proof.
    intros rel s G H. destruct G as (_ & c & r & E & _ & B). unfold LcnModel.src_key. rewrite E at 1. destruct (Ascii.eqb_spec c "{"%char); [contradiction|]. rewrite (unit_text_ok _ H). cbn [bind]. rewrite shown_model. unfold src_label.
    unfold teqb. destruct (text_dec (prom s) s); reflexivity.
  Qed.
  Lemma src_key_un : forall rel, src_key rel unconnected_ = Ok (words unconnected_ [] []).
  Proof. reflexivity. Qed.
  (** the text of a key *)
  Definition label (rel s : txt) : txt := if text_dec s unconnected_ then words unconnected_ [] [] else src_label rel s.
  Definition fine (s : txt) : Prop := s = unconnected_ \/ (good s /\ has_text (uunits s)).
  Lemma good_not_un : forall s, good s -> s <> unconnected_.
  Proof. intros s (_ & c & r & E & _ & B) ->. injection E as <- _. apply B. reflexivity. Qed.
  Lemma label_ok : forall rel s, fine s -> src_key rel s = Ok (label rel s).
  Proof.
    intros rel s F. unfold label. destruct (text_dec s unconnected_) as [->|N]; [apply src_key_un|]. destruct F as [F|[G H]]; [contradiction|]. apply src_key_ok; assumption.
  Qed.
  (** the first word of a label *)
  Definition word (rel s : txt) : txt := if text_dec s unconnected_ then unconnected_ else shown rel s.
  Lemma label_word : forall rel s, fine s -> exists x, label rel s = word rel s ++ space :: x /\ ~ In space (word rel s) /\ blank (label rel s) = false.
  Proof.
    intros rel s F. unfold label, word. destruct (text_dec s unconnected_) as [->|N].
    - eexists. split; [reflexivity|]. split; [|reflexivity]. intros H. repeat destruct H as [H|H]; try discriminate H. destruct H.
    - destruct F as [F|[G H]]; [contradiction|]. eexists. split; [unfold src_label, words; reflexivity|]. split; [apply shown_nospace; exact G|]. unfold src_label, words. destruct (shown_head rel s G) as (c & r & -> & Hc & _). cbn [app]. apply blank_head. exact Hc.
  Qed.
  Lemma word_fine_inj : forall rel a b, fine a -> fine b -> word rel a = word rel b -> a = b.
  Proof.
    intros rel a b Fa Fb E. unfold word in E. destruct (text_dec a unconnected_) as [->|Na]; destruct (text_dec b unconnected_) as [->|Nb]; try reflexivity.
    - destruct Fb as [F|[G _]]; [contradiction|]. destruct (shown_head rel b G) as (c & r & Ec & _ & B). rewrite Ec in E. injection E as <- _. contradiction B. reflexivity.
    - destruct Fa as [F|[G _]]; [contradiction|]. destruct (shown_head rel a G) as (c & r & Ec & _ & B). rewrite Ec in E. injection E as -> _. contradiction B. reflexivity.
    - destruct Fa as [F|[Ga _]]; [contradiction|]. destruct Fb as [F|[Gb _]]; [contradiction|]. apply (shown_inj rel); assumption.
  Qed.
  Lemma label_inj : forall rel a b, fine a -> fine b -> label rel a = label rel b -> a = b.
  Proof.
    intros rel a b Fa Fb E. apply (word_fine_inj rel a b Fa Fb). destruct (label_word rel a Fa) as (x & Ea & Sa & _). destruct (label_word rel b Fb) as (y & Eb & Sb & _). rewrite Ea, Eb in E. exact (word_inj _ _ _ _ Sa Sb E).
  Qed.
  Definition relabel (rel : txt) (d : dict) : dict := map (fun e => (label rel (fst e), snd e)) d.
  Lemma by_src2_ok : forall rel d acc0, NoDup (map fst (acc0 ++ d)) -> (forall e, In e (acc0 ++ d) -> fine (fst e)) ->
    by_src2 uunits prom rel d (relabel rel acc0) = Ok (relabel rel (acc0 ++ d)).
  Proof.
    intros rel. induction d as [|[s l] d IH]; intros acc0 N F; [rewrite app_nil_r; reflexivity|]. cbn [by_src2]. rewrite (label_ok rel s) by (apply (F (s, l)); apply in_or_app; right; left; reflexivity). cbn [bind].
    assert (Hn : ~ In (label rel s) (map fst (relabel rel acc0))).
    { intros H. unfold relabel in H. rewrite map_map in H. apply in_map_iff in H. destruct H as (e & E & He). cbn [fst] in E. apply label_inj in E; [|apply F; apply in_or_app; left; exact He|apply (F (s, l)); apply in_or_app; right; left; reflexivity].
      rewrite map_app in N. cbn [map fst] in N. apply NoDup_remove_2 in N. apply N. apply in_or_app. left. rewrite <- E. apply in_map. exact He. }
    rewrite (put_new _ _ _ Hn). assert (E : relabel rel acc0 ++ [(label rel s, l)] = relabel rel (acc0 ++ [(s, l)])) by (unfold relabel; rewrite map_app; reflexivity).
    rewrite E. replace (acc0 ++ (s, l) :: d) with ((acc0 ++ [(s, l)]) ++ d) by (rewrite <- app_assoc; reflexivity). apply IH; rewrite <- app_assoc; [exact N|exact F].
  Qed.
  Definition cell_of (rel s : txt) : txt := if text_dec s unconnected_ then unconnected_ else source_cell uunits prom rel s.
  Lemma cell_label : forall rel s, rtrim (label rel s) = cell_of rel s.
  Proof. intros. unfold label, cell_of. destruct (text_dec s unconnected_); [reflexivity|]. reflexivity. Qed.
  Lemma chain_pad : forall rel w (d : dict), (forall e, In e d -> fine (fst e)) -> NoDup (map fst d) -> chain (@fst txt (list txt)) (relabel rel d) ->
    forall e1 e2 x y, relabel rel d = x ++ e1 :: e2 :: y -> leb_text (pad w (fst e1)) (pad w (fst e2)) = true.
  Proof.
    intros rel w. induction d as [|[s l] d IH]; intros F N C e1 e2 x y E; [destruct x; discriminate|]. cbn [relabel map] in *. fold (relabel rel d) in *. destruct C as [C1 C2]. destruct x as [|z x]; cbn [app] in E.
    - destruct d as [|[s' l'] d]; [discriminate|]. cbn [relabel map fst snd] in *. injection E as <- <- <-. cbn [fst] in *.
      assert (Fs : fine s) by (apply (F (s, l)); left; reflexivity). assert (Fs' : fine s') by (apply (F (s', l')); right; left; reflexivity).
      destruct (label_word rel s Fs) as (a & Ea & Sa & _). destruct (label_word rel s' Fs') as (b & Eb & Sb & _). rewrite Ea, Eb in *. unfold pad. rewrite <- !app_assoc. cbn [app]. rewrite (leb_words _ _ _ _ a b Sa Sb); [exact C1|].
      intros H. apply (word_fine_inj rel s s' Fs Fs') in H. inversion N as [|? ? N1 _]. apply N1. left. symmetry. exact H.
    - injection E as _ E. inversion N as [|? ? N1 N2]; subst. apply (IH (fun e He => F e (or_intror He)) N2 C2 e1 e2 x y E).
  Qed.
  Lemma ordered_blocks : forall w (d : dict) prev, (forall e, In e d -> blank (fst e) = false /\ snd e <> []) ->
    (forall e1 e2 x y, d = x ++ e1 :: e2 :: y -> leb_text (pad w (fst e1)) (pad w (fst e2)) = true) ->
    match prev, d with Some (s0, _), e :: _ => leb_text s0 (pad w (fst e)) = true | _, _ => True end ->
    ordered prev (flat_map (fun e => block w (fst e) (snd e)) d).
  Proof.
    intros w. induction d as [|e d IH]; intros prev H C P; [exact I|]. cbn [flat_map]. destruct (H e (or_introl eq_refl)) as [H1 H2]. apply ordered_block; [exact H1|exact H2|destruct prev as [[s0 t0]|]; [exact P|exact I]|].
    intros t. apply IH; [intros x Hx; apply H; right; exact Hx|intros e1 e2 x y E; apply (C e1 e2 (e :: x) y); rewrite E; reflexivity|]. destruct d as [|e' d]; [exact I|]. apply (C e e' [] d). reflexivity.
  Qed.
  Lemma write_ok : forall rel d, NoDup (map fst d) -> filled d -> (forall e, In e d -> fine (fst e)) ->
    exists items, write uunits prom d rel = Ok items /\ ordered None items /\ forall cur, Permutation (rows cur items) (map (fun r => (cell_of rel (fst r), snd r)) (flat d)).
  Proof.
    intros rel d N Fi F. unfold write. pose proof (by_src2_ok rel d [] N F) as E. change (relabel rel []) with (@nil (txt * list txt)) in E. cbn [app] in E. rewrite E. cbn [bind]. set (w := fold_right Nat.max _ _). eexists. split; [reflexivity|].
    pose proof (sorted_perm (@fst txt (list txt)) (relabel rel d)) as P.
    assert (Q : exists d', Permutation d d' /\ sorted_by (@fst txt (list txt)) (relabel rel d) = relabel rel d').
    { apply Permutation_sym in P. apply Permutation_map_inv in P. destruct P as (d' & Ed & P). exists d'. split; [exact P|exact Ed]. }
    destruct Q as (d' & P' & Es). pose proof (sorted_chain (@fst txt (list txt)) (relabel rel d)) as C. rewrite Es in *. change (list ascii) with txt. rewrite ?Es.
    assert (F' : forall e, In e d' -> fine (fst e)) by (intros e He; apply F; apply (Permutation_in e (Permutation_sym P') He)).
    assert (B : forall e, In e (relabel rel d') -> blank (fst e) = false /\ snd e <> []).
    { intros e He. apply in_map_iff in He. destruct He as (e0 & <- & He). cbn [fst snd]. split; [destruct (label_word rel (fst e0) (F' e0 He)) as (x & _ & _ & Bl); exact Bl|]. apply Fi. apply (Permutation_in e0 (Permutation_sym P') He). }
    split.
    - apply ordered_blocks; [exact B| |exact I]. apply (chain_pad rel w d' F'); [|exact C]. apply (Permutation_NoDup (Permutation_map fst P') N).
    - intros cur. rewrite rows_blocks by exact B. unfold relabel. rewrite flat_map_concat_map, map_map, <- flat_map_concat_map. cbn [fst snd].
      eapply perm_trans; [|apply Permutation_map; unfold flat; apply flat_perm; apply Permutation_sym; exact P'].
      clear. induction d' as [|[s l] d IH]; [apply perm_nil|]. cbn [flat_map fst snd]. rewrite map_app. apply Permutation_app; [|exact IH]. rewrite map_map. cbn [fst snd]. rewrite cell_label. apply Permutation_map. apply Permutation_sym. apply sorted_perm.
  Qed.
End Labels.

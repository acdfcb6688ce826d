(** C133: the units library. *)
From Verif Require Import Base BaseFacts UnitsModel UnitsSpec UnitsProofs UnitsLibProofs UnitsBaseProofs UnitsProps UlibModel UlibData.
From Coq Require Import Permutation.
Local Open Scope Q_scope.
Local Open Scope list_scope.
Local Open Scope nat_scope.

(** ** What loading keeps *)
Definition full (N : nat) (t : table) : Prop := forall n u, sget t n = Some u -> length (powers u) = N.
(** units stay, with their factor and dimension; those that are not defined anew stay as they are *)
Definition kept (names : list string) (t t' : table) : Prop :=
  forall n u, sget t n = Some u -> exists u', sget t' n = Some u' /\ (factor u' == factor u)%Q /\ powers u' = powers u /\ (~ In n names -> u' = u).
Lemma kept_refl : forall ns t, kept ns t t.
Proof. intros ns t n u E. exists u. split; [exact E|]. split; [reflexivity|auto]. Qed.
Lemma kept_trans : forall ns a b c, kept ns a b -> kept ns b c -> kept ns a c.
Proof.
  intros ns a b c H1 H2 n u E. destruct (H1 n u E) as (v & Ev & Fv & Pv & Kv). destruct (H2 n v Ev) as (w & Ew & Fw & Pw & Kw). exists w. split; [exact Ew|]. split; [rewrite Fw; exact Fv|]. split; [congruence|]. intros N. rewrite (Kw N). exact (Kv N).
Qed.
Lemma add_kept : forall ns t n u t', In n ns \/ sget t n = None -> add_unit t n u = Ok t' -> kept ns t t'.
Proof.
  intros ns t n u t' Hn A m v E. unfold add_unit in A. assert (G : t' = sset t n u /\ forall old, sget t n = Some old -> (factor u == factor old)%Q /\ powers u = powers old).
  { destruct (sget t n) as [old|] eqn:Eo; [|injection A as <-; split; [reflexivity|discriminate]]. destruct (Qeq_bool (factor old) (factor u)) eqn:Q1; [|discriminate A]. destruct (zlist_eqb (powers old) (powers u)) eqn:Q2; [|discriminate A]. injection A as <-. split; [reflexivity|]. intros old' [= <-]. apply Qeq_bool_iff in Q1. apply zlist_eqb_iff in Q2. split; [symmetry; exact Q1|symmetry; exact Q2]. }
  destruct G as [-> G]. rewrite sget_sset. destruct (String.eqb_spec m n) as [->|Ne]; [|exists v; split; [exact E|]; split; [reflexivity|auto]]. destruct (G v E) as [F P]. exists u. split; [reflexivity|]. split; [exact F|]. split; [exact P|]. intros Nn. destruct Hn as [Hn|Hn]; [contradiction|congruence].
Qed.
Lemma add_full : forall N t n u t', full N t -> length (powers u) = N -> add_unit t n u = Ok t' -> full N t'.
Proof.
  intros N t n u t' F L A. assert (E : t' = sset t n u) by (unfold add_unit in A; destruct (sget t n); [destruct (_ || _)%bool; [discriminate A|]|]; congruence). subst t'. intros m v E. rewrite sget_sset in E. destruct (String.eqb m n); [injection E as <-; exact L|exact (F m v E)].
Qed.
Lemma ueval_full : forall N t e v, full N t -> ueval t e = Ok (VUnit v) -> length (powers v) = N.
Proof.
  intros N t e v F. assert (Z : forall f a b, length a = N -> length b = N -> length (zipwith f a b) = N) by (intros f a b Ha Hb; rewrite zipwith_length; congruence).
  revert v. induction e as [n|x|a IHa b IHb|a IHa b IHb|a IHa n]; intros v E; cbn in E.
  - destruct (sget t n) as [u|] eqn:Q; [|discriminate E]. injection E as <-. exact (F n u Q).
  - discriminate E.
  - destruct (ueval t a) as [[x|u]|] eqn:Ea; cbn in E; [| |discriminate E]; destruct (ueval t b) as [[y|w]|] eqn:Eb; cbn in E; try discriminate E.
    + unfold unit_mul_num in E. destruct (negb _); [discriminate E|]. injection E as <-. exact (IHb w eq_refl).
    + unfold unit_mul_num in E. destruct (negb _); [discriminate E|]. injection E as <-. exact (IHa u eq_refl).
    + unfold unit_mul in E. destruct (_ || _)%bool; [discriminate E|]. injection E as <-. apply Z; [exact (IHa u eq_refl)|exact (IHb w eq_refl)].
  - destruct (ueval t a) as [[x|u]|] eqn:Ea; cbn in E; [| |discriminate E]; destruct (ueval t b) as [[y|w]|] eqn:Eb; cbn in E; try discriminate E.
    + destruct (Qeq_bool y 0); discriminate E.
    + unfold unit_rdiv_num in E. destruct (Qeq_bool _ _); [discriminate E|]. injection E as <-. cbn. rewrite map_length. exact (IHb w eq_refl).
    + unfold unit_div_num in E. destruct (negb _); [discriminate E|]. destruct (Qeq_bool _ _); [discriminate E|]. injection E as <-. exact (IHa u eq_refl).
    + unfold unit_div in E. destruct (_ || _)%bool; [discriminate E|]. destruct (Qeq_bool _ _); [discriminate E|]. injection E as <-. apply Z; [exact (IHa u eq_refl)|exact (IHb w eq_refl)].
  - destruct (ueval t a) as [[x|u]|] eqn:Ea; cbn in E; [| |discriminate E].
    + destruct (_ && _)%bool; discriminate E.
    + unfold unit_pow in E. destruct (negb _); [discriminate E|]. destruct (_ && _)%bool; [discriminate E|]. injection E as <-. cbn. rewrite map_length. exact (IHa u eq_refl).
Qed.
Lemma item_ok : forall N ns px t i t', full N t -> expand_item px t i = Ok t' -> full N t' /\ kept ns t t'.
Proof.
  intros N ns px t i t' F E. unfold expand_item in E. destruct (sget t i) as [u|] eqn:Q; [injection E as <-; split; [exact F|apply kept_refl]|].
  assert (K : forall f w u, sget t w = Some u -> (let! x := unit_mul_num u f in add_unit t i x) = Ok t' -> full N t' /\ kept ns t t').
  { intros f w u Eu A. unfold unit_mul_num in A. destruct (negb _); [discriminate A|]. cbn [bind] in A. split; [eapply add_full; [exact F| |exact A]; exact (F w u Eu)|]. eapply add_kept; [right; exact Q|exact A]. }
  destruct (sget px (stake 1 i)) as [f|]; [destruct (sget t (sdrop 1 i)) as [u|] eqn:E1; [exact (K f _ u E1 E)|]|]; (destruct (sget px (stake 2 i)) as [g|]; [destruct (sget t (sdrop 2 i)) as [u2|] eqn:E2; [exact (K g _ u2 E2 E)|discriminate E]|discriminate E]).
Qed.
Lemma items_ok : forall N ns px l t, full N t -> full N (fst (expand_items px t l)) /\ kept ns t (fst (expand_items px t l)).
Proof.
  intros N ns px. induction l as [|i l IH]; intros t F; cbn; [split; [exact F|apply kept_refl]|]. destruct (expand_item px t i) as [t'|e] eqn:E; [|split; [exact F|apply kept_refl]]. destruct (item_ok N ns px t i t' F E) as [F' K]. destruct (IH t' F') as [F2 K2]. split; [exact F2|exact (kept_trans ns _ _ _ K K2)].
Qed.
Definition good (N : nat) (s : ustate) : Prop := full N (utable s) /\ forall e u, In (e, VUnit u) (ucache s) -> length (powers u) = N.
Lemma dset_in : forall (d : list (uexpr * uval)) k v x, In x (dset uexpr_eqb d k v) -> In x d \/ snd x = v.
Proof. induction d as [|[k' v'] d IH]; intros k v x I; cbn in I; [destruct I as [<-|[]]; right; reflexivity|]. destruct (uexpr_eqb k k'); destruct I as [<-|I]; cbn; auto. destruct (IH k v x I); auto. Qed.
Lemma dget_some_in : forall (d : list (uexpr * uval)) k v, dget uexpr_eqb d k = Some v -> exists k', In (k', v) d.
Proof. induction d as [|[k' v'] d IH]; intros k v E; cbn in E; [discriminate|]. destruct (uexpr_eqb k k'); [injection E as <-; exists k'; left; reflexivity|]. destruct (IH k v E) as (q & I). exists q. right. exact I. Qed.
Lemma find_ok : forall N ns px s e, good N s -> good N (fst (find_unit px s e)) /\ kept ns (utable s) (utable (fst (find_unit px s e))) /\ forall u, snd (find_unit px s e) = Ok u -> length (powers u) = N.
Proof.
  intros N ns px s e [F C]. unfold find_unit. destruct (dget uexpr_eqb (ucache s) e) as [v|] eqn:E.
  - cbn. split; [split; assumption|]. split; [apply kept_refl|]. intros u K. destruct v as [x|w]; cbn in K; [discriminate K|]. injection K as <-. destruct (dget_some_in _ _ _ E) as (k' & I). exact (C k' w I).
  - destruct (ueval (utable s) e) as [v|er] eqn:Q.
    + cbn. split; [split; [exact F|]|split; [apply kept_refl|]].
      * cbn. intros e' u I. apply dset_in in I. destruct I as [I|I]; [exact (C e' u I)|]. cbn in I. subst v. exact (ueval_full N _ e u F Q).
      * intros u K. destruct v as [x|w]; cbn in K; [discriminate K|]. injection K as <-. exact (ueval_full N _ e w F Q).
    + destruct (items_ok N ns px (unames e) (utable s) F) as [F' K']. destruct (expand_items px (utable s) (unames e)) as [t' r]. cbn in F', K'. destruct r as [x|e2]; [|cbn; split; [split; assumption|split; [exact K'|discriminate]]]. destruct (ueval t' e) as [v|e3] eqn:Q2; cbn; [|split; [split; assumption|split; [exact K'|discriminate]]]. split; [split; [exact F'|]|split; [exact K'|]].
      * cbn. intros e' u I. apply dset_in in I. destruct I as [I|I]; [exact (C e' u I)|]. cbn in I. subst v. exact (ueval_full N _ e u F' Q2).
      * intros u K. destruct v as [y|w]; cbn in K; [discriminate K|]. injection K as <-. exact (ueval_full N _ e w F' Q2).
Qed.
Lemma def_ok : forall N ns px s d, good N s -> In (def_name d) ns -> good N (fst (add_def px s d)) /\ kept ns (utable s) (utable (fst (add_def px s d))).
Proof.
  intros N ns px s d [F C] I. destruct d as [n e|n b f o]; cbn [add_def def_name] in *.
  - unfold add_unit_expr. destruct (ueval (utable s) e) as [[x|u]|er] eqn:E; cbn [bind]; [cbn; split; [split; assumption|apply kept_refl]| |cbn; split; [split; assumption|apply kept_refl]]. destruct (add_unit (utable s) n u) as [t'|er] eqn:A; cbn; [|split; [split; assumption|apply kept_refl]]. split; [split; [exact (add_full N _ n u t' F (ueval_full N _ e u F E) A)|exact C]|]. exact (add_kept ns _ n u t' (or_introl I) A).
  - unfold add_offset_unit. destruct (find_ok N ns px s b (conj F C)) as (G & K & L). destruct (find_unit px s b) as [s' r]. cbn in G, K, L. destruct r as [u|er]; [|cbn; auto]. destruct (add_unit (utable s') n _) as [t'|er] eqn:A; cbn; [|auto]. destruct G as [F' C']. split; [split; [eapply add_full; [exact F'| |exact A]; exact (L u eq_refl)|exact C']|]. eapply kept_trans; [exact K|]. eapply add_kept; [left; exact I|exact A].
Qed.
Lemma pass_ok : forall N ns px ds s s' r, good N s -> (forall d, In d ds -> In (def_name d) ns) -> lib_pass px s ds = Ok (s', r) -> good N s' /\ kept ns (utable s) (utable s') /\ forall d, In d r -> In d ds.
Proof.
  intros N ns px. induction ds as [|d ds IH]; intros s s' r G I E; cbn in E; [injection E as <- <-; split; [exact G|]; split; [apply kept_refl|intros d []]|]. destruct (def_ok N ns px s d G (I d (or_introl eq_refl))) as [G1 K1]. assert (I' : forall d, In d ds -> In (def_name d) ns) by (intros q Hq; apply I; right; exact Hq). destruct (add_def px s d) as [s1 [x|e]]; cbn [fst] in *.
  - destruct (IH s1 s' r G1 I' E) as (G2 & K2 & R). split; [exact G2|]. split; [exact (kept_trans ns _ _ _ K1 K2)|]. intros q Hq. right. exact (R q Hq).
  - destruct e; try discriminate E. destruct (lib_pass px s1 ds) as [[s2 r2]|] eqn:E2; cbn in E; [|discriminate E]. injection E as <- <-. destruct (IH s1 s2 r2 G1 I' E2) as (G2 & K2 & R). split; [exact G2|]. split; [exact (kept_trans ns _ _ _ K1 K2)|]. intros q [<-|Hq]; [left; reflexivity|right; exact (R q Hq)].
Qed.
Lemma retry_ok : forall N ns px order, set_order order -> forall fuel last count s retry s', good N s -> (forall d, In d retry -> In (def_name d) ns) -> lib_retry px order fuel last count s retry = Ok s' -> good N s' /\ kept ns (utable s) (utable s').
Proof.
  intros N ns px order O. induction fuel as [|fuel IH]; intros last count s retry s' G I E; cbn in E; destruct (negb (last =? count)%Z && negb (length retry =? 0))%bool.
  - discriminate E.
  - destruct retry; [injection E as <-; split; [exact G|apply kept_refl]|discriminate E].
  - destruct (lib_pass px s (order fuel retry)) as [[s1 r1]|] eqn:P; cbn in E; [|discriminate E]. destruct (pass_ok N ns px (order fuel retry) s s1 r1 G) as (G1 & K1 & R1); [|exact P|]. { intros d Hd. apply I. eapply Permutation_in; [apply Permutation_sym, O|exact Hd]. } destruct (IH count (Z.of_nat (length r1)) s1 r1 s' G1) as [G2 K2]; [|exact E|split; [exact G2|exact (kept_trans ns _ _ _ K1 K2)]]. intros d Hd. apply I. eapply Permutation_in; [apply Permutation_sym, (O fuel)|exact (R1 d Hd)].
  - destruct retry; [injection E as <-; split; [exact G|apply kept_refl]|discriminate E].
Qed.
Lemma update_ok : forall N px order s ds s', set_order order -> good N s -> update_library px order s ds = Ok s' -> good N s' /\ kept (map def_name ds) (utable s) (utable s').
Proof.
  intros N px order s ds s' O G E. unfold update_library in E. destruct (lib_pass px s ds) as [[s1 r1]|] eqn:P; cbn [bind] in E; [|discriminate E]. destruct (pass_ok N (map def_name ds) px ds s s1 r1 G) as (G1 & K1 & R1); [intros d Hd; exact (in_map def_name _ _ Hd)|exact P|]. edestruct (retry_ok N (map def_name ds) px order O) as [G2 K2]; [exact G1| |exact E|split; [exact G2|exact (kept_trans _ _ _ _ K1 K2)]]. intros d Hd. exact (in_map def_name _ _ (R1 d Hd)).
Qed.

(** ** The base units *)
Lemma set_at_len : forall l i, length (set_at l i) = length l.
Proof. induction l as [|x l IH]; intros [|i]; cbn; auto. Qed.
Lemma set_at_nth : forall N i j, i < N -> j < N -> nth_error (set_at (repeat 0%Z N) i) j = Some (if i =? j then 1%Z else 0%Z).
Proof.
  induction N as [|N IH]; intros i j Hi Hj; [lia|]. destruct i as [|i], j as [|j]; cbn; [reflexivity| |reflexivity|apply IH; lia]. assert (H : forall M j, j < M -> nth_error (repeat 0%Z M) j = Some 0%Z); [|apply H; lia]. clear. induction M as [|M IH]; intros [|j] Hj; cbn; [lia|lia|reflexivity|apply IH; lia].
Qed.
Lemma base_ok : forall bl l i types names t types' names' t', base_loop bl i l types names t = (types', names', t') ->
  names' = names ++ map snd l
  /\ (forall ty, ~ In ty (map fst l) -> sget types' ty = sget types ty) /\ (forall n, ~ In n (map snd l) -> sget t' n = sget t n)
  /\ (NoDup (map fst l) -> forall j e, nth_error l j = Some e -> sget types' (fst e) = Some (i + j))
  /\ (NoDup (map snd l) -> forall j e, nth_error l j = Some e -> sget t' (snd e) = Some (mkUnit 1 (set_at bl (i + j)) 0)).
Proof.
  intros bl. induction l as [|[ty n] l IH]; intros i types names t types' names' t' E; cbn in E.
  - injection E as <- <- <-. split; [symmetry; apply app_nil_r|]. split; [reflexivity|]. split; [reflexivity|]. split; intros _ [|j] e Q; discriminate Q.
  - destruct (IH _ _ _ _ _ _ _ E) as (H1 & H2 & H3 & H4 & H5). split; [rewrite H1, <- app_assoc; reflexivity|]. split; [|split; [|split]].
    + intros q Nq. cbn in Nq. rewrite H2 by tauto. rewrite sget_sset. destruct (String.eqb_spec q ty) as [->|]; [tauto|reflexivity].
    + intros q Nq. cbn in Nq. rewrite H3 by tauto. unfold new_unit. rewrite sget_sset. destruct (String.eqb_spec q n) as [->|]; [tauto|reflexivity].
    + intros ND [|j] e Q; cbn in Q; inversion ND; subst.
      * injection Q as <-. cbn [fst]. rewrite H2 by assumption. rewrite sget_sset, String.eqb_refl, Nat.add_0_r. reflexivity.
      * rewrite (H4 ltac:(assumption) j e Q). f_equal. lia.
    + intros ND [|j] e Q; cbn in Q; inversion ND; subst.
      * injection Q as <-. cbn [snd]. rewrite H3 by assumption. unfold new_unit. rewrite sget_sset, String.eqb_refl, Nat.add_0_r. reflexivity.
      * rewrite (H5 ltac:(assumption) j e Q). do 3 f_equal. lia.
Qed.
Lemma base_full : forall N bl, length bl = N -> forall l i types names t types' names' t', full N t -> base_loop bl i l types names t = (types', names', t') -> full N t'.
Proof.
  intros N bl L. induction l as [|[ty n] l IH]; intros i types names t types' names' t' F E; cbn in E; [injection E as _ _ <-; exact F|]. eapply IH; [|exact E]. intros m u Q. unfold new_unit in Q. rewrite sget_sset in Q. destruct (String.eqb m n); [injection Q as <-; cbn; rewrite set_at_len; exact L|exact (F m u Q)].
Qed.

Definition config_ok (c : config) : Prop := NoDup (map fst (c_base c)) /\ NoDup (map snd (c_base c)) /\ ~ In "unitless"%string (map snd (c_base c)).
(** the types a file has to have *)
Definition needed_types : list string := ["length"; "mass"; "time"; "temperature"; "angle"].
Lemma missing_iff : forall c types names t, NoDup (map fst (c_base c)) -> base_loop (repeat 0%Z (length (c_base c))) 0 (c_base c) [] [] [] = (types, names, t) ->
  existsb (fun ty => match sget types ty with Some _ => false | None => true end) required = true <-> exists ty, In ty needed_types /\ ~ In ty (map fst (c_base c)).
Proof.
  change needed_types with required.
  intros c types names t ND E. destruct (base_ok _ _ _ _ _ _ _ _ _ E) as (_ & H2 & _ & H4 & _). rewrite existsb_exists. split; intros (ty & I & Q); exists ty; (split; [exact I|]).
  - intros K. apply in_map_iff in K. destruct K as (e & <- & K). apply In_nth_error in K. destruct K as (j & K). rewrite (H4 ND j e K) in Q. discriminate Q.
  - rewrite (H2 ty Q). reflexivity.
Qed.
(** An imported library has the base units of the file in their order, each with its own dimension
    and scale one; every unit has one exponent for each base unit; all required types are there. *)
Theorem C133_import : forall order before c L, set_order order -> config_ok c -> import_library order before c = (Some L, Ok tt) ->
  (forall ty, In ty needed_types -> In ty (map fst (c_base c)))
  /\ l_names L = map snd (c_base c)
  /\ (forall i ty n, nth_error (c_base c) i = Some (ty, n) -> sget (l_types L) ty = Some i /\ exists u, sget (utable (l_state L)) n = Some u /\ (factor u == 1)%Q /\ forall j, j < length (c_base c) -> dim u j = Some (if i =? j then 1%Z else 0%Z))
  /\ (forall n u, sget (utable (l_state L)) n = Some u -> length (powers u) = length (c_base c)).
Proof.
  intros order before c L O (N1 & N2 & N3) E. unfold import_library in E. cbv zeta in E. set (N := length (c_base c)) in *. destruct (base_loop (repeat 0%Z N) 0 (c_base c) [] [] []) as [[types names] t] eqn:B. destruct (base_ok _ _ _ _ _ _ _ _ _ B) as (H1 & H2 & H3 & H4 & H5). pose proof (missing_iff c types names t N1 B) as M. destruct (existsb _ required) eqn:X; [discriminate E|]. destruct (update_library _ _ _ _) as [s|] eqn:U; [|discriminate E]. injection E as <-. cbn [l_names l_types l_state].
  assert (F0 : full N t). { eapply (base_full N (repeat 0%Z N) (repeat_length _ _)); [|exact B]. intros n u Q. discriminate Q. }
  edestruct (update_ok N) as [[F C] K]; [exact O| |exact U|].
  { split; [|intros e u []]. cbn. intros n u Q. unfold new_unit in Q. rewrite sget_sset in Q. destruct (String.eqb n "unitless"); [injection Q as <-; cbn; apply repeat_length|exact (F0 n u Q)]. }
  split; [|split; [exact H1|split; [|exact F]]].
  - intros ty I. destruct (in_dec String.string_dec ty (map fst (c_base c))) as [Y|Y]; [exact Y|]. exfalso. assert (false = true) by (apply M; exists ty; auto). discriminate.
  - intros i ty n Q. split; [exact (H4 N1 i _ Q)|]. pose proof (H5 N2 i _ Q) as V. cbn [snd Nat.add] in V.
    assert (Li : i < N) by (apply nth_error_Some; rewrite Q; discriminate).
    destruct (K n (mkUnit 1 (set_at (repeat 0%Z N) i) 0)) as (u & Eu & Fu & Pu & _).
    { cbn [utable]. unfold new_unit. rewrite sget_sset. destruct (String.eqb_spec n "unitless") as [->|]; [|exact V]. exfalso. apply N3. apply (in_map snd _ (ty, "unitless"%string)). exact (nth_error_In _ _ Q). }
    exists u. split; [exact Eu|]. split; [exact Fu|]. intros j Hj. unfold dim. rewrite Pu. cbn [powers]. apply set_at_nth; assumption.
Qed.
Print Assumptions C133_import.
(** If the units of the file do not define a base unit anew, they have no offset either, which is
    what reduction to base units (C06) asks for. *)
Theorem C133_base_units : forall order before c L, set_order order -> config_ok c -> (forall n, In n (map snd (c_base c)) -> ~ In n (map def_name (c_units c))) -> import_library order before c = (Some L, Ok tt) -> knows_base_units (utable (l_state L)) (l_names L).
Proof.
  intros order before c L O (N1 & N2 & N3) Hd E. unfold import_library in E. cbv zeta in E. set (N := length (c_base c)) in *. destruct (base_loop (repeat 0%Z N) 0 (c_base c) [] [] []) as [[types names] t] eqn:B. destruct (base_ok _ _ _ _ _ _ _ _ _ B) as (H1 & H2 & H3 & H4 & H5). destruct (existsb _ required) eqn:X; [discriminate E|]. destruct (update_library _ _ _ _) as [s|] eqn:U; [|discriminate E]. injection E as <-. cbn [l_names l_types l_state].
  assert (F0 : full N t). { eapply (base_full N (repeat 0%Z N) (repeat_length _ _)); [|exact B]. intros n u Q. discriminate Q. }
  edestruct (update_ok N) as [[F C] K]; [exact O| |exact U|].
  { split; [|intros e u []]. cbn. intros n u Q. unfold new_unit in Q. rewrite sget_sset in Q. destruct (String.eqb n "unitless"); [injection Q as <-; cbn; apply repeat_length|exact (F0 n u Q)]. }
  subst names. cbn [app]. intros i n Q. rewrite nth_error_map in Q. destruct (nth_error (c_base c) i) as [[ty m]|] eqn:Q'; [|discriminate Q]. cbn in Q. injection Q as ->. pose proof (H5 N2 i _ Q') as V. cbn [snd Nat.add] in V. assert (Li : i < N) by (apply nth_error_Some; rewrite Q'; discriminate). assert (In0 : In n (map snd (c_base c))) by (apply (in_map snd _ (ty, n)); exact (nth_error_In _ _ Q')).
  destruct (K n (mkUnit 1 (set_at (repeat 0%Z N) i) 0)) as (u & Eu & _ & _ & Ku).
  { cbn [utable]. unfold new_unit. rewrite sget_sset. destruct (String.eqb_spec n "unitless") as [->|]; [contradiction|exact V]. }
  rewrite (Ku (Hd n In0)) in Eu. rewrite map_length. eexists. split; [exact Eu|]. cbn [factor offset powers]. split; [reflexivity|]. split; [reflexivity|]. split; [rewrite set_at_len; apply repeat_length|]. intros j Hj. unfold dim. cbn [powers]. apply set_at_nth; assumption.
Qed.
Print Assumptions C133_base_units.
(** Without a required type the import is refused. *)
Theorem C133_required : forall order before c, set_order order -> config_ok c -> (exists ty, In ty needed_types /\ ~ In ty (map fst (c_base c))) -> snd (import_library order before c) = Err ValueError.
Proof.
  intros order before c O (N1 & _) M. unfold import_library. cbv zeta. destruct (base_loop _ 0 (c_base c) [] [] []) as [[types names] t] eqn:B. rewrite (proj2 (missing_iff c types names t N1 B) M). reflexivity.
Qed.
Print Assumptions C133_required.
(** But the library that was there is gone: only the base units of the refused file are known. *)
Theorem C133_refused_refuted : forall order before c, set_order order -> config_ok c -> (exists ty, In ty needed_types /\ ~ In ty (map fst (c_base c))) ->
  exists L, fst (import_library order before c) = Some L /\ forall n, ~ In n (map snd (c_base c)) -> sget (utable (l_state L)) n = None.
Proof.
  intros order before c O (N1 & _) M. unfold import_library. cbv zeta. destruct (base_loop _ 0 (c_base c) [] [] []) as [[types names] t] eqn:B. rewrite (proj2 (missing_iff c types names t N1 B) M). eexists. split; [reflexivity|]. cbn. intros n Nn. destruct (base_ok _ _ _ _ _ _ _ _ _ B) as (_ & _ & H3 & _). rewrite (H3 n Nn). reflexivity.
Qed.
Print Assumptions C133_refused_refuted.

(** ** The library that comes with the code *)
Definition no_lib : lib := Lib [] [] [] (mkUState [] []).
Definition shipped_lib : lib := match import_library (fun _ l => l) no_lib shipped with (Some L, _) => L | _ => no_lib end.
Definition shipped_table : table := utable (l_state shipped_lib).
(** It loads, whatever the order of the sets and whatever was loaded before, with all its units. *)
Theorem C133_shipped : forall order before, import_library order before shipped = (Some shipped_lib, Ok tt).
Proof. intros order before. vm_compute. reflexivity. Qed.
Print Assumptions C133_shipped.
Lemma shipped_config : config_ok shipped /\ NoDup (map def_name shipped_units) /\ forall n, In n (map snd shipped_base) -> ~ In n (map def_name shipped_units).
Proof.
  assert (D : forall l : list string, (fix nd l := match l with [] => true | a :: l => negb (existsb (String.eqb a) l) && nd l end)%bool l = true -> NoDup l).
  { induction l as [|a l IH]; intros E; [constructor|]. apply andb_prop in E. destruct E as [E1 E2]. constructor; [|exact (IH E2)]. intros I. rewrite (proj2 (existsb_exists (String.eqb a) l)) in E1; [discriminate E1|]. exists a. split; [exact I|apply String.eqb_refl]. }
  split; [split; [|split]|split].
  - apply D. vm_compute. reflexivity.
  - apply D. vm_compute. reflexivity.
  - vm_compute. intuition discriminate.
  - apply D. vm_compute. reflexivity.
  - assert (F : forallb (fun n => negb (existsb (String.eqb n) (map def_name shipped_units))) (map snd shipped_base) = true) by (vm_compute; reflexivity). rewrite forallb_forall in F. intros n I K. specialize (F n I). rewrite (proj2 (existsb_exists (String.eqb n) _)) in F; [discriminate F|]. exists n. split; [exact K|apply String.eqb_refl].
Qed.
Theorem C133_shipped_units : (forall n, In n (map def_name shipped_units) \/ In n (map snd shipped_base) \/ n = "unitless"%string <-> exists u, sget shipped_table n = Some u)
  /\ knows_base_units shipped_table (map snd shipped_base)
  /\ forall n u, sget shipped_table n = Some u -> (0 < factor u)%Q /\ length (powers u) = length shipped_base /\ ((offset u == 0)%Q \/ In n ["degC"; "degF"]%string).
Proof.
  assert (G : forall n u, sget shipped_table n = Some u -> In (n, u) shipped_table) by (intros n u; apply dget_in; intros a b; apply String.eqb_eq). split; [|split].
  - intros n. assert (K : map fst shipped_table = map snd shipped_base ++ ["unitless"%string] ++ map def_name shipped_units) by (vm_compute; reflexivity). split.
    + intros I. destruct (sget shipped_table n) as [u|] eqn:E; [exists u; reflexivity|]. exfalso. apply dget_none in E; [|intros a b; apply String.eqb_eq]. apply E. unfold dkeys. rewrite K. rewrite !in_app_iff. destruct I as [I|[I|I]]; [right; right; exact I|left; exact I|right; left; left; symmetry; exact I].
    + intros (u & E). apply G in E. apply (in_map fst) in E. rewrite K in E. cbn [fst] in E. rewrite !in_app_iff in E. destruct E as [E|[[E|[]]|E]]; auto.
  - exact (C133_base_units (fun _ l => l) no_lib shipped shipped_lib (fun _ l => Permutation_refl l) (proj1 shipped_config) (proj2 (proj2 shipped_config)) (C133_shipped _ _)).
  - assert (F : forallb (fun e => (negb (Qle_bool (factor (snd e)) 0) && (length (powers (snd e)) =? length shipped_base)%nat && (Qeq_bool (offset (snd e)) 0 || existsb (String.eqb (fst e)) ["degC"; "degF"]%string))%bool) shipped_table = true) by (vm_compute; reflexivity). rewrite forallb_forall in F. intros n u E. specialize (F _ (G n u E)). cbn [fst snd] in F. apply andb_prop in F. destruct F as [F F3]. apply andb_prop in F. destruct F as [F1 F2]. split; [|split].
    + apply Qnot_le_lt. intros K. apply Qle_bool_iff in K. rewrite K in F1. discriminate F1.
    + apply Nat.eqb_eq. exact F2.
    + apply orb_prop in F3. destruct F3 as [F3|F3]; [left; apply Qeq_bool_iff; exact F3|right]. apply existsb_exists in F3. destruct F3 as (x & I & Q). apply String.eqb_eq in Q. subst x. exact I.
Qed.
Print Assumptions C133_shipped_units.
(** Every two units of the same dimension can be converted, exactly, and back. *)
Theorem C133_shipped_convert : forall n m u v x, sget shipped_table n = Some u -> sget shipped_table m = Some v -> same_dim u v ->
  exists y z, convert_units x u v = Ok y /\ (to_base v y == to_base u x)%Q /\ convert_units y v u = Ok z /\ (z == x)%Q.
Proof.
  intros n m u v x Hu Hv D. destruct C133_shipped_units as (_ & _ & P). assert (Su : scaled u) by (unfold scaled; intros Z; destruct (P n u Hu) as (Q & _); rewrite Z in Q; discriminate Q). assert (Sv : scaled v) by (unfold scaled; intros Z; destruct (P m v Hv) as (Q & _); rewrite Z in Q; discriminate Q). destruct (C01_convert_units_preserves u v x D Su Sv) as (y & E & T). destruct (C02_conversions_invert u v x D Su Sv) as (y' & z & E' & E2 & Z). exists y, z. split; [exact E|]. split; [exact T|]. split; [congruence|exact Z].
Qed.
Print Assumptions C133_shipped_convert.

(** A decagram is a hundredth of a kilogram until attograms have been looked up; then it is the
    tenth of an attogram. *)
Local Open Scope string_scope.
Local Open Scope list_scope.
Theorem C133_prefix_refuted :
  let find s n := find_unit (l_prefixes shipped_lib) s (UName n) in
  let s := l_state shipped_lib in
  exists u v, snd (find s "dag") = Ok u /\ snd (find (fst (find s "ag")) "dag") = Ok v /\ (factor u == 1 # 100)%Q /\ (factor v == 1 # 10 ^ 22)%Q.
Proof. do 2 eexists. split; [vm_compute; reflexivity|]. split; [vm_compute; reflexivity|]. split; vm_compute; reflexivity. Qed.
Print Assumptions C133_prefix_refuted.
(** Constants: sigma times the fourth power of a temperature is no power per area, Ken is no
    energy, and V0 is not the volume of a mole of ideal gas (R * 273.15 K / atm, up to 1 %). *)
Theorem C133_constants_refuted :
  let value e := match ueval shipped_table e with Ok (VUnit u) => Some u | _ => None end in
  (exists s w, value (UMul (UName "sigma") (UPow (UName "K") 4)) = Some s /\ value (UDiv (UName "W") (UPow (UName "m") 2)) = Some w /\ ~ same_dim s w)
  /\ (exists k j, value (UName "Ken") = Some k /\ value (UName "J") = Some j /\ ~ same_dim k j)
  /\ (exists v g, value (UName "V0") = Some v /\ value (UDiv (UMul (UMul (UName "R") (UNum (27315 # 100))) (UName "K")) (UName "atm")) = Some g /\ same_dim v g /\ (9 * factor v < factor g)%Q).
Proof.
  split; [|split]; do 2 eexists; (split; [vm_compute; reflexivity|]; split; [vm_compute; reflexivity|]).
  - intros E. discriminate E.
  - intros E. discriminate E.
  - split; vm_compute; reflexivity.
Qed.
Print Assumptions C133_constants_refuted.

(** a small file with all required types, one without angles *)
Definition ulib_ex : config := Config [("k", 1000%Q)] [("length", "m"); ("mass", "kg"); ("time", "s"); ("temperature", "K"); ("angle", "rad")] [DExpr "N" (UDiv (UMul (UName "kg") (UName "m")) (UPow (UName "s") 2))].
Definition ulib_bad : config := Config [] [("length", "m"); ("mass", "kg"); ("time", "s"); ("temperature", "K")] [].
Example C133_ex : config_ok ulib_ex /\ config_ok ulib_bad
  /\ (exists L, import_library (fun _ l => l) shipped_lib ulib_ex = (Some L, Ok tt) /\ sget (utable (l_state L)) "N" = Some (mkUnit 1 [1; 1; -2; 0; 0]%Z 0))
  /\ snd (import_library (fun _ l => l) shipped_lib ulib_bad) = Err ValueError.
Proof.
  assert (C : forall c, c = ulib_ex \/ c = ulib_bad -> config_ok c) by (intros c [-> | ->]; (split; [|split]; cbn; [repeat constructor; cbn; intuition discriminate..|intuition discriminate])). split; [apply C; auto|]. split; [apply C; auto|]. split; [|reflexivity]. eexists. split; [reflexivity|]. vm_compute. reflexivity.
Qed.

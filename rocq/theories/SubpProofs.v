(** Lemmas about SubProblems. *)
From Verif Require Import Base BaseFacts RunModel RunSpec RunProofs RunProofs2 RunProofs3 RunProofs4 RunProofs5 SubpModel SubpSpec.
Local Open Scope string_scope.
Local Open Scope nat_scope.
Local Open Scope list_scope.

Section Subp.
  Context {V : Type} (vadd vsub : V -> V -> V) (vopp : V -> V).
  Hypothesis RE : restores vadd vsub vopp.
  Notation sub_solve := (sub_solve vadd vsub vopp).
  Notation run_model := (run_model vadd vsub vopp).

  (** ** setting *)
  Definition sets (pls : list place) (p : list V) (s : st V) : st V := fold_left (fun s e => set_one (fst e) (snd e) s) (combine pls p) s.
  Lemma sets_other : forall pls p s, (forall v, ~ In v (flat_map ins pls) -> pv (sets pls p s) v = pv s v) /\ (forall u, ~ In u (flat_map outs pls) -> uv (sets pls p s) u = uv s u) /\ rv (sets pls p s) = rv s.
  Proof.
    induction pls as [|pl pls IH]; intros p s; [split; [|split]; reflexivity|]. destruct p as [|x p]; [split; [|split]; reflexivity|]. change (sets (pl :: pls) (x :: p) s) with (sets pls p (set_one pl x s)).
    destruct (IH p (set_one pl x s)) as (A & B & C). cbn [flat_map]. split; [|split].
    - intros v N. rewrite A by (intros K; apply N; apply in_or_app; auto). destruct pl as [l|u]; cbn [set_one pv]; [|reflexivity]. replace (smem v l) with false; [reflexivity|]. symmetry. apply smem_out. intros K. apply N. apply in_or_app. left. exact K.
    - intros u N. rewrite B by (intros K; apply N; apply in_or_app; auto). destruct pl as [l|w]; cbn [set_one uv]; [reflexivity|]. destruct (String.eqb_spec u w) as [->|]; [|reflexivity]. exfalso. apply N. apply in_or_app. left. left. reflexivity.
    - rewrite C. destruct pl; reflexivity.
  Qed.
  Lemma sets_hold : forall pls p s, length p = length pls -> NoDup (flat_map ins pls) -> NoDup (flat_map outs pls) ->
      Forall2 (fun pl x => (forall v, In v (ins pl) -> pv (sets pls p s) v = x) /\ forall u, In u (outs pl) -> uv (sets pls p s) u = x) pls p.
  Proof.
    induction pls as [|pl pls IH]; intros [|x p] s L N1 N2; try discriminate; [constructor|]. change (sets (pl :: pls) (x :: p) s) with (sets pls p (set_one pl x s)).
    cbn [flat_map] in N1, N2. destruct (NoDup_app_inv _ _ N1) as (_ & N1' & D1). destruct (NoDup_app_inv _ _ N2) as (_ & N2' & D2). constructor; [|apply IH; [injection L as L; exact L|assumption|assumption]].
    destruct (sets_other pls p (set_one pl x s)) as (A & B & _). split.
    - intros v K. rewrite A by (intros K2; exact (D1 v K K2)). destruct pl as [l|u]; [|destruct K]. cbn [set_one pv ins] in *. rewrite (proj2 (smem_in v l) K). reflexivity.
    - intros u K. rewrite B by (intros K2; exact (D2 u K K2)). destruct pl as [l|w]; [destruct K|]. destruct K as [<-|[]]. cbn [set_one uv]. rewrite String.eqb_refl. reflexivity.
  Qed.
  Lemma set_params_sets : forall (P : subp V) p s, set_params P p s = sets (b_params P) p s.
  Proof. reflexivity. Qed.
  Lemma set_others : forall (P : subp V) p s, same_others P s (set_params P p s).
  Proof. intros P p s. rewrite set_params_sets. destruct (sets_other (b_params P) p s) as (A & B & _). split; intros; symmetry; [apply A|apply B]; assumption. Qed.
  Lemma set_holds : forall (P : subp V) p s, settable P -> length p = length (b_params P) -> holds P (set_params P p s) p.
  Proof. intros P p s [N1 N2 _ _ _] L. rewrite set_params_sets. apply sets_hold; assumption. Qed.

  (** ** a call *)
  Lemma holds_ext : forall (P : subp V) s t p, (forall v, In v (flat_map ins (b_params P)) -> pv t v = pv s v) -> (forall u, In u (flat_map outs (b_params P)) -> uv t u = uv s u) -> holds P s p -> holds P t p.
  Proof.
    intros P s t p. unfold holds. generalize (b_params P). intros pls A B H. induction H as [|pl x pls p [H1 H2] H IH]; constructor.
    - split; [intros v K; rewrite A by (cbn; apply in_or_app; auto); auto|intros u K; rewrite B by (cbn; apply in_or_app; auto); auto].
    - apply IH; [intros v K; apply A; cbn; apply in_or_app; auto|intros u K; apply B; cbn; apply in_or_app; auto].
  Qed.
  Lemma others_trans : forall (P : subp V) a b c, same_others P a b -> same_others P b c -> same_others P a c.
  Proof. intros P a b c (A & B) (C & D). split; [intros v H1 H2 H3; rewrite A, C by assumption; reflexivity|intros k u H1 H2 H3 H4; rewrite (B k), (D k) by assumption; reflexivity]. Qed.
  Lemma others_sym : forall (P : subp V) a b, same_others P a b -> same_others P b a.
  Proof. intros P a b (A & B). split; [intros; symmetry; apply A; assumption|intros; symmetry; eapply B; eassumption]. Qed.
  Lemma others_inputs : forall (P : subp V) a b, same_inputs (b_root P) (b_conns P) a b -> same_others P a b.
  Proof. intros P a b (A & B). split; [intros v H1 H2 _; apply A; assumption|intros c u H1 H2 H3 _; apply (B c); assumption]. Qed.
  Lemma back_id : forall (P : subp V) s p, holds P s p -> map (back s) (combine (b_params P) p) = p.
  Proof.
    intros P s p. unfold holds. generalize (b_params P). intros pls H. induction H as [|pl x pls p [_ H2] H IH]; [reflexivity|]. cbn [combine map]. rewrite IH. f_equal. unfold back. cbn [fst snd]. destruct pl as [l|u]; [reflexivity|]. apply H2. left. reflexivity.
  Qed.
  Lemma solve_ok : forall (P : subp V) s p o, settable P -> runnable P -> length p = length (b_params P) -> sub_solve P s p = Ok o ->
      solution P s p (o_inner o) /\ o_params o = p /\ o_unks o = map (uv (o_inner o)) (b_unks P) /\ o_resids o = map (rv (o_inner o)) (b_unks P) /\
      same_inputs (b_root P) (b_conns P) (set_params P p s) (o_inner o) /\ run_model (b_root P) (b_conns P) (set_params P p s) = Ok (o_inner o).
  Proof.
    intros P s p o SE [LG PA SW FF EX] L E. unfold SubpModel.sub_solve in E. destruct (run_model (b_root P) (b_conns P) (set_params P p s)) as [s'|e] eqn:R; [|discriminate]. cbn [bind] in E. injection E as <-. cbn [o_inner o_params o_unks o_resids].
    destruct (ff_run vadd vsub vopp RE _ _ _ _ LG PA SW FF R) as [C S]. destruct (inputs_kept vadd vsub vopp RE _ _ _ _ LG PA SW R) as (K1 & _ & K3).
    assert (SI : same_inputs (b_root P) (b_conns P) (set_params P p s) s') by (split; [intros v _ N; symmetry; apply K1; exact N|intros c u A B D; symmetry; apply (K3 c); assumption]).
    assert (H : holds P s' p).
    { apply (holds_ext P (set_params P p s) s'); [| |apply set_holds; assumption].
      - intros v K. apply K1. apply (se_free P SE). exact K.
      - intros u K. destruct (se_indep P SE u K) as (c & A & B & D). apply (K3 c); assumption. }
    split; [|split; [apply back_id; exact H|split; [reflexivity|split; [reflexivity|split; [exact SI|reflexivity]]]]].
    split; [exact C|]. split; [exact S|]. split; [exact H|]. apply (others_trans P s (set_params P p s)); [apply set_others|]. apply others_inputs. exact SI.
  Qed.
  Lemma after_others : forall (P : subp V) s0 s, settable P -> runnable P -> after vadd vsub vopp P s0 s -> same_others P s0 s.
  Proof.
    intros P s0 s SE RU A. induction A as [|s p o A IH L E|s p u o A IH L E|M gradient s p s' j A IH L E|s p e s' A IH L E SI].
    - split; reflexivity.
    - destruct (solve_ok P s p o SE RU L E) as ((_ & _ & _ & X) & _). exact (others_trans P _ _ _ IH X).
    - unfold sub_apply in E. destruct (sub_solve P s p) as [o'|e] eqn:E'; [|discriminate]. cbn [bind] in E. injection E as <-. cbn [o_inner]. destruct (solve_ok P s p o' SE RU L E') as ((_ & _ & _ & X) & _). exact (others_trans P _ _ _ IH X).
    - unfold sub_linearize in E. destruct (gradient (set_params P p s)) as [g|e]; [|discriminate]. cbn [bind] in E. injection E as <- _. exact (others_trans P _ _ _ IH (set_others P p s)).
    - apply (others_trans P _ _ _ IH). apply (others_trans P _ (set_params P p s)); [apply set_others|apply others_inputs; exact SI].
  Qed.
  (** the inputs of the wrapped model are the values given and the others *)
  Lemma inputs_of_holds : forall (P : subp V) a b p, settable P -> holds P a p -> holds P b p -> same_others P a b -> same_inputs (b_root P) (b_conns P) a b.
  Proof.
    intros P a b p SE HA HB (O1 & O2).
    assert (G : forall pls q, Forall2 (fun pl x => (forall v, In v (ins pl) -> pv a v = x) /\ forall u, In u (outs pl) -> uv a u = x) pls q -> Forall2 (fun pl x => (forall v, In v (ins pl) -> pv b v = x) /\ forall u, In u (outs pl) -> uv b u = x) pls q ->
                (forall v, In v (flat_map ins pls) -> pv a v = pv b v) /\ forall u, In u (flat_map outs pls) -> uv a u = uv b u).
    { clear. intros pls q H. induction H as [|pl x pls q [H1 H2] H IH]; intros K; [split; intros ? []|]. inversion K as [|? ? ? ? [K1 K2] K']; subst. destruct (IH K') as [I1 I2]. split; intros w W; cbn in W; apply in_app_or in W; destruct W as [W|W]; auto; [rewrite H1, K1 by exact W; reflexivity|rewrite H2, K2 by exact W; reflexivity]. }
    destruct (G _ _ HA HB) as [G1 G2]. split.
    - intros v H1 H2. destruct (in_dec string_dec v (flat_map ins (b_params P))) as [I|I]; [apply G1; exact I|apply O1; assumption].
    - intros c u H1 H2 H3. destruct (in_dec string_dec u (flat_map outs (b_params P))) as [I|I]; [apply G2; exact I|apply (O2 c); assumption].
  Qed.
  Lemma solution_same : forall (P : subp V) s0 p a b, settable P -> runnable P -> solution P s0 p a -> solution P s0 p b -> same_values (b_root P) a b.
  Proof.
    intros P s0 p a b SE [LG PA SW FF EX] (C1 & S1 & H1 & O1) (C2 & S2 & H2 & O2). apply (solution_unique (b_root P) (b_conns P)); try assumption.
    apply (inputs_of_holds P a b p SE H1 H2). apply (others_trans P a s0 b); [apply others_sym; exact O1|exact O2].
  Qed.
  Lemma solution_others : forall (P : subp V) s0 s p a, same_others P s0 s -> solution P s p a -> solution P s0 p a.
  Proof. intros P s0 s p a O (A & B & C & D). split; [exact A|]. split; [exact B|]. split; [exact C|]. exact (others_trans P _ _ _ O D). Qed.

  (** ** the flat model *)
  Lemma combine_nth : forall A (l : list string) (m : list A) x y, NoDup l -> sget (combine l m) x = Some y <-> exists i, nth_error l i = Some x /\ nth_error m i = Some y.
  Proof.
    intros A l. induction l as [|a l IH]; intros m x y N; cbn [combine]; [split; [discriminate|intros (i & K & _); destruct i; discriminate]|]. destruct m as [|b m]; cbn [combine]; [split; [discriminate|intros (i & _ & K); destruct i; discriminate]|].
    inversion N as [|? ? Na N']; subst. unfold sget. cbn [dget]. destruct (String.eqb_spec x a) as [->|D].
    - split; [intros E; injection E as ->; exists 0; auto|]. intros ([|i] & K & K2); cbn in K, K2; [congruence|]. exfalso. apply Na. eapply nth_error_In. exact K.
    - fold (sget (combine l m) x). rewrite IH by exact N'. split; [intros (i & K); exists (S i); exact K|]. intros ([|i] & K & K2); cbn in K, K2; [congruence|]. exists i. auto.
  Qed.
  Lemma combine_none : forall A (l : list string) (m : list A) x, length l = length m -> sget (combine l m) x = None -> ~ In x l.
  Proof.
    intros A l. induction l as [|a l IH]; intros [|b m] x L E; try discriminate; [intros []|]. cbn [combine] in E. unfold sget in E. cbn [dget] in E. destruct (String.eqb_spec x a) as [->|D]; [discriminate|]. intros [K|K]; [congruence|]. injection L as L. exact (IH m x L E K).
  Qed.

  Section Flat.
    Variables (root flat : sys V) (conns : list (conn V)) (name : string) (pn un : list string) (P : subp V) (s0 : st V).
    Let sub := sub_comp vadd vsub vopp name pn un P s0.
    Hypothesis SE : settable P.
    Hypothesis RU : runnable P.
    Hypothesis LP : length pn = length (b_params P).
    Hypothesis LU : length un = length (b_unks P).
    Hypothesis NO : flat_map outs (b_params P) = [].
    Hypothesis LG : legal_model root conns.
    Hypothesis SB : In sub (comps root).
    Hypothesis FG : foreign root P.
    Hypothesis FL : flattens root flat sub P.
    Lemma pn_nodup : NoDup pn.
    Proof. exact (nodup_part c_params (comps root) sub (lm_params _ _ LG) SB). Qed.
    Lemma un_nodup : NoDup un.
    Proof. exact (nodup_part c_unks (comps root) sub (lm_unks _ _ LG) SB). Qed.
    Lemma inner_solution : forall s, solved sub s -> exists si, solution P s0 (map (pv s) pn) si /\ map (uv s) un = map (uv si) (b_unks P).
    Proof.
      intros s (g & E). cbn [sub sub_comp c_solve c_params c_unks] in E. destruct (sub_solve P s0 (map (pv s) pn)) as [o|e] eqn:R; [|discriminate]. cbn [bind] in E. injection E as E.
      destruct (solve_ok P s0 (map (pv s) pn) o SE RU) as (A & _ & B & _); [rewrite map_length; exact LP|exact R|]. exists (o_inner o). split; [exact A|]. rewrite <- E. exact B.
    Qed.
    (** the outer vectors and the inner ones side by side *)
    Definition merged (s si : st V) : st V :=
      mkS (fun v => if smem v (sys_params (b_root P)) then pv si v else pv s v) (fun u => if smem u (sys_unks (b_root P)) then uv si u else uv s u) (rv s).
    Lemma merged_in : forall s si, (forall v, In v (sys_params (b_root P)) -> pv (merged s si) v = pv si v) /\ (forall u, In u (sys_unks (b_root P)) -> uv (merged s si) u = uv si u).
    Proof. intros s si. split; intros v K; cbn [merged pv uv]; rewrite (proj2 (smem_in _ _) K); reflexivity. Qed.
    Lemma merged_out : forall s si, (forall v, In v (sys_params root) -> pv (merged s si) v = pv s v) /\ (forall u, In u (sys_unks root) -> uv (merged s si) u = uv s u).
    Proof.
      intros s si. split; intros v K; cbn [merged pv uv]; [destruct (smem v (sys_params (b_root P))) eqn:E|destruct (smem v (sys_unks (b_root P))) eqn:E]; try reflexivity; apply smem_in in E; exfalso; [exact (proj1 FG v E K)|exact (proj2 FG v E K)].
    Qed.
    Lemma solved_ext2 : forall (c : comp V) s t, (forall v, In v (c_params c) -> pv t v = pv s v) -> (forall u, In u (c_unks c) -> uv t u = uv s u) -> solved c s -> solved c t.
    Proof. intros c s t A B (g & E). exists g. rewrite (map_ext_in _ _ _ A), (map_ext_in _ _ _ B). exact E. Qed.
    Lemma inner_params : forall c v, In c (comps (b_root P)) -> In v (c_params c) -> In v (sys_params (b_root P)).
    Proof. intros c v A B. apply in_flat_map. exists c. auto. Qed.
    Lemma merged_solved : forall s si, (forall c, In c (comps root) -> solved c s) -> (forall c, In c (comps (b_root P)) -> solved c si) -> forall c, In c (comps flat) -> solved c (merged s si).
    Proof.
      intros s si A B c K. apply FL in K. destruct (merged_in s si) as [I1 I2]. destruct (merged_out s si) as [O1 O2]. destruct K as [[K _]|K].
      - apply (solved_ext2 c s); [intros v Hv; apply O1; apply in_flat_map; eauto|intros v Hv; apply O2; apply in_flat_map; eauto|apply A; exact K].
      - apply (solved_ext2 c si); [intros v Hv; apply I1; apply in_flat_map; eauto|intros v Hv; apply I2; apply in_flat_map; eauto|apply B; exact K].
    Qed.
    Lemma nth_map_eq : forall A B C (f : A -> C) (g : B -> C) (l : list A) (m : list B) i x y, map f l = map g m -> nth_error l i = Some x -> nth_error m i = Some y -> f x = g y.
    Proof. intros A B C f g l m i x y E X Y. pose proof (map_nth_error f i l X) as H1. pose proof (map_nth_error g i m Y) as H2. rewrite E in H1. rewrite H1 in H2. injection H2 as H2. exact H2. Qed.
    Lemma holds_nth : forall s p i pl x, holds P s p -> nth_error (b_params P) i = Some pl -> nth_error p i = Some x -> forall v, In v (ins pl) -> pv s v = x.
    Proof.
      intros s p i pl x. unfold holds. generalize (b_params P). intros pls H. revert i. induction H as [|q y pls p [H1 _] H IH]; intros [|i] E1 E2 v K; try discriminate; cbn in E1, E2.
      - injection E1 as ->. injection E2 as ->. apply H1. exact K.
      - exact (IH i E1 E2 v K).
    Qed.
    Lemma flat_src_val : forall s si x, map (uv s) un = map (uv si) (b_unks P) -> In x (sys_unks root) -> uv (merged s si) (flat_src un P x) = uv s x.
    Proof.
      intros s si x E X. unfold flat_src. destruct (sget (combine un (b_unks P)) x) as [y|] eqn:G; [|apply (proj2 (merged_out s si)); exact X].
      apply (combine_nth _ _ _ _ _ un_nodup) in G. destruct G as (i & G1 & G2). rewrite (proj2 (merged_in s si)) by (apply (se_unks P SE); eapply nth_error_In; exact G2). symmetry. eapply nth_map_eq; eassumption.
    Qed.
    Lemma flat_tgt_val : forall s si x v, holds P si (map (pv s) pn) -> In x (sys_params root) -> In v (flat_tgts pn P x) -> pv (merged s si) v = pv s x.
    Proof.
      intros s si x v H X K. unfold flat_tgts in K. destruct (sget (combine pn (b_params P)) x) as [pl|] eqn:G.
      - apply (combine_nth _ _ _ _ _ pn_nodup) in G. destruct G as (i & G1 & G2). assert (IV : In v (flat_map ins (b_params P))) by (apply in_flat_map; exists pl; split; [eapply nth_error_In; exact G2|exact K]).
        rewrite (proj1 (merged_in s si)) by (apply (se_free P SE); exact IV). eapply holds_nth; [exact H|exact G2| |exact K]. apply map_nth_error. exact G1.
      - destruct K as [<-|[]]. apply (proj1 (merged_out s si)). exact X.
    Qed.
    Lemma merged_consistent : forall s si, consistent conns s -> consistent (b_conns P) si -> holds P si (map (pv s) pn) -> map (uv s) un = map (uv si) (b_unks P) -> consistent (flat_conns pn un P conns) (merged s si).
    Proof.
      intros s si C CI H U k K. unfold flat_conns in K. apply in_app_or in K. destruct K as [K|K].
      - apply in_flat_map in K. destruct K as (k0 & K0 & K). apply in_map_iff in K. destruct K as (v & <- & Kv). cbn [k_tgt k_src k_conv]. destruct (lm_ends _ _ LG k0 K0) as (a & b & A & B & _ & S & T).
        rewrite (flat_tgt_val s si (k_tgt k0) v H) by (try exact Kv; apply in_flat_map; eauto). rewrite (flat_src_val s si (k_src k0) U) by (apply in_flat_map; eauto). apply C. exact K0.
      - destruct (lm_ends _ _ (ru_legal P RU) k K) as (a & b & A & B & _ & S & T). rewrite (proj1 (merged_in s si)), (proj2 (merged_in s si)) by (apply in_flat_map; eauto). apply CI. exact K.
    Qed.
    Lemma flat_tgt_iff : forall v, In v (map k_tgt (flat_conns pn un P conns)) <-> (exists k, In k conns /\ In v (flat_tgts pn P (k_tgt k))) \/ In v (map k_tgt (b_conns P)).
    Proof.
      intros v. unfold flat_conns. rewrite map_app, in_app_iff. split; (intros [K|K]; [left|right; exact K]).
      - apply in_map_iff in K. destruct K as (k & <- & K). apply in_flat_map in K. destruct K as (k0 & K0 & K). apply in_map_iff in K. destruct K as (w & <- & Kw). exists k0. auto.
      - destruct K as (k & K & Kv). apply in_map_iff. exists (mkK v (flat_src un P (k_src k)) (k_conv k)). split; [reflexivity|]. apply in_flat_map. exists k. split; [exact K|]. apply in_map_iff. exists v. auto.
    Qed.
    Lemma name_of_param : forall x, In x pn -> forall c, In c (comps root) -> In x (c_params c) -> c = sub.
    Proof. intros x X c C K. apply (owner_unique c_params (comps root) c sub x (lm_params _ _ LG) C SB K). exact X. Qed.
    Lemma same_name : forall c, In c (comps root) -> c_name c = c_name sub -> c = sub.
    Proof.
      intros c C E. pose proof (lm_names _ _ LG) as N. revert C SB E N. clear. induction (comps root) as [|d l IH]; intros C S E N; [destruct C|]. cbn [map] in N. inversion N as [|? ? Nd N']; subst.
      destruct C as [->|C], S as [S|S]; auto.
      - exfalso. apply Nd. rewrite E. apply in_map. exact S.
      - subst d. exfalso. apply Nd. rewrite <- E. apply in_map. exact C.
    Qed.
    Lemma merged_inputs : forall s s' t si, same_inputs root conns s s' -> flat_inputs root conns sub P s s0 t -> solution P s0 (map (pv s') pn) si -> same_inputs flat (flat_conns pn un P conns) (merged s' si) t.
    Proof.
      intros s s' t si (S1 & S2) (F1 & F2 & F3 & O1 & O2) (C & S & H & O3 & O4). destruct (merged_in s' si) as [I1 I2]. destruct (merged_out s' si) as [X1 X2]. split.
      - intros v Hv NT. rewrite flat_tgt_iff in NT. apply in_flat_map in Hv. destruct Hv as (c & Kc & Hv). apply FL in Kc. destruct Kc as [[Kc NN]|Kc].
        + assert (RV : In v (sys_params root)) by (apply in_flat_map; eauto). assert (NV : ~ In v (map k_tgt conns)).
          { intros K. apply in_map_iff in K. destruct K as (k & E & K). apply NT. left. exists k. split; [exact K|]. rewrite E. unfold flat_tgts. destruct (sget (combine pn (b_params P)) v) as [pl|] eqn:G; [|left; reflexivity]. exfalso.
            apply (combine_nth _ _ _ _ _ pn_nodup) in G. destruct G as (i & G1 & _). apply NN. rewrite (name_of_param v (nth_error_In _ _ G1) c Kc Hv). reflexivity. }
          rewrite (X1 v RV), (F1 c v Kc NN Hv NV). symmetry. apply S1; assumption.
        + assert (IV : In v (sys_params (b_root P))) by (apply in_flat_map; eauto). rewrite (I1 v IV). assert (NI : ~ In v (map k_tgt (b_conns P))) by (intros K; apply NT; right; exact K).
          destruct (in_dec string_dec v (flat_map ins (b_params P))) as [D|D]; [|rewrite <- (O3 v IV NI D); apply O1; assumption].
          apply in_flat_map in D. destruct D as (pl & D1 & D2). apply In_nth_error in D1. destruct D1 as (i & D1). destruct (nth_error pn i) as [x|] eqn:E; [|exfalso; apply nth_error_None in E; assert (i < length (b_params P)) by (apply nth_error_Some; congruence); lia].
          rewrite (holds_nth si _ i pl (pv s' x) H D1 (map_nth_error _ _ _ E) v D2). assert (NX : ~ In x (map k_tgt conns)).
          { intros K. apply in_map_iff in K. destruct K as (k & Ek & K). apply NT. left. exists k. split; [exact K|]. rewrite Ek. unfold flat_tgts. rewrite (proj2 (combine_nth _ pn (b_params P) x pl pn_nodup)); [exact D2|]. exists i. auto. }
          rewrite (F3 i x pl v E D1 NX D2). symmetry. apply S1; [|exact NX]. apply in_flat_map. exists sub. split; [exact SB|]. eapply nth_error_In. exact E.
      - intros c u Kc IC Hu. apply FL in Kc. destruct Kc as [[Kc NN]|Kc].
        + rewrite (X2 u) by (apply in_flat_map; eauto). rewrite (F2 c u Kc NN IC Hu). symmetry. apply (S2 c); assumption.
        + rewrite (I2 u) by (apply in_flat_map; eauto). assert (NU : ~ In u (flat_map outs (b_params P))) by (rewrite NO; intros []). rewrite <- (O4 c u Kc IC Hu NU). apply (O2 c); assumption.
    Qed.
  End Flat.

  (** ** the flat dictionary *)
  Section Dict.
    Context {M : Type}.
    Lemma kkeqb_eq : forall a b, kkeqb a b = true <-> a = b.
    Proof. intros [a1 a2] [b1 b2]. unfold kkeqb. cbn [fst snd]. rewrite Bool.andb_true_iff, !String.eqb_eq. split; [intros [-> ->]; reflexivity|intros E; injection E; auto]. Qed.
    Lemma flat_one : forall u (l : list (string * M)) d o p, NoDup (map fst l) -> dget kkeqb (fold_left (fun d e2 => dset kkeqb d (u, fst e2) (snd e2)) l d) (o, p) = if String.eqb o u then match sget l p with Some m => Some m | None => dget kkeqb d (o, p) end else dget kkeqb d (o, p).
    Proof.
      intros u. induction l as [|[q m] l IH]; intros d o p N; cbn [fold_left].
      - destruct (String.eqb o u); reflexivity.
      - inversion N as [|? ? Nq N']; subst. rewrite IH by exact N'. cbn [fst snd]. rewrite (dget_dset kkeqb kkeqb_eq). unfold kkeqb at 1 3. cbn [fst snd]. unfold sget. cbn [dget]. destruct (String.eqb_spec o u) as [->|]; cbn [andb]; [|reflexivity].
        destruct (String.eqb_spec p q) as [->|]; [|reflexivity]. rewrite (proj2 (dget_none String.eqb String.eqb_eq l q) Nq). reflexivity.
    Qed.
    Lemma flat_get : forall (j : list (string * list (string * M))) o p, NoDup (map fst j) -> (forall u l, In (u, l) j -> NoDup (map fst l)) ->
        dget kkeqb (flat_dict j) (o, p) = match sget j o with Some l => sget l p | None => None end.
    Proof.
      intros j o p N NL. unfold flat_dict.
      assert (G : forall (j : list (string * list (string * M))) (d : list ((string * string) * M)), NoDup (map fst j) -> (forall u l, In (u, l) j -> NoDup (map fst l)) -> dget kkeqb (fold_left (fun d e => fold_left (fun d e2 => dset kkeqb d (fst e, fst e2) (snd e2)) (snd e) d) j d) (o, p) =
                match sget j o with Some l => match sget l p with Some m => Some m | None => dget kkeqb d (o, p) end | None => dget kkeqb d (o, p) end).
      { clear. induction j as [|[u l] j IH]; intros d N NL; cbn [fold_left]; [reflexivity|]. inversion N as [|? ? Nu N']; subst. rewrite IH by (try exact N'; intros v m K; apply (NL v m); right; exact K). cbn [fst snd].
        rewrite flat_one by (apply (NL u l); left; reflexivity). change (sget ((u, l) :: j) o) with (if String.eqb o u then Some l else sget j o). destruct (String.eqb_spec o u) as [->|]; [|reflexivity]. replace (sget j u) with (@None (list (string * M))); [reflexivity|]. symmetry. apply (proj2 (dget_none String.eqb String.eqb_eq j u) Nu). }
      rewrite (G j [] N NL). destruct (sget j o) as [l|]; [|reflexivity]. destruct (sget l p); reflexivity.
    Qed.
  End Dict.
End Subp.

(** ** setup *)
Section Setup.
  Variable dangling : list (string * list string).
  Variable unks : list (string * bool).
  Notation known n := (sget dangling n <> None \/ sget unks n <> None).
  Lemma exists_ok : forall ns, (check_exists dangling unks ns = Ok tt /\ forall n, In n ns -> known n) \/ (check_exists dangling unks ns = Err RuntimeError /\ exists n, In n ns /\ sget dangling n = None /\ sget unks n = None).
  Proof.
    induction ns as [|n ns IH]; [left; split; [reflexivity|intros n []]|]. cbn [check_exists].
    destruct (sget dangling n) as [l|] eqn:D; [|destruct (sget unks n) as [b|] eqn:U; [|right; split; [reflexivity|exists n; split; [left; reflexivity|auto]]]].
    all: destruct IH as [[-> IH]|[-> (m & IH & R)]]; [left; split; [reflexivity|intros m [<-|K]; [|apply IH; exact K]]|right; split; [reflexivity|exists m; split; [right; exact IH|exact R]]].
    - left. rewrite D. discriminate.
    - right. rewrite U. discriminate.
  Qed.
  Lemma places_ok : forall ns, (forall n, In n ns -> known n) ->
      (exists ps, find_places dangling unks ns = Ok ps /\ Forall2 (stands_for dangling unks) ns ps) \/
      (find_places dangling unks ns = Err TypeError /\ exists n, In n ns /\ sget dangling n = None /\ sget unks n = Some false).
  Proof.
    induction ns as [|n ns IH]; intros K; [left; exists []; split; [reflexivity|constructor]|]. cbn [find_places]. specialize (IH (fun m Hm => K m (or_intror Hm))). pose proof (K n (or_introl eq_refl)) as Kn.
    destruct (sget dangling n) as [l|] eqn:D; [|destruct (sget unks n) as [[|]|] eqn:U].
    - cbn [bind]. destruct IH as [(ps & -> & F)|[-> (m & A & B)]]; cbn [bind]; [left; exists (Inputs l :: ps); split; [reflexivity|constructor; [exact D|exact F]]|right; split; [reflexivity|exists m; split; [right; exact A|exact B]]].
    - cbn [bind]. destruct IH as [(ps & -> & F)|[-> (m & A & B)]]; cbn [bind]; [left; exists (Output n :: ps); split; [reflexivity|constructor; [split; auto|exact F]]|right; split; [reflexivity|exists m; split; [right; exact A|exact B]]].
    - cbn [bind]. right. split; [reflexivity|]. exists n. split; [left; reflexivity|auto].
    - exfalso. destruct Kn; congruence.
  Qed.
  Lemma unknowns_ok : forall ns, (check_unknowns unks ns = Ok tt /\ forall n, In n ns -> sget unks n <> None) \/ (check_unknowns unks ns = Err KeyError /\ exists n, In n ns /\ sget unks n = None).
  Proof.
    induction ns as [|n ns IH]; [left; split; [reflexivity|intros n []]|]. cbn [check_unknowns]. destruct (sget unks n) as [b|] eqn:U; [|right; split; [reflexivity|exists n; split; [left; reflexivity|exact U]]].
    destruct IH as [[-> IH]|[-> (m & A & B)]]; [left; split; [reflexivity|intros m [<-|K]; [rewrite U; discriminate|apply IH; exact K]]|right; split; [reflexivity|exists m; split; [right; exact A|exact B]]].
  Qed.
  Lemma setup_cases : forall params unknowns,
      (exists ps, sub_setup dangling unks params unknowns = Ok ps /\ Forall2 (stands_for dangling unks) params ps /\ forall n, In n unknowns -> sget unks n <> None) \/
      (sub_setup dangling unks params unknowns = Err RuntimeError /\ exists n, In n params /\ sget dangling n = None /\ sget unks n = None) \/
      (sub_setup dangling unks params unknowns = Err TypeError /\ (forall n, In n params -> known n) /\ exists n, In n params /\ sget dangling n = None /\ sget unks n = Some false) \/
      (sub_setup dangling unks params unknowns = Err KeyError /\ (exists ps, Forall2 (stands_for dangling unks) params ps) /\ exists n, In n unknowns /\ sget unks n = None).
  Proof.
    intros params unknowns. unfold sub_setup. destruct (exists_ok params) as [[-> K]|[-> R]]; cbn [bind]; [|right; left; auto].
    destruct (places_ok params K) as [(ps & -> & F)|[-> R]]; cbn [bind]; [|right; right; left; auto].
    destruct (unknowns_ok unknowns) as [[-> U]|[-> R]]; cbn [bind]; [left; exists ps; auto|right; right; right; split; [reflexivity|split; [exists ps; exact F|exact R]]].
  Qed.
  Lemma stands_unique : forall ns ps qs, Forall2 (stands_for dangling unks) ns ps -> Forall2 (stands_for dangling unks) ns qs -> ps = qs.
  Proof.
    intros ns ps qs H. revert qs. induction H as [|n p ns ps H F IH]; intros qs K; inversion K as [|? q ? qs' K1 K2]; subst; [reflexivity|]. f_equal; [|apply IH; exact K2].
    destruct p as [l|u], q as [m|w]; cbn in H, K1; [congruence|destruct K1 as (_ & K1 & _); congruence|destruct H as (_ & H & _); congruence|]. destruct H as (-> & _), K1 as (-> & _). reflexivity.
  Qed.
  Lemma stands_in : forall ns ps n, Forall2 (stands_for dangling unks) ns ps -> In n ns -> exists pl, stands_for dangling unks n pl.
  Proof. intros ns ps n H. induction H as [|m p ns ps H F IH]; intros K; [destruct K|]. destruct K as [->|K]; [exists p; exact H|auto]. Qed.
End Setup.

(** ** a nested or flat run *)
Section Run.
  Context {V : Type} (vadd vsub : V -> V -> V) (vopp : V -> V).
  Hypothesis RE : restores vadd vsub vopp.
  Lemma solve_total : forall (P : subp V) s p, legal_model (b_root P) (b_conns P) -> all_once (b_root P) -> (forall c, In c (comps (b_root P)) -> total c) -> exists o, sub_solve vadd vsub vopp P s p = Ok o.
  Proof. intros P s p L A T. unfold sub_solve. destruct (run_total V vadd vsub vopp (b_root P) (b_conns P) (set_params P p s) L A T) as (s' & ->). eexists. reflexivity. Qed.
  Lemma sub_explicit : forall name pn un (P : subp V) s0, explicit (sub_comp vadd vsub vopp name pn un P s0).
  Proof. intros name pn un P s0 p u u'. reflexivity. Qed.
  Lemma flat_run : forall root flat conns name pn un (P : subp V) s0 s s' t t', let sub := sub_comp vadd vsub vopp name pn un P s0 in
      settable P -> runnable P -> length pn = length (b_params P) -> length un = length (b_unks P) -> flat_map outs (b_params P) = [] ->
      legal_model root conns -> parallel_independent conns root -> solvers_sweep root -> feed_forward root conns -> (forall c, In c (comps root) -> explicit c \/ indep c) ->
      In sub (comps root) -> foreign root P -> flattens root flat sub P ->
      legal_model flat (flat_conns pn un P conns) -> parallel_independent (flat_conns pn un P conns) flat -> solvers_sweep flat -> feed_forward flat (flat_conns pn un P conns) ->
      flat_inputs root conns sub P s s0 t ->
      run_model vadd vsub vopp root conns s = Ok s' -> run_model vadd vsub vopp flat (flat_conns pn un P conns) t = Ok t' ->
      (forall c, In c (comps root) -> c_name c <> name -> (forall v, In v (c_params c) -> pv t' v = pv s' v) /\ forall u, In u (c_unks c) -> uv t' u = uv s' u) /\
      (forall i x y, nth_error un i = Some x -> nth_error (b_unks P) i = Some y -> uv t' y = uv s' x).
  Proof.
    intros root flat conns name pn un P s0 s s' t t' sub SE RU LP LU NO LG PA SW FF EX SB FG FL LF PF SF FFF FI R1 R2.
    destruct (ff_run vadd vsub vopp RE _ _ _ _ LG PA SW FF R1) as [C S]. destruct (ff_run vadd vsub vopp RE _ _ _ _ LF PF SF FFF R2) as [C2 S2].
    pose proof (same_inputs_sym _ _ _ _ (run_same_inputs vadd vsub vopp RE _ _ _ _ LG PA SW R1)) as I1. pose proof (same_inputs_sym _ _ _ _ (run_same_inputs vadd vsub vopp RE _ _ _ _ LF PF SF R2)) as I2.
    destruct (inner_solution vadd vsub vopp RE name pn un P s0 SE RU LP s' (S sub SB)) as (si & SI & U). pose proof SI as (CI & SSI & H & OI).
    assert (SV : same_values flat (merged P s' si) t').
    { apply (solution_unique flat (flat_conns pn un P conns)); try assumption.
      - intros c K. apply FL in K. destruct K as [[K _]|K]; [apply EX; exact K|apply (ru_expl P RU); exact K].
      - apply (same_inputs_trans _ _ _ t); [|exact I2]. eapply (merged_inputs vadd vsub vopp root flat conns name pn un P s0); eassumption.
      - eapply (merged_consistent vadd vsub vopp root conns name pn un P s0); eassumption.
      - eapply (merged_solved vadd vsub vopp root flat name pn un P s0); eassumption. }
    destruct SV as [V1 V2]. destruct (merged_in P s' si) as [M1 M2]. destruct (merged_out root P FG s' si) as [X1 X2]. split.
    - intros c K N. assert (F : In c (comps flat)) by (apply FL; left; split; [exact K|exact N]). split; intros w W.
      + rewrite <- (V1 w) by (apply in_flat_map; eauto). apply X1. apply in_flat_map. eauto.
      + rewrite <- (V2 w) by (apply in_flat_map; eauto). apply X2. apply in_flat_map. eauto.
    - intros i x y E1 E2. assert (Y : In y (sys_unks (b_root P))) by (apply (se_unks P SE); eapply nth_error_In; exact E2). pose proof Y as Y'. apply in_flat_map in Y'. destruct Y' as (c & Kc & Yc).
      rewrite <- (V2 y) by (apply in_flat_map; exists c; split; [apply FL; right; exact Kc|exact Yc]). rewrite (M2 y Y). symmetry. eapply (nth_map_eq _ _ _ (uv s') (uv si)); eassumption.
  Qed.

  (** ** residuals *)
  Lemma apply_values : forall (P : subp V) s p u o, (forall r x, vsub x (vadd r x) = vopp r) -> sub_apply vadd vsub vopp P s p u = Ok o ->
      exists o1, sub_solve vadd vsub vopp P s p = Ok o1 /\ o_inner o = o_inner o1 /\ o_unks o = map vopp (o_resids o1) /\ o_resids o = map (fun w => vadd (rv (o_inner o1) w) (uv (o_inner o1) w)) (b_unks P).
  Proof.
    intros P s p u o A E. unfold sub_apply in E. destruct (sub_solve vadd vsub vopp P s p) as [o1|e] eqn:R; [|discriminate]. cbn [bind] in E. injection E as <-. exists o1. split; [reflexivity|]. split; [reflexivity|]. cbn [o_unks o_resids].
    unfold sub_solve in R. destruct (run_model vadd vsub vopp (b_root P) (b_conns P) (set_params P p s)) as [s'|e]; [|discriminate]. cbn [bind] in R. injection R as <-. cbn [o_unks o_resids o_inner].
    induction (b_unks P) as [|w l IH]; [split; reflexivity|]. destruct IH as [I1 I2]. cbn [map vzip combine] in *. split; [f_equal; [apply A|exact I1]|f_equal; exact I2].
  Qed.
  (** ** setting again what is there already *)
  Lemma set_again : forall (P : subp V) p s, holds P s p -> (forall v, pv (set_params P p s) v = pv s v) /\ (forall u, uv (set_params P p s) u = uv s u) /\ rv (set_params P p s) = rv s.
  Proof.
    intros P p s. rewrite set_params_sets. unfold holds. generalize (b_params P). intros pls H.
    assert (G : forall s1, (forall v, pv s1 v = pv s v) -> (forall u, uv s1 u = uv s u) -> rv s1 = rv s -> (forall v, pv (sets pls p s1) v = pv s v) /\ (forall u, uv (sets pls p s1) u = uv s u) /\ rv (sets pls p s1) = rv s); [|apply G; reflexivity].
    induction H as [|pl x pls p [H1 H2] H IH]; intros s1 A B C; [auto|]. change (sets (pl :: pls) (x :: p) s1) with (sets pls p (set_one pl x s1)). apply IH.
    - intros v. destruct pl as [l|u]; cbn [set_one pv]; [|apply A]. destruct (smem v l) eqn:E; [|apply A]. symmetry. apply H1. apply smem_in. exact E.
    - intros u. destruct pl as [l|w]; cbn [set_one uv]; [apply B|]. destruct (String.eqb_spec u w) as [->|]; [|apply B]. symmetry. apply H2. left. reflexivity.
    - destruct pl; exact C.
  Qed.
  Lemma solution_ext : forall (P : subp V) s0 p s t, (forall v, pv t v = pv s v) -> (forall u, uv t u = uv s u) -> solution P s0 p s -> solution P s0 p t.
  Proof.
    intros P s0 p s t A B (C & S & H & O1 & O2). split; [intros k K; rewrite A, B; apply C; exact K|]. split; [intros c K; apply (solved_ext2 c s); auto|]. split; [apply (holds_ext P s); auto|].
    split; [intros v K1 K2 K3; rewrite A; apply O1; assumption|intros c u K1 K2 K3 K4; rewrite B; apply (O2 c); assumption].
  Qed.
End Run.

(** C137: the dump of a system tree. *)
From Verif Require Import Base BaseFacts DmpModel DmpSpec.
Local Open Scope list_scope.
Local Open Scope nat_scope.

Section Ind.
  Variable P : sys -> Prop.
  Hypothesis Hc : forall k n, P (Comp k n).
  Hypothesis Hg : forall k n nl ln u c ss, (forall s, In s ss -> P s) -> P (Group k n nl ln u c ss).
  Fixpoint sys_ind' (s : sys) : P s :=
    match s with
    | Comp k n => Hc k n
    | Group k n nl ln u c ss => Hg k n nl ln u c ss ((fix all (l : list sys) : forall s, In s l -> P s :=
        match l return (forall s, In s l -> P s) with [] => fun s (J : False) => match J with end | x :: l => fun s (J : x = s \/ In s l) => match J with or_introl E => eq_ind x P (sys_ind' x) s E | or_intror J => all l s J end end) ss)
    end.
End Ind.

(** the loop over subsystems, and the outline *)
Fixpoint loop (verbose : bool) (nest : nat) (subs : list sys) : list string * res unit :=
  match subs with
  | [] => ([], Ok tt)
  | sub :: subs => match dump verbose nest sub with (out, Err e) => (out, Err e) | (out, Ok _) => let (more, r) := loop verbose nest subs in (out ++ more, r) end
  end.
Lemma dump_group : forall verbose nest k n nl ln u c ss, dump verbose nest (Group k n nl ln u c ss) =
  match (if verbose then verbose_lines c u else Ok tt) with Err e => ([(head_text nest k n ++ solvers_text nl ln)%string], Err e) | Ok _ => let (out, r) := loop verbose (nest + 3) ss in ((head_text nest k n ++ solvers_text nl ln)%string :: out, r) end.
Proof.
  intros verbose nest k n nl ln u c ss. cbn [dump]. destruct (if verbose then verbose_lines c u else Ok tt); [|reflexivity]. cbv zeta.
  match goal with |- (let (_, _) := ?f ss in _) = _ => assert (E : forall l, f l = loop verbose (nest + 3) l) by (induction l as [|x l IH]; [reflexivity|]; cbn; destruct (dump verbose (nest + 3) x) as [out [|]]; [rewrite IH|]; reflexivity); rewrite (E ss) end. reflexivity.
Qed.

Definition label (s : sys) : string := match s with Comp k n => head_text 0 k n | Group k n nl ln _ _ _ => (head_text 0 k n ++ solvers_text nl ln)%string end.
Definition subs_of (s : sys) : list sys := match s with Comp _ _ => [] | Group _ _ _ _ _ _ ss => ss end.
Fixpoint outline (nest : nat) (s : sys) : list string :=
  (blanks nest ++ label s)%string :: match s with Comp _ _ => [] | Group _ _ _ _ _ _ ss => flat_map (outline (nest + 3)) ss end.
Lemma sapp_assoc : forall a b c : string, ((a ++ b) ++ c)%string = (a ++ (b ++ c))%string.
Proof. induction a as [|x a IH]; intros b c; cbn; [reflexivity|]. rewrite IH. reflexivity. Qed.
Lemma head_blanks : forall nest k n, head_text nest k n = (blanks nest ++ head_text 0 k n)%string.
Proof. reflexivity. Qed.
Lemma loop_ok : forall verbose nest ss, (forall s, In s ss -> dump verbose nest s = (outline nest s, Ok tt)) -> loop verbose nest ss = (flat_map (outline nest) ss, Ok tt).
Proof. intros verbose nest. induction ss as [|s ss IH]; intros H; [reflexivity|]. cbn [loop flat_map]. rewrite (H s (or_introl eq_refl)), IH by (intros t I; apply H; right; exact I). reflexivity. Qed.

Lemma filter_two : forall (v : string) conns, (exists x y l, filter (fun c : string * string => String.eqb (snd c) v) conns = x :: y :: l) <-> exists p q a b c, conns = a ++ (p, v) :: b ++ (q, v) :: c.
Proof.
  intros v conns. split.
  - assert (One : forall conns x l, filter (fun c : string * string => String.eqb (snd c) v) conns = x :: l -> exists p a b, conns = a ++ (p, v) :: b /\ filter (fun c : string * string => String.eqb (snd c) v) b = l).
    { induction conns0 as [|[p w] conns0 IH]; intros x l H; [discriminate H|]. cbn in H. destruct (String.eqb_spec w v) as [->|_].
      - injection H as _ <-. exists p, [], conns0. split; reflexivity.
      - destruct (IH x l H) as (p' & a & b & -> & E). exists p', ((p, w) :: a), b. split; [reflexivity|exact E]. }
    intros (x & y & l & H). destruct (One conns x (y :: l) H) as (p & a & b & -> & E). destruct (One b y l E) as (q & b1 & b2 & -> & _). exists p, q, a, b1, b2. reflexivity.
  - intros (p & q & a & b & c & ->). rewrite filter_app. cbn [filter snd]. rewrite String.eqb_refl, filter_app. cbn [filter snd]. rewrite String.eqb_refl.
    destruct (filter _ a) as [|x [|y l]]; cbn [app]; destruct (filter _ b) as [|x' [|y' l']]; cbn [app]; do 3 eexists; reflexivity.
Qed.
Lemma verbose_iff : forall conns unks, (verbose_lines conns unks = Ok tt /\ ~ exists v p q a b c, In v unks /\ conns = a ++ (p, v) :: b ++ (q, v) :: c) \/ (verbose_lines conns unks = Err TypeError /\ exists v p q a b c, In v unks /\ conns = a ++ (p, v) :: b ++ (q, v) :: c).
Proof.
  intros conns unks. induction unks as [|v unks IH]; [left; split; [reflexivity|intros (v & p & q & a & b & c & [] & _)]|]. cbn [verbose_lines]. cbv zeta. pose proof (filter_two v conns) as F.
  assert (K : (exists p q a b c, conns = a ++ (p, v) :: b ++ (q, v) :: c) \/ ~ (exists p q a b c, conns = a ++ (p, v) :: b ++ (q, v) :: c)).
  { destruct (filter _ conns) as [|x [|y l]]; [right; intros Q; apply F in Q; destruct Q as (? & ? & ? & [=])|right; intros Q; apply F in Q; destruct Q as (? & ? & ? & [=])|left; apply F; do 3 eexists; reflexivity]. }
  destruct K as [K|K].
  - right. pose proof K as K'. apply F in K'. destruct K' as (x & y & l & ->). split; [reflexivity|]. destruct K as (p & q & a & b & c & E). exists v, p, q, a, b, c. split; [left; reflexivity|exact E].
  - assert (R : match filter (fun c : string * string => String.eqb (snd c) v) conns with _ :: _ :: _ => Err TypeError | _ => verbose_lines conns unks end = verbose_lines conns unks) by (destruct (filter _ conns) as [|x [|y l]]; [reflexivity|reflexivity|destruct K; apply F; do 3 eexists; reflexivity]). rewrite R.
    destruct IH as [(E & N)|(E & w & p & q & a & b & c & J & Q)]; [left|right]; (split; [exact E|]).
    + intros (w & p & q & a & b & c & [<-|J] & Q); [apply K; exists p, q, a, b, c; exact Q|apply N; exists w, p, q, a, b, c; split; assumption].
    + exists w, p, q, a, b, c. split; [right; exact J|exact Q].
Qed.

(** Without verbose every system is written, groups before their subsystems, each level three
    blanks further in. *)
Lemma dump_outline : forall s nest, dump false nest s = (outline nest s, Ok tt).
Proof.
  induction s as [k n|k n nl ln u c ss IH] using sys_ind'; intros nest; [reflexivity|]. rewrite dump_group. rewrite (loop_ok false (nest + 3) ss) by (intros t I; apply IH; exact I). cbn [outline label]. rewrite head_blanks, sapp_assoc. reflexivity.
Qed.
Lemma label_core : forall s, label s = String " " (core s).
Proof. intros [k n|k n nl ln u c ss]; unfold label, core, head_text; cbn; [reflexivity|]. rewrite !sapp_assoc. cbn. rewrite !sapp_assoc. reflexivity. Qed.
Lemma spaces_blanks : forall n, spaces n = blanks n.
Proof. induction n as [|n IH]; [reflexivity|]. cbn. rewrite IH. reflexivity. Qed.
Theorem C137_lines : forall t nest d s, inside d s t -> In (spaces (nest + 3 * d) ++ String " " (core s))%string (fst (dump false nest t)) /\ snd (dump false nest t) = Ok tt.
Proof.
  intros t nest d s H. rewrite <- label_core, spaces_blanks, dump_outline. split; [|reflexivity]. cbn [fst]. revert nest. induction H as [t|d s t k n nl ln u c ss I H IH]; intros nest.
  - replace (nest + 3 * 0) with nest by lia. destruct t; left; reflexivity.
  - cbn [outline]. right. apply in_flat_map. exists t. split; [exact I|]. specialize (IH (nest + 3)). replace (nest + 3 * S d) with (nest + 3 + 3 * d) by lia. exact IH.
Qed.

(** reading a line *)
Lemma split_first : forall c a b x y, lacks c a -> lacks c b -> (a ++ String c x)%string = (b ++ String c y)%string -> a = b /\ x = y.
Proof.
  intros c. induction a as [|p a IH]; intros [|q b] x y Ha Hb E; cbn in E.
  - injection E as ->. split; reflexivity.
  - injection E as <- _. destruct Hb as (N & _). contradiction.
  - injection E as -> _. destruct Ha as (N & _). contradiction.
  - injection E as -> E. destruct Ha as (_ & Ha), Hb as (_ & Hb). destruct (IH b x y Ha Hb E) as (-> & ->). split; reflexivity.
Qed.
Definition starts (l : string) : Prop := exists a r, l = String a r /\ a <> " "%char.
Lemma blanks_inj : forall m n l l', starts l -> starts l' -> (blanks m ++ l)%string = (blanks n ++ l')%string -> m = n /\ l = l'.
Proof.
  induction m as [|m IH]; intros [|n] l l' Hl Hl' E; cbn in E; [split; [reflexivity|exact E]| | |].
  - destruct Hl as (a & r & -> & N). injection E as -> _. contradiction.
  - destruct Hl' as (a & r & -> & N). injection E as <- _. contradiction.
  - injection E as E. destruct (IH n l l' Hl Hl' E) as (-> & ->). split; reflexivity.
Qed.
Lemma core_starts : forall s, named s -> starts (core s).
Proof. intros s H. destruct H as [k n (N & L & _)|k n nl ln u c ss (N & L & _) _]; (destruct k as [|a k]; [contradiction|]; destruct L as (L & _); eexists; eexists; split; [reflexivity|exact L]). Qed.
Lemma line_inj : forall m n s t, named s -> named t -> (blanks m ++ label s)%string = (blanks n ++ label t)%string -> m = n /\ core s = core t.
Proof.
  intros m n s t Hs Ht E. rewrite !label_core in E. assert (B : forall m l, (blanks m ++ String " " l)%string = (blanks (S m) ++ l)%string) by (clear; induction m as [|m IH]; intros l; [reflexivity|]; cbn; rewrite IH; reflexivity). rewrite !B in E. destruct (blanks_inj _ _ _ _ (core_starts s Hs) (core_starts t Ht) E) as ([= ->] & ->). split; reflexivity.
Qed.
Lemma core_inj : forall s t, named s -> named t -> core s = core t -> match s, t with Comp k n, Comp k' n' => k = k' /\ n = n' | Group k n _ _ _ _ _, Group k' n' _ _ _ _ _ => k = k' /\ n = n' | _, _ => False end.
Proof.
  intros s t Hs Ht E. assert (G : forall k n x k' n' y, good_names k n -> good_names k' n' -> (k ++ String " " (String "'" (n ++ String "'" x)))%string = (k' ++ String " " (String "'" (n' ++ String "'" y)))%string -> k = k' /\ n = n' /\ x = y).
  { intros k n x k' n' y (_ & K & N) (_ & K' & N') Q. apply split_first in Q; [|exact K|exact K']. destruct Q as (-> & Q). injection Q as Q. apply split_first in Q; [|exact N|exact N']. destruct Q as (-> & ->). split; [reflexivity|split; reflexivity]. }
  destruct Hs as [k n A|k n nl ln u c ss A _], Ht as [k' n' B|k' n' nl' ln' u' c' ss' B _]; cbn [core] in E; destruct (G _ _ _ _ _ _ A B E) as (-> & -> & X); try discriminate X; split; reflexivity.
Qed.
(** the rest of an output, after a system at [nest], goes on at [nest] or further out *)
Definition low (nest : nat) (r : list string) : Prop := match r with [] => True | l :: _ => exists m s, m <= nest /\ named s /\ l = (blanks m ++ label s)%string end.
Lemma low_flat : forall nest ss r, (forall s, In s ss -> named s) -> low nest r -> low nest (flat_map (outline nest) ss ++ r).
Proof. intros nest [|s ss] r H L; [exact L|]. cbn. destruct s; cbn; eexists; eexists; (split; [|split; [apply H; left; reflexivity|reflexivity]]); lia. Qed.
Lemma low_weak : forall nest r, low nest r -> low (nest + 3) r.
Proof. intros nest [|l r] H; [exact I|]. destruct H as (m & s & L & N & E). exists m, s. split; [lia|split; assumption]. Qed.
Lemma not_low : forall nest s ss r r', named s -> low nest r -> r <> outline (nest + 3) s ++ flat_map (outline (nest + 3)) ss ++ r'.
Proof.
  intros nest s ss r r' Hs L E. destruct r as [|l r]; [destruct s; discriminate E|]. destruct L as (m & t & Lm & Ht & El). assert (El' : l = (blanks (nest + 3) ++ label s)%string) by (destruct s; cbn in E; injection E as -> _; reflexivity). rewrite El in El'. apply line_inj in El'; [|exact Ht|exact Hs]. lia.
Qed.
Lemma outline_inj : forall s t nest r r', named s -> named t -> low nest r -> low nest r' -> outline nest s ++ r = outline nest t ++ r' -> alike s t /\ r = r'.
Proof.
  induction s as [k n|k n nl ln u c ss IH] using sys_ind'; intros t nest r r' Hs Ht Lr Lr' E.
  - assert (Q := f_equal (hd EmptyString) E). destruct t as [k' n'|k' n' nl' ln' u' c' ss']; cbn [outline app hd] in Q; apply line_inj in Q; try assumption; destruct Q as (_ & Q); apply core_inj in Q; try assumption; [|destruct Q]. destruct Q as (-> & ->). injection E as E. split; [constructor|exact E].
  - assert (Q := f_equal (hd EmptyString) E). destruct t as [k' n'|k' n' nl' ln' u' c' ss']; cbn [outline app hd] in Q; apply line_inj in Q; try assumption; destruct Q as (_ & Q); apply core_inj in Q; try assumption; [destruct Q|]. destruct Q as (<- & <-).
    assert (T := f_equal (@tl string) E). cbn [outline app tl] in T. inversion Hs as [|? ? ? ? ? ? ? _ Ns]; subst. inversion Ht as [|? ? ? ? ? ? ? _ Nt]; subst. clear E Hs Ht.
    assert (K : Forall2 alike ss ss' /\ r = r'); [|destruct K as (K & ->); split; [constructor; exact K|reflexivity]].
    revert ss' Nt T. induction ss as [|s ss IHs]; intros [|s' ss'] Nt T; cbn [flat_map app] in T.
    + split; [constructor|exact T].
    + exfalso. rewrite <- app_assoc in T. exact (not_low nest s' ss' r r' (Nt s' (or_introl eq_refl)) Lr T).
    + exfalso. rewrite <- app_assoc in T. exact (not_low nest s ss r' r (Ns s (or_introl eq_refl)) Lr' (eq_sym T)).
    + rewrite <- !app_assoc in T. assert (Ns' : forall x, In x ss -> named x) by (intros x I; apply Ns; right; exact I). assert (Nt' : forall x, In x ss' -> named x) by (intros x I; apply Nt; right; exact I).
      destruct (IH s (or_introl eq_refl) s' (nest + 3) _ _ (Ns s (or_introl eq_refl)) (Nt s' (or_introl eq_refl)) (low_flat _ _ _ Ns' (low_weak _ _ Lr)) (low_flat _ _ _ Nt' (low_weak _ _ Lr')) T) as (A & T').
      destruct (IHs (fun x I => IH x (or_intror I)) Ns' ss' Nt' T') as (F & ->). split; [constructor; assumption|reflexivity].
Qed.
(** The dump shows the tree: trees with the same dump have the same systems in the same places. *)
Theorem C137_shows_tree : forall s t nest, named s -> named t -> fst (dump false nest s) = fst (dump false nest t) -> alike s t.
Proof. intros s t nest Hs Ht E. rewrite !dump_outline in E. cbn [fst] in E. apply (outline_inj s t nest [] [] Hs Ht I I). rewrite !app_nil_r. exact E. Qed.

(** With verbose the same lines, if no group has an unknown with two params; otherwise TypeError. *)
Lemma loop_err : forall verbose nest ss s e, In s ss -> snd (dump verbose nest s) = Err e -> exists e', snd (loop verbose nest ss) = Err e'.
Proof.
  intros verbose nest ss s e. induction ss as [|x ss IH]; [intros []|]. intros [<-|I] H; cbn [loop].
  - destruct (dump verbose nest x) as [out r]. cbn in H. subst r. exists e. reflexivity.
  - destruct (IH I H) as (e' & E). destruct (dump verbose nest x) as [out [u|e2]]; [|exists e2; reflexivity]. destruct (loop verbose nest ss) as [more r]. cbn in E |- *. exists e'. exact E.
Qed.
Lemma only_type : forall s nest e, snd (dump true nest s) = Err e -> e = TypeError.
Proof.
  induction s as [k n|k n nl ln u c ss IH] using sys_ind'; intros nest e H; [discriminate H|]. rewrite dump_group in H. destruct (verbose_iff c u) as [(V & _)|(V & _)]; rewrite V in H; [|injection H as <-; reflexivity].
  assert (L : forall l, (forall s, In s l -> In s ss) -> forall e, snd (loop true (nest + 3) l) = Err e -> e = TypeError).
  { induction l as [|x l IHl]; intros Sub e0 H0; [discriminate H0|]. cbn [loop] in H0. pose proof (IH x (Sub x (or_introl eq_refl)) (nest + 3)) as Hx. destruct (dump true (nest + 3) x) as [out [w|e2]]; cbn [snd] in Hx, H0; [|injection H0 as <-; apply Hx; reflexivity]. specialize (IHl (fun s I => Sub s (or_intror I))). destruct (loop true (nest + 3) l) as [more r]. exact (IHl e0 H0). }
  apply (L ss (fun s I => I)). destruct (loop true (nest + 3) ss) as [out r]. exact H.
Qed.
Theorem C137_verbose : forall t nest, (forall d s, inside d s t -> ~ shared s) -> dump true nest t = dump false nest t.
Proof.
  intros t nest H. rewrite dump_outline. revert nest. induction t as [k n|k n nl ln u c ss IH] using sys_ind'; intros nest; [reflexivity|]. rewrite dump_group. destruct (verbose_iff c u) as [(V & _)|(_ & S0)]; [|destruct (H 0 _ (i_self _) S0)]. rewrite V.
  rewrite (loop_ok true (nest + 3) ss) by (intros s I; apply (IH s I); intros d x Hx; apply (H (S d)); econstructor; [exact I|exact Hx]). cbn [outline label]. rewrite head_blanks, sapp_assoc. reflexivity.
Qed.
Theorem C137_verbose_refuted : forall t nest d s, inside d s t -> shared s -> snd (dump true nest t) = Err TypeError.
Proof.
  intros t nest d s H S0. cut (exists e, snd (dump true nest t) = Err e); [intros (e & E); rewrite (only_type _ _ _ E) in E; exact E|]. revert nest S0. induction H as [t|d s t k n nl ln u c ss I H IH]; intros nest S0.
  - destruct t as [k n|k n nl ln u c ss]; [destruct S0|]. rewrite dump_group. destruct (verbose_iff c u) as [(_ & N)|(V & _)]; [destruct (N S0)|]. rewrite V. exists TypeError. reflexivity.
  - rewrite dump_group. destruct (verbose_iff c u) as [(V & _)|(V & _)]; rewrite V; [|exists TypeError; reflexivity]. destruct (IH (nest + 3) S0) as (e & E). destruct (loop_err true (nest + 3) ss t e I E) as (e' & E'). exists e'. destruct (loop true (nest + 3) ss) as [out r]. exact E'.
Qed.
Print Assumptions C137_lines.
Print Assumptions C137_shows_tree.
Print Assumptions C137_verbose.
Print Assumptions C137_verbose_refuted.

(** a group in a group, and an output with two params *)
Local Open Scope string_scope.
Local Open Scope list_scope.
Definition dmp_tree (conns : list (string * string)) : sys := Group "Group" "" "RunOnce" "LinearGaussSeidel" ["p.x"; "g.c.y"] conns [Comp "IndepVarComp" "p"; Group "Group" "g" "RunOnce" "ScipyGMRES" [] [] [Comp "Paraboloid" "c"]].
Example C137_ex : named (dmp_tree []) /\ fst (dump false 0 (dmp_tree [])) = [" Group ''  NL: RunOnce  LN: LinearGaussSeidel"; "    IndepVarComp 'p'"; "    Group 'g'  NL: RunOnce  LN: ScipyGMRES"; "       Paraboloid 'c'"]
  /\ inside 2 (Comp "Paraboloid" "c") (dmp_tree []) /\ snd (dump true 0 (dmp_tree [("g.c.x", "p.x")])) = Ok tt
  /\ shared (dmp_tree [("g.c.x", "p.x"); ("g.c.z", "p.x")]) /\ snd (dump true 0 (dmp_tree [("g.c.x", "p.x"); ("g.c.z", "p.x")])) = Err TypeError.
Proof.
  split; [|split; [reflexivity|split; [|split; [reflexivity|split; [|reflexivity]]]]].
  - unfold dmp_tree. assert (G : forall k n, k <> "" -> lacks " " k -> lacks "'" n -> good_names k n) by (intros; split; [assumption|split; assumption]).
    constructor; [apply G; cbn; repeat split; discriminate|]. intros s [<-|[<-|[]]]; constructor; [apply G; cbn; repeat split; discriminate|apply G; cbn; repeat split; discriminate|]. intros s [<-|[]]. constructor. apply G; cbn; repeat split; discriminate.
  - eapply i_sub; [right; left; reflexivity|]. eapply i_sub; [left; reflexivity|]. constructor.
  - exists "p.x", "g.c.x", "g.c.z", [], [], []. split; [left; reflexivity|reflexivity].
Qed.

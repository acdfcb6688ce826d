(** C122: a floating point error in a stack of solvers names the variables once. *)
From Verif Require Import Base BaseFacts ExprModel LcnModel LcnProofs FpeModel FpeSpec.
Local Open Scope list_scope.

(** * The lists *)
Lemma forallb_false : forall b, forallb (fun x => x) b = false <-> In false b.
Proof.
  induction b as [|x b IH]; cbn; [split; [discriminate|contradiction]|]. destruct x; cbn; [rewrite IH; split; [right; assumption|intros [E|E]; [discriminate|exact E]]|]. split; [left; reflexivity|reflexivity].
Qed.
Theorem C122_listed : forall l, arrays l -> exists r, listed l r /\ nonfinite l = Ok r.
Proof.
  induction l as [|[n pbo v] l IH]; intros A; [exists []; split; [constructor|reflexivity]|]. destruct IH as (r & H & E); [intros w Hw; apply A; right; exact Hw|]. cbn [nonfinite v_pbo v_val v_name]. destruct pbo; [exists r; split; [constructor; exact H|exact E]|].
  destruct (A _ (or_introl eq_refl) eq_refl) as (b & Eb). cbn in Eb. subst v. rewrite E. cbn [bind]. destruct (forallb (fun x => x) b) eqn:F; cbn [negb].
  - exists r. split; [|reflexivity]. constructor; [|exact H]. rewrite forallb_forall in F. exact F.
  - exists (n :: r). split; [|reflexivity]. constructor; [|exact H]. apply forallb_false. exact F.
Qed.
Print Assumptions C122_listed.
(** the specification determines the lists: the names of all the numbers that are not finite *)
Theorem C122_names : forall l r, listed l r -> forall n, In n r <-> exists v b, In v l /\ v_name v = n /\ v_pbo v = false /\ v_val v = Flat b /\ In false b.
Proof.
  induction 1 as [|n b l r B H IH|n b l r B H IH|n v l r H IH]; intros n'; cbn [In].
  - split; [contradiction|intros (v & b & [] & _)].
  - rewrite IH. split.
    + intros [->|(v & b' & I & R)]; [exists (mkVar n' false (Flat b)), b; repeat split; [left; reflexivity|exact B]|exists v, b'; split; [right; exact I|exact R]].
    + intros (v & b' & [<-|I] & R); [left; exact (proj1 R)|right; exists v, b'; split; assumption].
  - rewrite IH. split; [intros (v & b' & I & R); exists v, b'; split; [right; exact I|exact R]|]. intros (v & b' & [<-|I] & R); [|exists v, b'; split; assumption]. destruct R as (_ & _ & E & F). cbn in E. injection E as ->. specialize (B _ F). discriminate.
  - rewrite IH. split; [intros (w & b' & I & R); exists w, b'; split; [right; exact I|exact R]|]. intros (w & b' & [<-|I] & R); [|exists w, b'; split; assumption]. destruct R as (_ & E & _). discriminate.
Qed.
Print Assumptions C122_names.

(** * The message *)
Lemma commas_line : forall n r, commas (n :: r) = t_ "'" ++ n ++ flat_map (fun x => t_ "', '" ++ x) r ++ t_ "'".
Proof.
  intros n r. revert n. induction r as [|a r IH]; intros n; [reflexivity|]. change (commas (n :: a :: r)) with (quote n ++ t_ ", " ++ commas (a :: r)). rewrite IH. unfold quote. cbn [flat_map]. rewrite <- !app_assoc. reflexivity.
Qed.
Lemma piece_line : forall w l, piece (t_ w) l = line w l.
Proof.
  intros w [|n r]; [reflexivity|]. unfold piece, line, repr. rewrite commas_line. unfold newline. cbn [app]. f_equal. rewrite <- !app_assoc. reflexivity.
Qed.
Lemma report_message : forall g m, all_arrays g -> exists u r p, listed (g_unknowns g) u /\ listed (g_resids g) r /\ listed (g_params g) p /\ report g m = Ok (message m u r p).
Proof.
  intros g m (U & R & P). destruct (C122_listed _ U) as (u & Lu & Eu). destruct (C122_listed _ R) as (r & Lr & Er). destruct (C122_listed _ P) as (p & Lp & Ep). exists u, r, p. repeat (split; [assumption|]). unfold report. rewrite Eu. cbn [bind]. rewrite Er. cbn [bind]. rewrite Ep. cbn [bind]. unfold message. rewrite !piece_line. reflexivity.
Qed.

(** the message tells what the lists are *)
Lemma upto_quote : forall a b x y, unquoted a -> unquoted b -> a ++ "'"%char :: x = b ++ "'"%char :: y -> a = b /\ x = y.
Proof.
  induction a as [|c a IH]; intros [|d b] x y A B E; cbn in E.
  - injection E as E. split; [reflexivity|exact E].
  - injection E as <- _. exfalso. apply B. left. reflexivity.
  - injection E as -> _. exfalso. apply A. left. reflexivity.
  - injection E as <- E. destruct (IH b x y) as [-> ->]; [intros H; apply A; right; exact H|intros H; apply B; right; exact H|exact E|split; reflexivity].
Qed.
Lemma tail_inj : forall r r' x x', Forall unquoted r -> Forall unquoted r' ->
  forall n n', unquoted n -> unquoted n' -> n ++ flat_map (fun x => t_ "', '" ++ x) r ++ t_ "']" ++ x = n' ++ flat_map (fun x => t_ "', '" ++ x) r' ++ t_ "']" ++ x' -> n :: r = n' :: r' /\ x = x'.
Proof.
  induction r as [|a r IH]; intros [|a' r'] x x' F F' n n' N N' E; cbn [flat_map] in E; rewrite ?app_nil_l, <- ?app_assoc in E.
  - destruct (upto_quote _ _ _ _ N N' E) as [-> E']. injection E' as E'. split; [reflexivity|exact E'].
  - destruct (upto_quote _ _ _ _ N N' E) as [_ E']. discriminate E'.
  - destruct (upto_quote _ _ _ _ N N' E) as [_ E']. discriminate E'.
  - destruct (upto_quote _ _ _ _ N N' E) as [-> E']. injection E' as E'. inversion F; inversion F'; subst. destruct (IH r' x x' H2 H6 a a' H1 H5) as [E1 ->]; [exact E'|]. rewrite E1. split; reflexivity.
Qed.
Definition head (w : string) : txt := "010"%char :: t_ "The following " ++ t_ w ++ t_ " are nonfinite: ['".
Lemma line_eq : forall w n r, line w (n :: r) = head w ++ n ++ flat_map (fun x => t_ "', '" ++ x) r ++ t_ "']".
Proof. intros w n r. unfold line, head. cbn [app]. f_equal. rewrite <- !app_assoc. reflexivity. Qed.
Lemma line_inj : forall w l l' x x', Forall unquoted l -> Forall unquoted l' -> l <> [] -> l' <> [] -> line w l ++ x = line w l' ++ x' -> l = l' /\ x = x'.
Proof.
  intros w [|n r] [|n' r'] x x' F F' N N' E; [congruence|congruence|congruence|]. rewrite !line_eq, <- !app_assoc in E. apply app_inv_head in E. inversion F; inversion F'; subst. apply (tail_inj r r' x x' H2 H6 n n' H1 H5). exact E.
Qed.
Theorem C122_readable : forall m u r p u' r' p', Forall unquoted (u ++ r ++ p) -> Forall unquoted (u' ++ r' ++ p') ->
  message m u r p = message m u' r' p' -> u = u' /\ r = r' /\ p = p'.
Proof.
  intros m u r p u' r' p' F F' E. unfold message in E. apply app_inv_head in E. apply Forall_app in F. destruct F as [Fu F]. apply Forall_app in F. destruct F as [Fr Fp]. apply Forall_app in F'. destruct F' as [Fu' F']. apply Forall_app in F'. destruct F' as [Fr' Fp'].
  assert (D : u = u' /\ line "resids" r ++ line "params" p = line "resids" r' ++ line "params" p').
  { destruct u as [|a u], u' as [|a' u']; [split; [reflexivity|exact E]| | |apply line_inj in E; [exact E|exact Fu|exact Fu'|discriminate|discriminate]]; exfalso; [destruct r as [|b r], p as [|c p]|destruct r' as [|b r'], p' as [|c p']]; discriminate E. }
  destruct D as [-> E2]. split; [reflexivity|].
  assert (D : r = r' /\ line "params" p = line "params" p').
  { destruct r as [|a r], r' as [|a' r']; [split; [reflexivity|exact E2]| | |apply line_inj in E2; [exact E2|exact Fr|exact Fr'|discriminate|discriminate]]; exfalso; [destruct p as [|c p]|destruct p' as [|c p']]; discriminate E2. }
  destruct D as [-> E3]. split; [reflexivity|]. destruct p as [|a p], p' as [|a' p']; [reflexivity|discriminate|discriminate|]. apply (line_inj "params" _ _ [] []); [exact Fp|exact Fp'|discriminate|discriminate|]. rewrite !app_nil_r. exact E3.
Qed.
Print Assumptions C122_readable.

(** * The stack *)
Section Stack.
  Context {S : Type}.
  Definition note (g : vectors) (e : exn) : exn :=
    match e with Fpe m false => match report g m with Ok m' => Fpe m' true | Err x => Other x end | _ => e end.
  Lemma note_once : forall g g' e, note g (note g' e) = note g' e.
  Proof. intros g g' [m [|]|x]; [reflexivity| |reflexivity]. cbn. destruct (report g' m); reflexivity. Qed.
  Fixpoint seq (l : list (step S)) : code S := match l with [] => fun s => (s, None) | a :: l => andthen (take a) (seq l) end.
  Lemma solve_eq : forall view steps s, solve (Solver view steps) s = let (s', e) := seq steps s in (s', option_map (note (view s')) e).
  Proof.
    intros view steps s. change (solve (Solver view steps) s) with (wrap view (seq steps) s). unfold wrap. destruct (seq steps s) as [s' [[m [|]|x]|]]; try reflexivity. cbn. destruct (report (view s') m); reflexivity.
  Qed.
  Theorem C122_total : forall x s, exists o : outcome S, runs x s o.
  Proof.
    fix IH 1. intros [view steps] s. cut (exists o, body view steps s o); [intros (o & H); exists o; constructor; exact H|]. revert s. induction steps as [|a l IHl]; intros s; [exists (Well s); constructor|]. destruct a as [a|x].
    - destruct (a s) as [s' [e|]] eqn:E; [exists (Fails s' e view); eapply b_raise; exact E|]. destruct (IHl s') as (o & H). exists o. eapply b_act; [exact E|exact H].
    - destruct (IH x s) as (o & H). destruct o as [s'|s' e v]; [destruct (IHl s') as (o & H'); exists o; eapply b_sub; [exact H|exact H']|exists (Fails s' e v); apply b_fail; exact H].
  Qed.
  Scheme runs_mut := Induction for runs Sort Prop with body_mut := Induction for body Sort Prop.
  Lemma solve_runs : forall x s (o : outcome S), runs x s o -> solve x s = match o with Well s' => (s', None) | Fails s' e v => (s', Some (note (v s') e)) end.
  Proof.
    apply (runs_mut S (fun x s o _ => solve x s = match o with Well s' => (s', None) | Fails s' e v => (s', Some (note (v s') e)) end)
      (fun view l s o _ => match o with Well s' => seq l s = (s', None) | Fails s' e v => exists e', seq l s = (s', Some e') /\ note (view s') e' = note (v s') e end)).
    - intros view steps s o _ H. rewrite solve_eq. destruct o as [s'|s' e v]; [rewrite H; reflexivity|]. destruct H as (e' & -> & H). cbn. rewrite H. reflexivity.
    - reflexivity.
    - intros view a l s s' o E _ H. destruct o as [s2|s2 e v]; cbn [seq]; unfold andthen; cbn [take]; rewrite E; exact H.
    - intros view a l s s' e E. exists e. split; [|reflexivity]. cbn [seq]. unfold andthen. cbn [take]. rewrite E. reflexivity.
    - intros view x l s s' o _ E _ H. destruct o as [s2|s2 e v]; cbn [seq]; unfold andthen; change (take (Sub x)) with (solve x); rewrite E; exact H.
    - intros view x l s s' e v _ E. exists (note (v s') e). split; [cbn [seq]; unfold andthen; change (take (Sub x)) with (solve x); rewrite E; reflexivity|]. apply note_once.
  Qed.
  (** Runs that end well, and other exceptions, are left alone. *)
  Theorem C122_others : forall x s (o : outcome S), runs x s o ->
    match o with
    | Well s' => solve x s = (s', None)
    | Fails s' (Fpe m false) v => True
    | Fails s' e v => solve x s = (s', Some e)
    end.
  Proof. intros x s o H. apply solve_runs in H. destruct o as [s'|s' [m [|]|e] v]; [exact H|exact H|exact I|exact H]. Qed.
  (** A floating point error of an action comes out of the whole stack, of any depth, with the
      variables of the solver of the action at that moment, once. *)
  Theorem C122_stack : forall (x : solver S) s s' m v, runs x s (Fails s' (Fpe m false) v) -> all_arrays (v s') ->
    exists u r p, listed (g_unknowns (v s')) u /\ listed (g_resids (v s')) r /\ listed (g_params (v s')) p
    /\ solve x s = (s', Some (Fpe (message m u r p) true)).
  Proof.
    intros x s s' m v H A. apply solve_runs in H. destruct (report_message _ m A) as (u & r & p & U & R & P & E). exists u, r, p. repeat (split; [assumption|]). rewrite H. cbn [note]. rewrite E. reflexivity.
  Qed.
  (** A remote param that is a float, finite or not, turns the error into a TypeError. *)
  Theorem C122_remote_refuted : forall (x : solver S) s s' m v n b l l', runs x s (Fails s' (Fpe m false) v) ->
    arrays (g_unknowns (v s')) -> arrays (g_resids (v s')) -> arrays l -> g_params (v s') = l ++ mkVar n false (Scalar b) :: l' ->
    solve x s = (s', Some (Other TypeError)).
  Proof.
    intros x s s' m v n b l l' H U R A E. apply solve_runs in H. rewrite H. cbn [note]. destruct (C122_listed _ U) as (u & _ & Eu). destruct (C122_listed _ R) as (r & _ & Er). unfold report. rewrite Eu. cbn [bind]. rewrite Er. cbn [bind]. rewrite E.
    assert (N : nonfinite (l ++ mkVar n false (Scalar b) :: l') = Err TypeError).
    { clear E. induction l as [|[k pbo w] l IH]; [reflexivity|]. specialize (IH (fun y Hy => A y (or_intror Hy))). cbn [app nonfinite v_pbo v_val]. destruct pbo; [exact IH|]. destruct (A _ (or_introl eq_refl) eq_refl) as (c & Ec). cbn in Ec. subst w. rewrite IH. reflexivity. }
    rewrite N. reflexivity.
  Qed.
End Stack.
Print Assumptions C122_total.
Print Assumptions C122_others.
Print Assumptions C122_stack.
Print Assumptions C122_remote_refuted.

(** the test of the repository: a group in a group, with the error in the inner one *)
Definition fpe_in : vectors := mkVecs [mkVar (t_ "comp1.in") false (Flat [false]); mkVar (t_ "comp2.in") false (Flat [true])]
  [mkVar (t_ "comp1.out") false (Flat [false]); mkVar (t_ "comp2.out") false (Flat [true; false]); mkVar (t_ "file") true (Scalar true)] [mkVar (t_ "comp1.out") false (Flat [false])].
Definition fpe_out : vectors := mkVecs [] [mkVar (t_ "sub.comp1.out") false (Flat [false])] [].
Local Open Scope nat_scope.
Definition fpe_stack : solver nat := Solver (fun _ => fpe_out) [Act (fun s => (s + 1, None)); Sub (Solver (fun _ => fpe_in) [Act (fun s => (s + 1, None)); Act (fun s => (s, Some (Fpe (t_ "invalid value") false)))]); Act (fun s => (0, None))].
Example C122_ex : solve fpe_stack 0 = (2, Some (Fpe (t_ "invalid value" ++ newline ++ t_ "The following unknowns are nonfinite: ['comp1.out', 'comp2.out']" ++ newline ++ t_ "The following resids are nonfinite: ['comp1.out']" ++ newline ++ t_ "The following params are nonfinite: ['comp1.in']") true)).
Proof. vm_compute. reflexivity. Qed.
Example C122_ex_runs : runs fpe_stack 0 (Fails 2 (Fpe (t_ "invalid value") false) (fun _ => fpe_in)) /\ all_arrays fpe_in.
Proof.
  split.
  - constructor. eapply b_act; [reflexivity|]. apply b_fail. constructor. eapply b_act; [reflexivity|]. apply b_raise. reflexivity.
  - repeat split; intros v H P; cbn in H; repeat destruct H as [<-|H]; try contradiction; try discriminate P; eexists; reflexivity.
Qed.

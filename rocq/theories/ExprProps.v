(** C52: names of an expression component refer to the variables they name. *)
From Verif Require Import Base BaseFacts OrderModel FileModel FileSpec FileProofs ExprModel ExprSpec ExprProofs.
From Coq Require Import Permutation.
Local Open Scope string_scope.
Local Open Scope nat_scope.
Local Open Scope list_scope.

Lemma names_ok : forall known exprs vars, Permutation vars (parse_for_vars known exprs) ->
    NoDup vars /\ (forall n, In n vars -> proper n /\ occurs n (joined exprs)) /\
    exists k fc, (forall n, In n vars -> chosen (joined exprs) n (fc n)) /\ forall fuel, k <= fuel -> names_of fuel exprs vars = Some (fold_left (fun d n => dset teqb d (fc n) n) vars [], fold_left (fun d n => dset teqb d n (fc n)) vars []).
Proof.
  intros known exprs vars PV. assert (ND : NoDup vars) by (apply (Permutation_NoDup (Permutation_sym PV)), NoDup_nodup). split; [exact ND|]. split; [intros n I; destruct (parse_ok known exprs n (Permutation_in _ PV I)) as (A & B & _); auto|].
  destruct (names_loop_ok (joined exprs) vars) as (k & fc & C & E); [intros n _; apply has_colon_in|exact ND|]. exists k, fc. split; [exact C|]. intros fuel L. apply E. exact L.
Qed.
Lemma cols_in : forall vars cols, Permutation cols (filter has_colon vars) -> forall n, In n cols <-> In n vars /\ has_colon n = true.
Proof. intros vars cols P n. rewrite <- filter_In. split; apply Permutation_in; [exact P|apply Permutation_sym; exact P]. Qed.

(** ExecComp.__init__ always finds replacements for the names with colons: for enough
    steps of its search it ends, every variable has a replacement without colons, and a
    replacement does not occur in the expressions. *)
Theorem expr_names : forall known exprs vars, Permutation vars (parse_for_vars known exprs) ->
    exists k to from, (forall fuel, k <= fuel -> names_of fuel exprs vars = Some (to, from)) /\
      forall n, In n vars -> exists n', dget teqb from n = Some n' /\ has_colon n' = false /\ n' <> [] /\ (if has_colon n then ~ occurs n' (joined exprs) else n' = n).
Proof.
  intros known exprs vars PV. destruct (names_ok known exprs vars PV) as (ND & P & k & fc & C & E). exists k. eexists. eexists. split; [exact E|]. intros n I. exists (fc n). split; [apply fold_from; exact I|].
  destruct (P n I) as ((P1 & P2 & _) & _). assert (Cn := C n I). unfold chosen in Cn. destruct (has_colon n) eqn:H.
  - destruct Cn as (i & Ei & O). assert (HC : In colon n) by (apply has_colon_in; exact H). split; [|split; [|exact O]].
    + destruct (has_colon (fc n)) eqn:X; [|reflexivity]. apply has_colon_in in X. rewrite Ei in X. exfalso. apply (subst_wchar i n colon P2 X). reflexivity.
    + assert (X := subst_length i n HC). assert (Y := dec_nonempty i). rewrite Ei. intros Z. rewrite Z in X. destruct (dec i); [congruence|cbn in X; lia].
  - rewrite Cn. auto.
Qed.
Print Assumptions expr_names.

(** Provided no name with colons is part of a longer word and the replacements are
    different: every name refers to its variable, for every order of the sets of names. *)
Theorem expr_distinct_partial : forall known exprs vars cols fuel to from,
    Permutation vars (parse_for_vars known exprs) -> Permutation cols (filter has_colon vars) ->
    no_overlap vars exprs ->
    names_of fuel exprs vars = Some (to, from) -> (forall n m n', In n vars -> In m vars -> dget teqb from n = Some n' -> dget teqb from m = Some n' -> n = m) ->
    forall e, In e exprs -> refers_well vars to e (compile_expr from cols e).
Proof.
  intros known exprs vars cols fuel to from PV PC NO E D e Ie. destruct (names_ok known exprs vars PV) as (ND & P & k & fc & C & EN).
  assert (X : names_of (Nat.max k fuel) exprs vars = Some (to, from)).
  { unfold names_of in *. revert E. generalize (@nil (text * text)) at 1 3. generalize (@nil (text * text)) at 1 2. clear -k. induction vars as [|n vars IH]; intros fr t E; [exact E|]. cbn [names_loop] in *.
    destruct (has_colon n).
    - destruct (valid_name fuel 0 n (joined exprs)) as [r|] eqn:V; [|discriminate]. rewrite (valid_name_mono _ _ _ _ _ V (Nat.max k fuel)) by lia. apply IH. exact E.
    - apply IH. exact E. }
  rewrite EN in X by lia. injection X as <- <-. assert (GF : forall n, In n vars -> dget teqb (fold_left (fun d n => dset teqb d n (fc n)) vars []) n = Some (fc n)) by (intros n I; apply fold_from; exact I).
  apply (refers exprs vars cols fc); auto; [|apply cols_in; exact PC]. apply NoDup_map_inj; [exact ND|]. intros a b Ia Ib Eab. apply (D a b (fc a) Ia Ib); [apply GF; exact Ia|rewrite Eab; apply GF; exact Ib].
Qed.
Print Assumptions expr_distinct_partial.

(** In particular when the names with colons have no digits. *)
Theorem expr_refers_partial : forall known exprs vars cols,
    Permutation vars (parse_for_vars known exprs) -> Permutation cols (filter has_colon vars) ->
    no_overlap vars exprs -> no_digits vars ->
    exists k to from, (forall fuel, k <= fuel -> names_of fuel exprs vars = Some (to, from)) /\
      forall e, In e exprs -> refers_well vars to e (compile_expr from cols e).
Proof.
  intros known exprs vars cols PV PC NO NDG. destruct (names_ok known exprs vars PV) as (ND & P & k & fc & C & EN). exists k. eexists. eexists. split; [exact EN|].
  apply (refers exprs vars cols fc); auto; [|apply cols_in; exact PC]. apply NoDup_map_inj; [exact ND|]. apply (chosen_inj exprs); assumption.
Qed.
Print Assumptions expr_refers_partial.

(** The full property: [refers_well] for every expression, whatever the names. *)
(** Digits in the names: two different variables get the same replacement, whatever the
    order of the set, and one of them is lost. *)
Definition clash : list text := [t_ "y=a:b0c-a0b:c"].
Theorem expr_collision_refuted :
    parse_for_vars (fun _ => false) clash = [t_ "y"; t_ "a:b0c"; t_ "a0b:c"] /\
    forall vars, Permutation vars (parse_for_vars (fun _ => false) clash) ->
    exists to from, names_of 3 clash vars = Some (to, from) /\
      dget teqb from (t_ "a:b0c") = Some (t_ "a0b0c") /\ dget teqb from (t_ "a0b:c") = Some (t_ "a0b0c") /\
      forall e cols, In e clash -> Permutation cols (filter has_colon vars) -> compile_expr from cols e = t_ "y=a0b0c-a0b0c" /\ ~ refers_well vars to e (compile_expr from cols e).
Proof.
  split; [reflexivity|]. intros vars PV. change (parse_for_vars (fun _ => false) clash) with [t_ "y"; t_ "a:b0c"; t_ "a0b:c"] in PV.
  assert (CS : In vars [[t_ "y"; t_ "a:b0c"; t_ "a0b:c"]; [t_ "y"; t_ "a0b:c"; t_ "a:b0c"]; [t_ "a:b0c"; t_ "y"; t_ "a0b:c"]; [t_ "a:b0c"; t_ "a0b:c"; t_ "y"]; [t_ "a0b:c"; t_ "y"; t_ "a:b0c"]; [t_ "a0b:c"; t_ "a:b0c"; t_ "y"]]).
  { apply Permutation_sym in PV. apply Permutation_length in PV as L. destruct vars as [|p [|q [|r [|]]]]; try discriminate L.
    assert (NDP : NoDup [p; q; r]) by (apply (Permutation_NoDup PV); repeat constructor; cbn; intuition discriminate).
    assert (I1 := Permutation_in p (Permutation_sym PV) (or_introl eq_refl)). assert (I2 := Permutation_in q (Permutation_sym PV) (or_intror (or_introl eq_refl))). assert (I3 := Permutation_in r (Permutation_sym PV) (or_intror (or_intror (or_introl eq_refl)))).
    inversion NDP as [|? ? N1 NDP2]; subst. inversion NDP2 as [|? ? N2 _]; subst. cbn [In] in N1, N2.
    destruct I1 as [<- |[<- |[<- |[]]]], I2 as [<- |[<- |[<- |[]]]], I3 as [<- |[<- |[<- |[]]]]; try (exfalso; tauto); cbn [In]; tauto. }
  assert (PAIR : forall a b (cols : list text), Permutation cols [a; b] -> cols = [a; b] \/ cols = [b; a]) by (intros a b cols X; apply Permutation_length_2_inv; apply Permutation_sym; exact X).
  repeat (destruct CS as [<- |CS]; [eexists; eexists; split; [vm_compute; reflexivity|]; split; [vm_compute; reflexivity|]; split; [vm_compute; reflexivity|]; intros e cols [<- |[]] PC; vm_compute in PC; apply PAIR in PC; destruct PC as [-> | ->]; (split; [vm_compute; reflexivity|intros X; vm_compute in X; discriminate X])|]). destruct CS.
Qed.
Print Assumptions expr_collision_refuted.
(** A name that is part of a longer name: the result depends on the order of the set. *)
Definition nested : list text := [t_ "y=a:b+x:a:b"].
Theorem expr_order_refuted :
    let vars := parse_for_vars (fun _ => false) nested in vars = [t_ "y"; t_ "a:b"; t_ "x:a:b"] /\
    exists to from, names_of 3 nested vars = Some (to, from) /\
      let e := t_ "y=a:b+x:a:b" in
      compile_expr from [t_ "a:b"; t_ "x:a:b"] e = t_ "y=a0b+x:a0b" /\ ~ refers_well vars to e (compile_expr from [t_ "a:b"; t_ "x:a:b"] e) /\
      compile_expr from [t_ "x:a:b"; t_ "a:b"] e = t_ "y=a0b+x0a0b" /\ refers_well vars to e (compile_expr from [t_ "x:a:b"; t_ "a:b"] e).
Proof.
  split; [reflexivity|]. eexists; eexists; split; [vm_compute; reflexivity|]. split; [vm_compute; reflexivity|]. split; [intros X; vm_compute in X; discriminate X|]. split; vm_compute; reflexivity.
Qed.
Print Assumptions expr_order_refuted.
(** The exponent of a number is taken for a variable. *)
Theorem expr_literal_refuted : parse_for_vars (fun _ => false) [t_ "y=1e5*x"] = [t_ "y"; t_ "e5"; t_ "x"].
Proof. reflexivity. Qed.
Print Assumptions expr_literal_refuted.

(** names with colons, a name that is also a function, and a replacement that is taken *)
Definition good : list text := [t_ "out:y=sin(in:x)*in:z + in0x"; t_ "w=3*(in:x-u)"].
Example expr_good :
    let vars := parse_for_vars (fun n => teqb n (t_ "sin")) good in let cols := filter has_colon vars in
    vars = [t_ "out:y"; t_ "in:z"; t_ "in0x"; t_ "w"; t_ "in:x"; t_ "u"] /\ no_overlap vars good /\ no_digits vars /\
    exists to from, names_of 5 good vars = Some (to, from) /\
      map (compile_expr from cols) good = [t_ "out0y=sin(in1x)*in0z + in0x"; t_ "w=3*(in1x-u)"] /\ dget teqb to (t_ "in1x") = Some (t_ "in:x").
Proof.
  split; [vm_compute; reflexivity|]. split; [|split].
  - assert (G : forall e w n, In e good -> In w (words e) -> In n (parse_for_vars (fun n => teqb n (t_ "sin")) good) -> (negb (has_colon n) || negb (contains n w) || teqb w n) = true).
    { assert (G0 : forallb (fun e => forallb (fun w => forallb (fun n => negb (has_colon n) || negb (contains n w) || teqb w n) (parse_for_vars (fun n => teqb n (t_ "sin")) good)) (words e)) good = true) by (vm_compute; reflexivity).
      intros e w n Ie Iw In_. assert (G1 := proj1 (forallb_forall _ _) G0 e Ie). cbn beta in G1. assert (G2 := proj1 (forallb_forall _ _) G1 w Iw). cbn beta in G2. exact (proj1 (forallb_forall _ _) G2 n In_). }
    intros e w n Ie Iw In_ H O. assert (X := G e w n Ie Iw In_). rewrite H in X. apply contains_iff in O. rewrite O in X. cbn in X. apply teqb_iff. exact X.
  - intros n c I H Ic. assert (G : forallb (fun n => negb (has_colon n) || forallb (fun c => negb (digit c)) n) (parse_for_vars (fun n => teqb n (t_ "sin")) good) = true) by (vm_compute; reflexivity).
    assert (X := proj1 (forallb_forall _ _) G n I). cbn beta in X. rewrite H in X. cbn [negb orb] in X. assert (Y := proj1 (forallb_forall _ _) X c Ic). apply negb_true_iff. exact Y.
  - eexists; eexists; split; [vm_compute; reflexivity|]. split; vm_compute; reflexivity.
Qed.

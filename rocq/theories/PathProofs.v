(** Lemmas about dotted paths. *)
From Verif Require Import Base PathModel PathSpec.
Local Open Scope nat_scope.
Local Open Scope string_scope.

Lemma append_nil : forall s, s ++ "" = s.
Proof. induction s as [|c s IH]; simpl; [reflexivity|rewrite IH; reflexivity]. Qed.

Lemma append_assoc : forall a b c, (a ++ b) ++ c = a ++ b ++ c.
Proof. induction a as [|x a IH]; intros b c; simpl; [reflexivity|rewrite IH; reflexivity]. Qed.

Lemma text_join : forall p, text p = join_dot p.
Proof.
  induction p as [|x p IH]; [reflexivity|]. cbn [text join_dot]. rewrite IH.
  destruct p; [apply append_nil|reflexivity].
Qed.

Lemma split_nonempty : forall s, split_dot s <> [].
Proof. intros [|c s]; cbn; [discriminate|]. destruct (Ascii.eqb c dot); [discriminate|destruct (split_dot s); discriminate]. Qed.

Lemma split_name : forall x, dotless x -> split_dot x = [x].
Proof.
  induction x as [|c x IH]; intros H; [reflexivity|]. destruct H as [Hc Hx]. cbn [split_dot].
  destruct (Ascii.eqb_spec c dot) as [->|_]; [exfalso; apply Hc; reflexivity|]. rewrite (IH Hx). reflexivity.
Qed.

Lemma split_cons : forall x s, dotless x -> split_dot (x ++ "." ++ s) = x :: split_dot s.
Proof.
  induction x as [|c x IH]; intros s H; [reflexivity|]. destruct H as [Hc Hx].
  change (String c x ++ "." ++ s) with (String c (x ++ "." ++ s)). cbn [split_dot].
  destruct (Ascii.eqb_spec c dot) as [->|_]; [exfalso; apply Hc; reflexivity|]. rewrite (IH s Hx). reflexivity.
Qed.

Lemma split_text : forall p, p <> [] -> Forall name_ok p -> split_dot (text p) = p.
Proof.
  induction p as [|x p IH]; intros Hne H; [contradiction|]. inversion H as [|y q [_ Hx] Hp]; subst.
  cbn [text]. destruct p as [|y p].
  - rewrite append_nil. apply split_name; assumption.
  - rewrite split_cons by assumption. rewrite IH; [reflexivity|discriminate|assumption].
Qed.

Lemma join_split : forall s, join_dot (split_dot s) = s.
Proof.
  induction s as [|c s IH]; [reflexivity|]. cbn [split_dot].
  pose proof (split_nonempty s) as Hne. destruct (Ascii.eqb_spec c dot) as [->|_].
  - destruct (split_dot s) as [|h t]; [contradiction|]. cbn [join_dot]. destruct t; simpl in *; rewrite IH; reflexivity.
  - destruct (split_dot s) as [|h t]; [contradiction|]. destruct t; simpl in *; rewrite IH; reflexivity.
Qed.

Lemma common_longest : forall a b, longest_common a b (common_parts a b).
Proof.
  induction a as [|x a IH]; intros b; cbn [common_parts].
  - split; [exists []; reflexivity|]. split; [exists b; reflexivity|]. intros q [r Hr] _.
    destruct q; [exists []; reflexivity|discriminate].
  - destruct b as [|y b].
    + split; [exists (x :: a); reflexivity|]. split; [exists []; reflexivity|]. intros q _ [r Hr].
      destruct q; [exists []; reflexivity|discriminate].
    + destruct (String.eqb_spec x y) as [->|Hne].
      * destruct (IH b) as ([r1 H1] & [r2 H2] & H3). split; [exists r1; simpl; rewrite <- H1; reflexivity|].
        split; [exists r2; simpl; rewrite <- H2; reflexivity|]. intros [|z q] [s1 E1] [s2 E2]; [eexists; reflexivity|].
        simpl in E1, E2. injection E1 as <- E1. injection E2 as E2.
        destruct (H3 q (ex_intro _ s1 E1) (ex_intro _ s2 E2)) as [t Ht]. exists t. simpl. rewrite <- Ht. reflexivity.
      * split; [eexists; reflexivity|]. split; [eexists; reflexivity|]. intros [|z q] [s1 E1] [s2 E2]; [exists []; reflexivity|].
        simpl in E1, E2. injection E1 as <- E1. injection E2 as E2' E2. congruence.
Qed.

Lemma longest_unique : forall a b p q, longest_common a b p -> longest_common a b q -> p = q.
Proof.
  intros a b p q (P1 & P2 & P3) (Q1 & Q2 & Q3).
  destruct (P3 q Q1 Q2) as [r Hr]. destruct (Q3 p P1 P2) as [s Hs]. subst p.
  rewrite <- app_assoc in Hs. rewrite <- (app_nil_r q) in Hs at 1. apply app_inv_head in Hs.
  destruct r; [apply app_nil_r|discriminate].
Qed.

Lemma ancestor_text : forall a b p, Forall name_ok a -> Forall name_ok b -> longest_common a b p ->
    get_common_ancestor (text a) (text b) = text p.
Proof.
  intros a b p Ha Hb Hp. unfold get_common_ancestor.
  assert (K : p = [] -> (match common_parts (split_dot (text a)) (split_dot (text b)) with [] => "" | parts => join_dot parts end) = "" ->
              (match common_parts (split_dot (text a)) (split_dot (text b)) with [] => "" | parts => join_dot parts end) = text p)
    by (intros -> E; exact E).
  destruct a as [|x a].
  - assert (p = []) by (destruct Hp as ([r Hr] & _); destruct p; [reflexivity|discriminate]). apply K; [assumption|].
    cbn [text split_dot]. destruct b as [|y b]; [reflexivity|]. rewrite split_text; [|discriminate|assumption].
    cbn [common_parts]. inversion Hb as [|? ? [Hy _] _]; subst. destruct (String.eqb_spec "" y); [congruence|reflexivity].
  - destruct b as [|y b].
    + assert (p = []) by (destruct Hp as (_ & [r Hr] & _); destruct p; [reflexivity|discriminate]). apply K; [assumption|].
      rewrite split_text; [|discriminate|assumption]. cbn [text split_dot common_parts].
      inversion Ha as [|? ? [Hx _] _]; subst. destruct (String.eqb_spec x ""); [congruence|reflexivity].
    + rewrite !split_text by (assumption || discriminate).
      rewrite <- (longest_unique _ _ _ _ Hp (common_longest (x :: a) (y :: b))). rewrite text_join. destruct p; reflexivity.
Qed.

Lemma slice_append : forall a b, slice_from (String.length a) (a ++ b) = b.
Proof. induction a as [|c a IH]; intros b; simpl; [destruct b; reflexivity|apply IH]. Qed.

Lemma slice_skip : forall a c b, slice_from (String.length a + 1) (a ++ String c b) = b.
Proof. induction a as [|x a IH]; intros c b; simpl; [destruct b; reflexivity|apply IH]. Qed.

Lemma text_app : forall p q, p <> [] -> q <> [] -> text (p ++ q) = text p ++ "." ++ text q.
Proof.
  induction p as [|x p IH]; intros q Hp Hq; [contradiction|]. destruct p as [|y p].
  - destruct q as [|z q]; [contradiction|]. change (text ([x] ++ z :: q)%list) with (x ++ "." ++ text (z :: q)).
    cbn [text]. rewrite append_nil. reflexivity.
  - change (text ((x :: y :: p) ++ q)%list) with (x ++ "." ++ text ((y :: p) ++ q)%list).
    rewrite IH by (discriminate || assumption). change (text (x :: y :: p)) with (x ++ "." ++ text (y :: p)).
    rewrite !append_assoc. reflexivity.
Qed.

Lemma text_nonempty : forall p, p <> [] -> Forall name_ok p -> text p <> "".
Proof.
  intros [|x p] Hne H; [contradiction|]. inversion H as [|? ? [Hx _] _]; subst. cbn [text].
  destruct x; [congruence|discriminate].
Qed.

Lemma relative_text : forall p q, q <> [] -> Forall name_ok p -> name_relative_to (text p) (text (p ++ q)) = text q.
Proof.
  intros p q Hq Hp. unfold name_relative_to, start_of. destruct p as [|x p]; [cbn; destruct (text q); reflexivity|].
  destruct (String.eqb_spec (text (x :: p)) "") as [E|_].
  - exfalso. apply (text_nonempty (x :: p)); [discriminate|assumption|assumption].
  - rewrite text_app by (assumption || discriminate). apply slice_skip.
Qed.

Lemma before_name : forall x s, dotless x -> before_dot (x ++ match s with "" => "" | _ => "." ++ s end) = x.
Proof.
  induction x as [|c x IH]; intros s H; [destruct s; reflexivity|]. destruct H as [Hc Hx]. simpl.
  destruct (Ascii.eqb_spec c dot) as [->|_]; [exfalso; apply Hc; reflexivity|]. f_equal. apply IH; assumption.
Qed.

Lemma nearest_text : forall p x q, Forall name_ok p -> name_ok x -> nearest_child (text p) (text (p ++ x :: q)) = x.
Proof.
  intros p x q Hp Hx. unfold nearest_child. change (slice_from (start_of (text p)) (text (p ++ x :: q))) with (name_relative_to (text p) (text (p ++ x :: q))).
  rewrite relative_text by (assumption || discriminate). cbn [text]. destruct Hx as [_ Hx].
  destruct q as [|y q]; [apply (before_name x ""); assumption|].
  assert (E : forall s, before_dot (x ++ "." ++ s) = x).
  { clear -Hx. induction x as [|c x IH]; intros s; [reflexivity|]. destruct Hx as [Hc Hx]. simpl.
    destruct (Ascii.eqb_spec c dot) as [->|_]; [exfalso; apply Hc; reflexivity|]. f_equal. apply IH; assumption. }
  apply E.
Qed.

Lemma relative_self : forall p, Forall name_ok p -> p <> [] -> name_relative_to (text p) (text p) = "".
Proof.
  intros p H Hne. unfold name_relative_to, start_of.
  destruct (String.eqb_spec (text p) "") as [E|_]; [exfalso; eapply text_nonempty; eassumption|].
  induction (text p) as [|c s IH]; [reflexivity|exact IH].
Qed.

Lemma text_inj : forall p q, Forall name_ok p -> Forall name_ok q -> text p = text q -> p = q.
Proof.
  intros p q Hp Hq E. destruct p as [|x p].
  - destruct q as [|y q]; [reflexivity|]. exfalso. apply (text_nonempty (y :: q)); [discriminate|assumption|]. symmetry; exact E.
  - destruct q as [|y q]; [exfalso; apply (text_nonempty (x :: p)); [discriminate|assumption|exact E]|].
    rewrite <- (split_text (x :: p)), <- (split_text (y :: q)), E by (assumption || discriminate). reflexivity.
Qed.

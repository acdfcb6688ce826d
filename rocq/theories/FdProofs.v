(** Proofs for C26, C27 and C60. *)
From Coq Require Import Field_theory Field Ring.
From Verif Require Import Base BaseFacts TransferModel TransferSpec TransferProofs FdModel FdSpec.
Local Open Scope nat_scope.

(** ** keys *)
Lemma key2_eqb_eq : forall a b, key2_eqb a b = true <-> a = b.
Proof.
  intros [a1 a2] [b1 b2]. unfold key2_eqb. simpl. rewrite andb_true_iff, !String.eqb_eq. split; [intros [-> ->]; reflexivity|].
  intros H. injection H. auto.
Qed.
Lemma key3_eqb_eq : forall a b, key3_eqb a b = true <-> a = b.
Proof.
  intros [a1 a2] [b1 b2]. unfold key3_eqb. simpl. rewrite andb_true_iff, key2_eqb_eq, Nat.eqb_eq. split; [intros [-> ->]; reflexivity|].
  intros H. injection H. auto.
Qed.

Lemma nth_error_ext_list : forall {A} (l l' : list A), (forall c, nth_error l c = nth_error l' c) -> l = l'.
Proof.
  induction l as [|x l IH]; intros [|y l'] H; auto; try (specialize (H 0); discriminate).
  pose proof (H 0) as H0. simpl in H0. injection H0 as ->. f_equal. apply IH. intros c. apply (H (S c)).
Qed.
Lemma NoDup_map_inv_eq : forall {A B} (g : A -> B) (l : list A) x y, NoDup (map g l) -> In x l -> In y l -> g x = g y -> x = y.
Proof.
  induction l as [|z l IH]; intros x y Hd Hx Hy E; [contradiction|]. simpl in Hd. apply NoDup_cons_iff in Hd. destruct Hd as [H1 H2].
  destruct Hx as [->|Hx], Hy as [->|Hy]; auto; exfalso; apply H1.
  - rewrite E. apply in_map. assumption.
  - rewrite <- E. apply in_map. assumption.
Qed.

Section Proofs.
  Context {F : Type} (F0 F1 : F) (fadd fmul fsub : F -> F -> F) (fopp : F -> F) (fdiv : F -> F -> F) (finv : F -> F)
    (flt : F -> F -> bool).
  Hypothesis Fth : field_theory F0 F1 fadd fmul fsub fopp fdiv finv (@eq F).
  Add Field Ff : Fth.
  Infix "+!" := fadd (at level 50, left associativity).
  Infix "*!" := fmul (at level 40, left associativity).
  Infix "-!" := fsub (at level 50, left associativity).
  Notation st := (@st F).
  Notation read := (read F0).
  Notation inputs := (inputs F0).
  Notation add_at := (add_at fadd).
  Notation bump := (bump fadd).

  (** ** Taylor expansion of low degree polynomials *)
  Section Taylor.
    Context {V : Type} (veqb : V -> V -> bool).
    Hypothesis veqb_eq : forall a b, veqb a b = true <-> a = b.
    Notation peval := (peval fadd fmul fopp (V:=V)).
    Notation pderiv := (pderiv F0 F1 veqb).

    Lemma peval_ext : forall (e : pexpr F V) x y, (forall v, x v = y v) -> peval x e = peval y e.
    Proof. induction e; intros x y H; simpl; rewrite ?(IHe1 _ _ H), ?(IHe2 _ _ H), ?(IHe _ _ H); auto. Qed.

    Lemma pdeg0 : forall (e : pexpr F V) v x, pdeg e = 0 -> peval x (pderiv v e) = F0.
    Proof.
      induction e; intros w x H; simpl in *.
      - reflexivity.
      - discriminate.
      - rewrite IHe1, IHe2 by lia. ring.
      - rewrite IHe1, IHe2 by lia. ring.
      - rewrite IHe by assumption. ring.
    Qed.
    Lemma pdeg0_ext : forall (e : pexpr F V) x y, pdeg e = 0 -> peval x e = peval y e.
    Proof. induction e; intros x y H; simpl in *; try discriminate; rewrite ?(IHe1 x y), ?(IHe2 x y), ?(IHe x y) by lia; reflexivity. Qed.

    (** second order coefficient *)
    Fixpoint pquad (v : V) (x : V -> F) (e : pexpr F V) : F :=
      match e with
      | PC _ | PV _ => F0
      | PAdd a b => pquad v x a +! pquad v x b
      | PMul a b => pquad v x a *! peval x b +! peval x (pderiv v a) *! peval x (pderiv v b) +! peval x a *! pquad v x b
      | PNeg a => fopp (pquad v x a)
      end.
    Lemma pquad_low : forall (e : pexpr F V) v x, pdeg e <= 1 -> pquad v x e = F0.
    Proof.
      induction e; intros w x H; simpl in *; try reflexivity.
      - rewrite IHe1, IHe2 by lia. ring.
      - rewrite IHe1, IHe2 by lia.
        destruct (Nat.eq_dec (pdeg e1) 0) as [E|E].
        + rewrite (pdeg0 e1) by assumption. ring.
        + rewrite (pdeg0 e2) by lia. ring.
      - rewrite IHe by assumption. ring.
    Qed.

    Lemma taylor : forall (e : pexpr F V) v x y t, pdeg e <= 2 ->
        (forall w, y w = if veqb w v then x w +! t else x w) ->
        peval y e = peval x e +! t *! peval x (pderiv v e) +! t *! t *! pquad v x e.
    Proof.
      induction e; intros w x y t Hd Hy; simpl in *.
      - ring.
      - rewrite Hy. destruct (veqb v w); ring.
      - rewrite (IHe1 w x y t), (IHe2 w x y t) by (lia || assumption). ring.
      - rewrite (IHe1 w x y t), (IHe2 w x y t) by (lia || assumption).
        destruct (Nat.eq_dec (pdeg e1) 0) as [E|E].
        + rewrite (pdeg0 e1), (pquad_low e1) by lia. ring.
        + destruct (Nat.eq_dec (pdeg e2) 0) as [E2|E2].
          * rewrite (pdeg0 e2), (pquad_low e2) by lia. ring.
          * rewrite (pquad_low e1), (pquad_low e2) by lia. ring.
      - rewrite (IHe w x y t) by assumption. ring.
    Qed.


    Lemma complex_taylor : forall (e : pexpr F V) v x y h, pdeg e <= 2 ->
        (forall w, y w = (x w, if veqb w v then h else F0)) ->
        pceval F0 fadd fmul fsub fopp y e = (peval x e -! h *! h *! pquad v x e, h *! peval x (pderiv v e)).
    Proof.
      induction e; intros w x y h Hd Hy; simpl in *.
      - unfold cx_of. f_equal; ring.
      - rewrite Hy. destruct (veqb v w); f_equal; ring.
      - rewrite (IHe1 w x y h), (IHe2 w x y h) by (lia || assumption). unfold cadd. simpl. f_equal; ring.
      - rewrite (IHe1 w x y h), (IHe2 w x y h) by (lia || assumption). unfold cmul. simpl.
        destruct (Nat.eq_dec (pdeg e1) 0) as [E|E].
        + rewrite (pdeg0 e1), (pquad_low e1) by lia. f_equal; ring.
        + destruct (Nat.eq_dec (pdeg e2) 0) as [E2|E2].
          * rewrite (pdeg0 e2), (pquad_low e2) by lia. f_equal; ring.
          * rewrite (pquad_low e1), (pquad_low e2) by lia. f_equal; ring.
      - rewrite (IHe w x y h) by assumption. simpl. f_equal; ring.
    Qed.
  End Taylor.

  (** ** vectors *)
  Lemma add_at_length : forall l i d, length (add_at i d l) = length l.
  Proof. induction l; intros [|i] d; simpl; auto. Qed.
  Lemma nth_add_at : forall l i d k, i < length l -> nth k (add_at i d l) F0 = if Nat.eqb k i then nth k l F0 +! d else nth k l F0.
  Proof.
    induction l as [|x l IH]; intros i d k H; simpl in H; [lia|]. destruct i; destruct k; simpl; try reflexivity.
    apply IH. lia.
  Qed.
  Lemma add_at_cancel : forall l i d, add_at i (fopp d) (add_at i d l) = l.
  Proof. induction l; intros [|i] d; simpl; f_equal; auto. ring. Qed.
  Lemma add_at_cancel' : forall l i d, add_at i d (add_at i (fopp d) l) = l.
  Proof. induction l; intros [|i] d; simpl; f_equal; auto. ring. Qed.
  Lemma zip_length : forall f (a b : list F), length a = length b -> length (zip f a b) = length a.
  Proof. induction a; intros [|y b] H; simpl in *; try discriminate; auto. Qed.
  Lemma nth_zip : forall f (a b : list F) k, length a = length b -> k < length a -> nth k (zip f a b) F0 = f (nth k a F0) (nth k b F0).
  Proof. induction a; intros [|y b] k H1 H2; simpl in *; try lia. destruct k; [reflexivity|]. apply IHa; lia. Qed.
  Lemma nth_map' : forall (f : F -> F) l k, k < length l -> nth k (map f l) F0 = f (nth k l F0).
  Proof. induction l; intros k H; simpl in *; [lia|]. destruct k; [reflexivity|]. apply IHl; lia. Qed.

  Lemma res_set_res : forall total (s : st) v, res_of total (set_res total s v) = v.
  Proof. intros [] s v; reflexivity. Qed.
  Lemma set_res_set_res : forall total (s : st) v v', set_res total (set_res total s v) v' = set_res total s v'.
  Proof. intros [] s v v'; reflexivity. Qed.
  Lemma set_res_same : forall total (s : st), set_res total s (res_of total s) = s.
  Proof. intros [] []; reflexivity. Qed.

  (** ** one system *)
  Section System.
    Context (total : bool) (run : st -> st) (ins : list (place * nat)) (asked : nat -> Prop) (phi : nat -> list F -> F) (s0 : st).
    Hypothesis Hev : evaluates F0 total run ins asked phi s0.
    Hypothesis Hin : in_vectors ins s0.
    Hypothesis Hni : not_inputs total ins asked s0.
    Hypothesis Hnd : NoDup ins.

    Definition in_res (w : place) : bool := match w with InP => false | InU => total end.

    Lemma shape_bump : forall w i d s, same_shape s s0 -> same_shape (bump w i d s) s0.
    Proof. intros [] i d s (H1 & H2 & H3); unfold same_shape; simpl; rewrite add_at_length; auto. Qed.
    Lemma shape_set_res : forall s v, same_shape s s0 -> length v = length (res_of total s0) -> same_shape (set_res total s v) s0.
    Proof. intros s v (H1 & H2 & H3) H. unfold same_shape, set_res, res_of in *. destruct total; simpl; auto. Qed.
    Lemma shape_res : forall s, same_shape s s0 -> length (res_of total s) = length (res_of total s0).
    Proof. intros s (H1 & H2 & H3). unfold res_of. destruct total; auto. Qed.

    Lemma read_bump : forall w i d s w' i', same_shape s s0 -> In (w, i) ins ->
        read w' i' (bump w i d s) = if (match w, w' with InP, InP | InU, InU => true | _, _ => false end && Nat.eqb i' i)%bool
                                    then read w' i' s +! d else read w' i' s.
    Proof.
      intros w i d s w' i' (H1 & H2 & H3) Hi. specialize (Hin w i Hi).
      destruct w, w'; simpl; try reflexivity; rewrite nth_add_at by lia; reflexivity.
    Qed.

    Lemma inputs_bump : forall j w i d s, same_shape s s0 -> nth_error ins j = Some (w, i) ->
        inputs ins (bump w i d s) = add_at j d (inputs ins s).
    Proof.
      intros j w i d s Hs Hj. unfold inputs.
      assert (Hi : In (w, i) ins) by (eapply nth_error_In; eassumption).
      assert (G : forall l k, NoDup l -> (forall p, In p l -> In p ins) -> nth_error l k = Some (w, i) ->
                 map (fun p => read (fst p) (snd p) (bump w i d s)) l = add_at k d (map (fun p => read (fst p) (snd p) s) l)).
      { induction l as [|[w' i'] l IH]; intros k Hn Hl Hk; [destruct k; discriminate|]. apply NoDup_cons_iff in Hn. destruct Hn as [Hn1 Hn2]. destruct k; simpl in Hk.
        - injection Hk as -> ->. cbn [map fst snd]. rewrite read_bump by assumption.
          cbn [FdModel.add_at]. f_equal.
          + rewrite Nat.eqb_refl. destruct w; reflexivity.
          + apply map_ext_in. intros [w1 i1] Hw1. cbn [fst snd]. rewrite read_bump by assumption.
            destruct (Nat.eqb_spec i1 i) as [->|]; [|rewrite andb_false_r; reflexivity].
            destruct w, w1; try reflexivity; contradiction.
        - cbn [map fst snd FdModel.add_at]. f_equal.
          + rewrite read_bump by assumption.
            destruct (Nat.eqb_spec i' i) as [->|]; [|rewrite andb_false_r; reflexivity].
            destruct w, w'; try reflexivity; exfalso; apply Hn1; eapply nth_error_In; eassumption.
          + apply IH; [assumption| |assumption]. intros p Hp. apply Hl. right; assumption. }
      apply G; auto.
    Qed.

    Lemma inputs_run : forall s, same_shape s s0 -> inputs ins (run s) = inputs ins s.
    Proof.
      intros s Hs. unfold inputs. apply map_ext_in. intros [w i] Hi. simpl. apply (ev_keep _ _ _ _ _ _ _ Hev); assumption.
    Qed.

    Lemma inputs_set_res : forall s, (forall w i, In (w, i) ins -> in_res w = false -> read w i s = read w i s0) ->
        inputs ins (set_res total s (res_of total s0)) = inputs ins s0.
    Proof.
      intros s H. unfold inputs. apply map_ext_in. intros [w i] Hi. simpl.
      specialize (H w i Hi). unfold set_res, res_of, in_res in *. destruct total; destruct w; simpl in *; auto.
    Qed.

    Lemma read_of_inputs : forall s s', inputs ins s = inputs ins s' -> forall w i, In (w, i) ins -> read w i s = read w i s'.
    Proof.
      intros s s' H w i Hi. unfold inputs in H.
      assert (G : forall l, map (fun p => read (fst p) (snd p) s) l = map (fun p => read (fst p) (snd p) s') l ->
                            In (w, i) l -> read w i s = read w i s').
      { induction l; intros E HI; [contradiction|]. simpl in E. injection E as E1 E2. destruct HI as [->|HI]; auto. }
      eapply G; eauto.
    Qed.

    Definition Inv (s : st) : Prop :=
      same_shape s s0 /\ inputs ins s = inputs ins s0 /\ res_of total s = res_of total s0.

    Lemma Inv0 : Inv s0.
    Proof. repeat split; reflexivity. Qed.

    (** the difference, as a function of the original state only *)
    Definition dval (fm : form) (j : nat) (h : F) (k : nat) : F :=
      let x := inputs ins s0 in
      match fm with
      | Forward => (phi k (add_at j h x) -! nth k (res_of total s0) F0) *! finv h
      | Backward => (phi k (add_at j (fopp h) x) -! nth k (res_of total s0) F0) *! fopp (finv h)
      | Central => (phi k (add_at j (fopp h) x) -! phi k (add_at j h x)) *! fopp (finv (F1 +! F1) *! finv h)
      end.

    Lemma nth_res_bump : forall w i d s k, same_shape s s0 -> In (w, i) ins -> asked k ->
        nth k (res_of total (bump w i d s)) F0 = nth k (res_of total s) F0.
    Proof.
      intros w i d s k Hs Hi Hk. destruct (Hni k Hk) as [_ Hn]. unfold res_of.
      destruct total; [|destruct w; reflexivity]. destruct w; [reflexivity|]. simpl.
      destruct Hs as (_ & H2 & _). specialize (Hin _ _ Hi). rewrite nth_add_at by (simpl in Hin; lia).
      destruct (Nat.eqb_spec k i) as [->|]; [|reflexivity]. exfalso. apply Hn; auto.
    Qed.

    Lemma difference_ok : forall fm j w i h s, Inv s -> nth_error ins j = Some (w, i) ->
        Inv (set_res total (difference F1 fadd fmul fsub fopp finv total run fm w i h (res_of total s0) s) (res_of total s0)) /\
        forall k, asked k ->
          nth k (res_of total (difference F1 fadd fmul fsub fopp finv total run fm w i h (res_of total s0) s)) F0 = dval fm j h k.
    Proof.
      intros fm j w i h s (Hs & Hx & Hr) Hj.
      assert (Hi : In (w, i) ins) by (eapply nth_error_In; eassumption).
      pose proof (ev_shape _ _ _ _ _ _ _ Hev) as Hrun.
      (* final restoration of one-sided forms *)
      assert (Hone : forall d d', (forall x, add_at j d' (add_at j d x) = x) ->
        Inv (set_res total (bump w i d' (run (bump w i d s))) (res_of total s0))).
      { intros d d' Hc. set (s2 := bump w i d' (run (bump w i d s))).
        assert (Hs2 : same_shape s2 s0) by (apply shape_bump, Hrun, shape_bump; assumption).
        assert (Hx2 : inputs ins s2 = inputs ins s0).
        { unfold s2. rewrite (inputs_bump j) by (try apply Hrun, shape_bump; assumption).
          rewrite inputs_run by (apply shape_bump; assumption). rewrite (inputs_bump j) by assumption. rewrite Hc. assumption. }
        split; [apply shape_set_res; [assumption|reflexivity]|]. split; [|apply res_set_res].
        apply inputs_set_res. intros w' i' Hi' _. apply read_of_inputs; assumption. }
      assert (Hval : forall d d' g, (forall k, asked k ->
         nth k (res_of total (set_res total (set_res total (bump w i d' (run (bump w i d s)))
             (zip fsub (res_of total (bump w i d' (run (bump w i d s)))) (res_of total s0)))
             (map (fun x => x *! g) (res_of total (set_res total (bump w i d' (run (bump w i d s)))
             (zip fsub (res_of total (bump w i d' (run (bump w i d s)))) (res_of total s0))))))) F0 =
         (phi k (add_at j d (inputs ins s0)) -! nth k (res_of total s0) F0) *! g)).
      { intros d d' g k Hk. destruct (Hni k Hk) as [Hlt _].
        assert (Hs2 : same_shape (bump w i d' (run (bump w i d s))) s0) by (apply shape_bump, Hrun, shape_bump; assumption).
        rewrite !res_set_res. rewrite nth_map' by (rewrite zip_length; rewrite shape_res; auto).
        rewrite nth_zip by (rewrite shape_res; auto).
        rewrite nth_res_bump by (try apply Hrun, shape_bump; assumption).
        rewrite (ev_value _ _ _ _ _ _ _ Hev) by (try apply shape_bump; assumption).
        rewrite (inputs_bump j) by assumption. rewrite Hx. reflexivity. }
      destruct fm; unfold difference; cbv zeta.
      - split; [rewrite !set_res_set_res; apply Hone; intros x; apply add_at_cancel|]. intros k Hk. apply Hval; assumption.
      - split; [rewrite !set_res_set_res; apply Hone; intros x; apply add_at_cancel'|]. intros k Hk. apply Hval; assumption.
      - set (s2 := run (bump w i h s)).
        assert (Hs2 : same_shape s2 s0) by (apply Hrun, shape_bump; assumption).
        assert (Hx2 : inputs ins s2 = add_at j h (inputs ins s0)).
        { unfold s2. rewrite inputs_run by (apply shape_bump; assumption). rewrite (inputs_bump j) by assumption. congruence. }
        assert (Hx3 : inputs ins (bump w i (fopp h) s2) = inputs ins s0).
        { rewrite (inputs_bump j) by assumption. rewrite Hx2. apply add_at_cancel. }
        set (s4 := set_res total (bump w i (fopp h) s2) (res_of total s0)).
        assert (Hs4 : same_shape s4 s0) by (apply shape_set_res; [apply shape_bump; assumption|reflexivity]).
        assert (Hx4 : inputs ins s4 = inputs ins s0).
        { apply inputs_set_res. intros w' i' Hi' _. apply read_of_inputs; assumption. }
        set (s6 := run (bump w i (fopp h) s4)).
        assert (Hs6 : same_shape s6 s0) by (apply Hrun, shape_bump; assumption).
        assert (Hx6 : inputs ins s6 = add_at j (fopp h) (inputs ins s0)).
        { unfold s6. rewrite inputs_run by (apply shape_bump; assumption). rewrite (inputs_bump j) by assumption. congruence. }
        set (v := map (fun x => x *! fopp (finv (F1 +! F1) *! finv h)) (res_of total (set_res total s6 (zip fsub (res_of total s6) (res_of total s2))))).
        pose proof (shape_res s6 Hs6) as Hl6. pose proof (shape_res s2 Hs2) as Hl2.
        assert (Hlv : length v = length (res_of total s0)).
        { unfold v. rewrite map_length, res_set_res, zip_length; congruence. }
        rewrite (set_res_set_res total s6). 
        assert (Hs7 : same_shape (set_res total s6 v) s0) by (apply shape_set_res; assumption).
        split.
        + split; [apply shape_set_res; [apply shape_bump; assumption|reflexivity]|]. split; [|apply res_set_res].
          apply inputs_set_res. intros w' i' Hi' Hnr.
          assert (Hr7 : read w' i' (set_res total s6 v) = read w' i' s6).
          { unfold set_res, in_res in *. destruct total; destruct w'; try reflexivity; discriminate. }
          assert (Hr8 : read w' i' (bump w i h s6) = read w' i' s0).
          { apply read_of_inputs; [|assumption]. rewrite (inputs_bump j) by assumption. rewrite Hx6. apply add_at_cancel'. }
          rewrite read_bump by assumption. rewrite Hr7. rewrite read_bump in Hr8 by assumption. exact Hr8.
        + intros k Hk. rewrite nth_res_bump by assumption. rewrite res_set_res. unfold v.
          destruct (Hni k Hk) as [Hlt _]. rewrite res_set_res.
          rewrite nth_map' by (rewrite zip_length; congruence).
          rewrite nth_zip by congruence.
          unfold s6 at 1, s2 at 1. rewrite !(ev_value _ _ _ _ _ _ _ Hev) by (try apply shape_bump; assumption).
          rewrite !(inputs_bump j) by assumption. rewrite Hx, Hx4. reflexivity.
    Qed.

    (** ** the dictionaries *)
    Notation jac := (@jac F).
    Notation cols := (@cols F).
    Notation dget2 := (dget key2_eqb).
    Notation dget3 := (dget key3_eqb).

    Lemma key2_ne : forall a b : string * string, a <> b -> key2_eqb a b = false.
    Proof. intros a b H. destruct (key2_eqb a b) eqn:E; [|reflexivity]. apply key2_eqb_eq in E. contradiction. Qed.
    Lemma key2_refl : forall a, key2_eqb a a = true.
    Proof. intros a. apply key2_eqb_eq. reflexivity. Qed.
    Lemma key3_refl : forall a, key3_eqb a a = true.
    Proof. intros a. apply key3_eqb_eq. reflexivity. Qed.
    Lemma key3_ne : forall a b, a <> b -> key3_eqb a b = false.
    Proof. intros a b H. destruct (key3_eqb a b) eqn:E; [|reflexivity]. apply key3_eqb_eq in E. contradiction. Qed.

    Lemma dget2_dset : forall (J : jac) k k' v, dget2 (dset key2_eqb J k v) k' = if key2_eqb k' k then Some v else dget2 J k'.
    Proof. intros. apply dget_dset. apply key2_eqb_eq. Qed.
    Lemma dget3_dset : forall (J : cols) k k' v, dget3 (dset key3_eqb J k v) k' = if key3_eqb k' k then Some v else dget3 J k'.
    Proof. intros. apply dget_dset. apply key3_eqb_eq. Qed.

    Lemma dget_set_col : forall (J : jac) u p c v u' p', dget2 (set_col J u p c v) (u', p') =
        if key2_eqb (u', p') (u, p) then option_map (fun m => set_nth m c v) (dget2 J (u, p)) else dget2 J (u', p').
    Proof.
      intros. unfold set_col. destruct (dget2 J (u, p)) as [m|] eqn:E; simpl.
      - rewrite dget2_dset. reflexivity.
      - destruct (key2_eqb (u', p') (u, p)) eqn:E2; [|reflexivity]. apply key2_eqb_eq in E2. rewrite E2. assumption.
    Qed.

    Lemma fold_set_col_other : forall (outs : list fout) p c g (J : jac) u' p', (p' <> p \/ ~ In u' (map o_name outs)) ->
        dget2 (fold_left (fun J o => set_col J (o_name o) p c (g o)) outs J) (u', p') = dget2 J (u', p').
    Proof.
      induction outs as [|o outs IH]; intros p c g J u' p' H; [reflexivity|]. simpl. rewrite IH.
      - rewrite dget_set_col. rewrite key2_ne; [reflexivity|]. intros E. injection E as -> ->. destruct H as [H|H]; [auto|]. apply H. left; reflexivity.
      - destruct H as [H|H]; [left; assumption|right]. intros HI. apply H. right; assumption.
    Qed.
    Lemma fold_set_col_at : forall (outs : list fout) p c g (J : jac) o, NoDup (map o_name outs) -> In o outs ->
        dget2 (fold_left (fun J o => set_col J (o_name o) p c (g o)) outs J) (o_name o, p) =
        option_map (fun m => set_nth m c (g o)) (dget2 J (o_name o, p)).
    Proof.
      induction outs as [|o' outs IH]; intros p c g J o Hd Hi; [contradiction|]. simpl in *. apply NoDup_cons_iff in Hd. destruct Hd as [Hd1 Hd2].
      destruct Hi as [->|Hi].
      - rewrite fold_set_col_other by (right; assumption). rewrite dget_set_col, key2_refl. reflexivity.
      - rewrite IH by assumption. rewrite dget_set_col. rewrite key2_ne; [reflexivity|]. intros E. injection E as E.
        apply Hd1. rewrite <- E. apply in_map. assumption.
    Qed.

    Lemma pass_other : forall (f : @fparam F) col idx J q u' p', (p' <> f_name f \/ u' <> q_name q) ->
        dget2 (pass_one F1 f col idx J q) (u', p') = dget2 J (u', p').
    Proof.
      intros f col idx J q u' p' H.
      assert (N : key2_eqb (u', p') (q_name q, f_name f) = false).
      { apply key2_ne. intros E. injection E as -> ->. destruct H; auto. }
      unfold pass_one. destruct (match f_src f with Some s => (q_name q =? s)%string | None => false end); [|reflexivity].
      destruct (q_idxs q) as [l|]; [|rewrite dget2_dset, N; reflexivity].
      destruct (index_of idx l) as [row|]; [|reflexivity].
      destruct (dget2 J (q_name q, f_name f)) as [m|]; [|reflexivity].
      destruct (nth_error m col) as [c|]; [|reflexivity]. rewrite dget2_dset, N; reflexivity.
    Qed.
    Lemma passes_other : forall passes (f : @fparam F) col idx J u' p', (p' <> f_name f \/ ~ In u' (map q_name passes)) ->
        dget2 (fold_left (pass_one F1 f col idx) passes J) (u', p') = dget2 J (u', p').
    Proof.
      induction passes as [|q passes IH]; intros f col idx J u' p' H; [reflexivity|]. simpl. rewrite IH.
      - apply pass_other. destruct H as [H|H]; [left; assumption|right]. intros E. apply H. left. symmetry; assumption.
      - destruct H as [H|H]; [left; assumption|right]. intros E. apply H. right. assumption.
    Qed.

    Lemma alloc_other : forall (f : @fparam F) outs passes J u p, p <> f_name f \/ (~ In u (map o_name outs) /\ ~ In u (map q_name passes)) ->
        dget2 (alloc F0 f outs passes J) (u, p) = dget2 J (u, p).
    Proof.
      intros f outs passes J u p H. unfold alloc.
      assert (G : forall passes J, p <> f_name f \/ ~ In u (map q_name passes) -> dget2 (fold_left (fun J q => dset key2_eqb J (q_name q, f_name f)
                 (repeat (repeat F0 (match q_idxs q with Some l => length l | None => q_size q end)) (length (f_idxs f))))
                 passes J) (u, p) = dget2 J (u, p)).
      { clear. induction passes as [|q passes IH]; intros J H; [reflexivity|]. simpl. rewrite IH by (destruct H as [H|H]; [left; assumption|right; intros E; apply H; right; assumption]).
        rewrite dget2_dset, key2_ne; [reflexivity|]. intros E. injection E as -> ->. destruct H as [H|H]; [auto|apply H; left; reflexivity]. }
      rewrite G by tauto.
      assert (G2 : forall outs J, p <> f_name f \/ ~ In u (map o_name outs) -> dget2 (fold_left (fun J o => dset key2_eqb J (o_name o, f_name f)
                                       (repeat (repeat F0 (length (o_rows o))) (length (f_idxs f)))) outs J) (u, p) = dget2 J (u, p)).
      { clear. induction outs as [|q outs IH]; intros J H; [reflexivity|]. simpl. rewrite IH by (destruct H as [H|H]; [left; assumption|right; intros E; apply H; right; assumption]).
        rewrite dget2_dset, key2_ne; [reflexivity|]. intros E. injection E as -> ->. destruct H as [H|H]; [auto|apply H; left; reflexivity]. }
      apply G2. tauto.
    Qed.
    Lemma alloc_out : forall (f : @fparam F) outs passes J o, In o outs -> NoDup (map o_name outs) ->
        (forall q, In q passes -> q_name q <> o_name o) ->
        dget2 (alloc F0 f outs passes J) (o_name o, f_name f) = Some (repeat (repeat F0 (length (o_rows o))) (length (f_idxs f))).
    Proof.
      intros f outs passes J o Ho Hd Hq. unfold alloc.
      assert (G : forall passes J, (forall q, In q passes -> q_name q <> o_name o) -> dget2 (fold_left (fun J q => dset key2_eqb J (q_name q, f_name f)
                 (repeat (repeat F0 (match q_idxs q with Some l => length l | None => q_size q end)) (length (f_idxs f))))
                 passes J) (o_name o, f_name f) = dget2 J (o_name o, f_name f)).
      { clear. induction passes as [|q passes IH]; intros J H; [reflexivity|]. simpl. rewrite IH by (intros q' Hq'; apply H; right; assumption).
        rewrite dget2_dset, key2_ne; [reflexivity|]. intros E. injection E as E. apply (H q); [left; reflexivity|congruence]. }
      rewrite G by assumption. clear G Hq.
      revert J. induction outs as [|o' outs IH]; intros J; [contradiction|]. simpl in *. apply NoDup_cons_iff in Hd. destruct Hd as [Hd1 Hd2].
      destruct Ho as [->|Ho]; [|apply IH; assumption].
      assert (G2 : forall outs J, ~ In (o_name o) (map o_name outs) -> dget2 (fold_left (fun J o => dset key2_eqb J (o_name o, f_name f)
                                       (repeat (repeat F0 (length (o_rows o))) (length (f_idxs f)))) outs J) (o_name o, f_name f) = dget2 J (o_name o, f_name f)).
      { clear. induction outs as [|q outs IH]; intros J H; [reflexivity|]. simpl. rewrite IH by (intros E; apply H; right; assumption).
        rewrite dget2_dset, key2_ne; [reflexivity|]. intros E. injection E as E. apply H; left; congruence. }
      rewrite G2 by assumption. rewrite dget2_dset, key2_refl. reflexivity.
    Qed.

    Lemma fold_cols_in : forall (outs : list fout) p c g (C : cols) u' p' c' v, In ((u', p', c'), v) (fold_left (fun C o => dset key3_eqb C (o_name o, p, c) (g o)) outs C) ->
        In ((u', p', c'), v) C \/ (exists o, In o outs /\ u' = o_name o /\ p' = p /\ c' = c /\ v = g o).
    Proof.
      induction outs as [|o outs IH]; intros p c g C u' p' c' v H; [left; assumption|]. simpl in H. apply IH in H. destruct H as [H|(o' & H1 & H2)].
      - assert (G : forall (C : cols) k w, In ((u', p', c'), v) (dset key3_eqb C k w) -> In ((u', p', c'), v) C \/ ((u', p', c') = k /\ v = w)).
        { clear. induction C as [|[k0 v0] C IH]; intros k w H; simpl in H.
          - destruct H as [H|[]]. injection H as -> ->. auto.
          - destruct (key3_eqb k k0) eqn:E; simpl in H.
            + apply key3_eqb_eq in E. destruct H as [H|H]; [injection H as <- <-; right; auto|left; right; assumption].
            + destruct H as [H|H]; [left; left; assumption|]. apply IH in H. destruct H; [left; right; assumption|right; assumption]. }
        apply G in H. destruct H as [H|[H1 H2]]; [left; assumption|right]. exists o. injection H1 as -> -> ->. simpl. auto 6.
      - right. exists o'. simpl. tauto.
    Qed.
    Lemma fold_cols_other : forall (outs : list fout) p c g (C : cols) u' p' c', (p' <> p \/ c' <> c \/ ~ In u' (map o_name outs)) ->
        dget3 (fold_left (fun C o => dset key3_eqb C (o_name o, p, c) (g o)) outs C) (u', p', c') = dget3 C (u', p', c').
    Proof.
      induction outs as [|o outs IH]; intros p c g J u' p' c' H; [reflexivity|]. simpl. rewrite IH.
      - rewrite dget3_dset. rewrite key3_ne; [reflexivity|]. intros E. injection E as -> -> ->. destruct H as [H|[H|H]]; auto. apply H. left; reflexivity.
      - destruct H as [H|[H|H]]; auto. right; right. intros E. apply H. right. assumption.
    Qed.
    Lemma fold_cols_at : forall (outs : list fout) p c g (C : cols) o, NoDup (map o_name outs) -> In o outs ->
        dget3 (fold_left (fun C o => dset key3_eqb C (o_name o, p, c) (g o)) outs C) (o_name o, p, c) = Some (g o).
    Proof.
      induction outs as [|o' outs IH]; intros p c g C o Hd Hi; [contradiction|]. simpl in *. apply NoDup_cons_iff in Hd. destruct Hd as [Hd1 Hd2].
      destruct Hi as [->|Hi]; [|apply IH; assumption].
      rewrite fold_cols_other by (right; right; assumption). rewrite dget3_dset, key3_refl. reflexivity.
    Qed.

    (** ** the loops *)
    Context (outs : list fout) (passes : list fpass).
    Hypothesis Hask : forall k, asked_by outs k -> asked k.
    Hypothesis Houts : NoDup (map o_name outs).
    Hypothesis Hpass : forall o q, In o outs -> In q passes -> q_name q <> o_name o.

    Definition place_eqb (a b : place * nat) : bool :=
      (match fst a, fst b with InP, InP | InU, InU => true | _, _ => false end && Nat.eqb (snd a) (snd b))%bool.
    Fixpoint pos_in (l : list (place * nat)) (p : place * nat) : nat :=
      match l with [] => 0 | q :: l' => if place_eqb p q then 0 else S (pos_in l' p) end.
    Lemma place_eqb_eq : forall a b, place_eqb a b = true <-> a = b.
    Proof.
      intros [w i] [w' i']. unfold place_eqb. simpl. rewrite andb_true_iff, Nat.eqb_eq. destruct w, w'; split; intros H; try (destruct H; congruence); try discriminate; try (injection H; auto).
    Qed.
    Lemma pos_in_ok : forall l p, In p l -> nth_error l (pos_in l p) = Some p.
    Proof.
      induction l as [|q l IH]; intros p H; [contradiction|]. simpl. destruct (place_eqb p q) eqn:E.
      - apply place_eqb_eq in E. subst. reflexivity.
      - destruct H as [->|H]; [|apply IH; assumption]. assert (place_eqb p p = true) by (apply place_eqb_eq; reflexivity). congruence.
    Qed.

    (** the column of output o for index idx of parameter f *)
    Definition colval (f : @fparam F) (o : fout) (idx : nat) : list F :=
      let i := f_start f + idx in
      map (fun t => dval (f_form f) (pos_in ins (f_where f, i)) (step_of fmul flt f (read (f_where f) i s0)) (o_start o + t)) (o_rows o).

    Notation fd_idxs := (fd_idxs F0 F1 fadd fmul fsub fopp finv flt total run).
    Notation fd_param := (fd_param F0 F1 fadd fmul fsub fopp finv flt total run).
    Notation fd_local := (fd_local F0 F1 fadd fmul fsub fopp finv flt total run).
    Notation loop := (@loop F).

    Definition own (num id n : nat) : bool := Nat.eqb (n mod num) id.

    Lemma fd_idxs_spec : forall num id (f : @fparam F) idxs col (L : loop),
        Inv (l_st L) -> (forall idx, In idx idxs -> In (f_where f, f_start f + idx) ins) ->
        let L' := fd_idxs num id (res_of total s0) outs passes f col idxs L in
        Inv (l_st L') /\ l_count L' = l_count L + length idxs /\
        (forall u p, p <> f_name f \/ (~ In u (map o_name outs) /\ ~ In u (map q_name passes)) -> dget2 (l_jac L') (u, p) = dget2 (l_jac L) (u, p)) /\
        (forall o m, In o outs -> dget2 (l_jac L) (o_name o, f_name f) = Some m -> length m = col + length idxs ->
           exists m', dget2 (l_jac L') (o_name o, f_name f) = Some m' /\ length m' = length m /\
             forall c, nth_error m' c =
                       if (Nat.leb col c && own num id (l_count L + (c - col)))%bool
                       then nth_error (map (colval f o) idxs) (c - col) else nth_error m c) /\
        (forall u p c v, In ((u, p, c), v) (l_cols L') -> In ((u, p, c), v) (l_cols L) \/
           exists o, In o outs /\ u = o_name o /\ p = f_name f /\ col <= c /\ own num id (l_count L + (c - col)) = true /\
                     nth_error (map (colval f o) idxs) (c - col) = Some v) /\
        (forall u p c, p <> f_name f \/ c < col -> dget3 (l_cols L') (u, p, c) = dget3 (l_cols L) (u, p, c)) /\
        (1 < num -> forall o c v, In o outs -> col <= c -> own num id (l_count L + (c - col)) = true ->
           nth_error (map (colval f o) idxs) (c - col) = Some v -> dget3 (l_cols L') (o_name o, f_name f, c) = Some v).
    Proof.
      intros num id f. induction idxs as [|idx idxs IH]; intros col L HI Hidx.
      - cbn. split; [assumption|]. split; [lia|]. split; [reflexivity|]. split; [|split; [auto|split; [auto|]]].
        + intros o m Ho Hm Hl. exists m. split; [assumption|]. split; [reflexivity|]. intros c.
          destruct (Nat.leb col c && own num id (l_count L + (c - col)))%bool eqn:E; [|reflexivity].
          apply andb_true_iff in E. destruct E as [E _]. apply Nat.leb_le in E.
          assert (N1 : nth_error m c = None) by (apply nth_error_None; simpl in Hl; lia). rewrite N1.
          destruct (c - col); reflexivity.
        + intros _ o c v _ _ _ H. destruct (c - col); discriminate.
      - cbn [FdModel.fd_idxs]. cbv zeta.
        pose proof (Hidx idx (or_introl eq_refl)) as Hi.
        assert (Hidx' : forall idx, In idx idxs -> In (f_where f, f_start f + idx) ins) by (intros i0 H0; apply Hidx; right; assumption).
        change (Nat.eqb (l_count L mod num) id) with (own num id (l_count L)).
        destruct (own num id (l_count L)) eqn:Eo.
        + destruct (difference_ok (f_form f) _ _ _ (step_of fmul flt f (read (f_where f) (f_start f + idx) (l_st L))) (l_st L) HI (pos_in_ok _ _ Hi)) as [HI' Hv].
          assert (Er : read (f_where f) (f_start f + idx) (l_st L) = read (f_where f) (f_start f + idx) s0).
          { apply read_of_inputs; [apply HI|assumption]. }
          set (sd := difference F1 fadd fmul fsub fopp finv total run (f_form f) (f_where f) (f_start f + idx)
                 (step_of fmul flt f (read (f_where f) (f_start f + idx) (l_st L))) (res_of total s0) (l_st L)) in *.
          assert (Ep : forall o, In o outs -> picked F0 o (res_of total sd) = colval f o idx).
          { intros o Ho. unfold picked, colval. apply map_ext_in. intros t Ht. rewrite Hv.
            - rewrite Er. reflexivity.
            - apply Hask. exists o, t. auto. }
          set (J1 := fold_left (fun J o => set_col J (o_name o) (f_name f) col (picked F0 o (res_of total sd))) outs (l_jac L)).
          set (C1 := if Nat.ltb 1 num then fold_left (fun C o => dset key3_eqb C (o_name o, f_name f, col) (picked F0 o (res_of total sd))) outs (l_cols L) else l_cols L).
          set (J2 := fold_left (pass_one F1 f col idx) passes J1).
          specialize (IH (S col) (mkL (set_res total sd (res_of total s0)) (S (l_count L)) J2 C1) HI' Hidx').
          cbv zeta in IH. cbn [l_st l_count l_jac l_cols] in IH.
          destruct IH as (A1 & A2 & A3 & A4 & A5 & A6 & A7).
          split; [exact A1|]. split; [rewrite A2; simpl; lia|]. split; [|split; [|split; [|split]]].
          * intros u p Hp. rewrite A3 by assumption. unfold J2. rewrite passes_other by tauto. unfold J1. apply fold_set_col_other. tauto.
          * intros o m Ho Hm Hl.
            assert (Hm2 : dget2 J2 (o_name o, f_name f) = Some (set_nth m col (colval f o idx))).
            { unfold J2. rewrite passes_other.
              - unfold J1. rewrite fold_set_col_at by assumption. rewrite Hm. simpl. rewrite Ep by assumption. reflexivity.
              - right. intros HIn. apply in_map_iff in HIn. destruct HIn as (q & Hq1 & Hq2). apply (Hpass o q); assumption. }
            destruct (A4 o _ Ho Hm2) as (m' & B1 & B2 & B3); [rewrite set_nth_length; simpl in Hl; lia|].
            exists m'. split; [exact B1|]. split; [rewrite B2; apply set_nth_length|]. intros c. rewrite B3.
            rewrite nth_error_set_nth by (simpl in Hl; lia).
            destruct (Nat.eqb_spec c col) as [->|Hc].
            -- rewrite Nat.sub_diag, Nat.leb_refl, Nat.add_0_r, Eo. assert (Nat.leb (S col) col = false) by (apply Nat.leb_gt; lia). rewrite H. reflexivity.
            -- destruct (Nat.leb (S col) c) eqn:E1.
               ++ apply Nat.leb_le in E1. assert (E2 : Nat.leb col c = true) by (apply Nat.leb_le; lia). rewrite E2.
                  replace (l_count L + (c - col)) with (S (l_count L) + (c - S col)) by lia.
                  replace (c - col) with (S (c - S col)) by lia. reflexivity.
               ++ apply Nat.leb_gt in E1. assert (E2 : Nat.leb col c = false) by (apply Nat.leb_gt; lia). rewrite E2. reflexivity.
          * intros u p c v HIn. destruct (A5 u p c v HIn) as [HC|(o & B1 & B2 & B3 & B4 & B5 & B6)].
            -- unfold C1 in HC. destruct (Nat.ltb 1 num); [|left; assumption].
               apply fold_cols_in in HC. destruct HC as [HC|(o & C2 & C3 & C4 & C5 & C6)]; [left; assumption|right].
               exists o. subst c. rewrite Nat.sub_diag, Nat.add_0_r. repeat split; auto. simpl. rewrite C6. f_equal. symmetry; apply Ep; assumption.
            -- right. exists o. replace (l_count L + (c - col)) with (S (l_count L) + (c - S col)) by lia.
               replace (c - col) with (S (c - S col)) by lia. repeat split; auto. lia.
          * intros u p c Hp. rewrite A6 by (destruct Hp; [left; assumption|right; lia]). unfold C1. destruct (Nat.ltb 1 num); [|reflexivity].
            apply fold_cols_other. destruct Hp; [left; assumption|right; left; lia].
          * intros Hn o c v Ho Hc Hw Hnth. destruct (Nat.eq_dec c col) as [->|Hne].
            -- rewrite A6 by (right; lia). unfold C1. assert (E : Nat.ltb 1 num = true) by (apply Nat.ltb_lt; assumption). rewrite E.
               rewrite fold_cols_at by assumption. rewrite Nat.sub_diag in Hnth. simpl in Hnth. rewrite Ep by assumption. assumption.
            -- apply A7; auto; [lia| |].
               ++ replace (S (l_count L) + (c - S col)) with (l_count L + (c - col)) by lia. assumption.
               ++ replace (c - col) with (S (c - S col)) in Hnth by lia. exact Hnth.
        + specialize (IH (S col) (mkL (l_st L) (S (l_count L)) (l_jac L) (l_cols L)) HI Hidx').
          cbv zeta in IH. cbn [l_st l_count l_jac l_cols] in IH.
          destruct IH as (A1 & A2 & A3 & A4 & A5 & A6 & A7).
          split; [exact A1|]. split; [rewrite A2; simpl; lia|]. split; [exact A3|]. split; [|split; [|split]].
          * intros o m Ho Hm Hl. destruct (A4 o _ Ho Hm) as (m' & B1 & B2 & B3); [simpl in Hl; lia|].
            exists m'. split; [exact B1|]. split; [exact B2|]. intros c. rewrite B3.
            destruct (Nat.eqb_spec c col) as [->|Hc].
            -- rewrite Nat.sub_diag, Nat.leb_refl, Nat.add_0_r, Eo. assert (Nat.leb (S col) col = false) by (apply Nat.leb_gt; lia). rewrite H. reflexivity.
            -- destruct (Nat.leb (S col) c) eqn:E1.
               ++ apply Nat.leb_le in E1. assert (E2 : Nat.leb col c = true) by (apply Nat.leb_le; lia). rewrite E2.
                  replace (l_count L + (c - col)) with (S (l_count L) + (c - S col)) by lia.
                  replace (c - col) with (S (c - S col)) by lia. reflexivity.
               ++ apply Nat.leb_gt in E1. assert (E2 : Nat.leb col c = false) by (apply Nat.leb_gt; lia). rewrite E2. reflexivity.
          * intros u p c v HIn. destruct (A5 u p c v HIn) as [HC|(o & B1 & B2 & B3 & B4 & B5 & B6)]; [left; assumption|].
            right. exists o. replace (l_count L + (c - col)) with (S (l_count L) + (c - S col)) by lia.
            replace (c - col) with (S (c - S col)) by lia. repeat split; auto. lia.
          * intros u p c Hp. apply A6. destruct Hp; [left; assumption|right; lia].
          * intros Hn o c v Ho Hc Hw Hnth. destruct (Nat.eq_dec c col) as [->|Hne].
            -- rewrite Nat.sub_diag, Nat.add_0_r in Hw. congruence.
            -- apply A7; auto; [lia| |].
               ++ replace (S (l_count L) + (c - S col)) with (l_count L + (c - col)) by lia. assumption.
               ++ replace (c - col) with (S (c - S col)) in Hnth by lia. exact Hnth.
    Qed.

    Lemma fd_params_spec : forall num id (params : list (@fparam F)) (L : loop),
        Inv (l_st L) -> (forall f idx, In f params -> In idx (f_idxs f) -> In (f_where f, f_start f + idx) ins) ->
        NoDup (map f_name params) ->
        let L' := fold_left (fd_param num id (res_of total s0) outs passes) params L in
        Inv (l_st L') /\
        (forall u p, ~ In p (map f_name params) \/ (~ In u (map o_name outs) /\ ~ In u (map q_name passes)) -> dget2 (l_jac L') (u, p) = dget2 (l_jac L) (u, p)) /\
        (forall u p c, ~ In p (map f_name params) -> dget3 (l_cols L') (u, p, c) = dget3 (l_cols L) (u, p, c)) /\
        (forall k f o, nth_error params k = Some f -> In o outs ->
           exists m', dget2 (l_jac L') (o_name o, f_name f) = Some m' /\ length m' = length (f_idxs f) /\
             forall c, nth_error m' c =
                       if own num id (l_count L + column_number params k c)
                       then nth_error (map (colval f o) (f_idxs f)) c
                       else nth_error (repeat (repeat F0 (length (o_rows o))) (length (f_idxs f))) c) /\
        (forall u p c v, In ((u, p, c), v) (l_cols L') -> In ((u, p, c), v) (l_cols L) \/
           exists k f o, nth_error params k = Some f /\ In o outs /\ u = o_name o /\ p = f_name f /\
                     own num id (l_count L + column_number params k c) = true /\
                     nth_error (map (colval f o) (f_idxs f)) c = Some v) /\
        (1 < num -> forall k f o c v, nth_error params k = Some f -> In o outs ->
           own num id (l_count L + column_number params k c) = true ->
           nth_error (map (colval f o) (f_idxs f)) c = Some v -> dget3 (l_cols L') (o_name o, f_name f, c) = Some v).
    Proof.
      intros num id. induction params as [|f params IH]; intros L HI Hin' Hd.
      - cbn. split; [assumption|]. split; [auto|]. split; [auto|]. split; [|split; [auto|]].
        + intros [|k] f o H; discriminate.
        + intros _ [|k] f o c v H; discriminate.
      - cbn [fold_left map] in *. apply NoDup_cons_iff in Hd. destruct Hd as [Hd1 Hd2].
        set (L1 := fd_param num id (res_of total s0) outs passes L f).
        pose proof (fd_idxs_spec num id f (f_idxs f) 0 (mkL (l_st L) (l_count L) (alloc F0 f outs passes (l_jac L)) (l_cols L)) HI
                      (fun idx Hx => Hin' f idx (or_introl eq_refl) Hx)) as S1.
        cbv zeta in S1. cbn [l_st l_count l_jac l_cols] in S1.
        change (fd_idxs num id (res_of total s0) outs passes f 0 (f_idxs f)
                  (mkL (l_st L) (l_count L) (alloc F0 f outs passes (l_jac L)) (l_cols L))) with L1 in S1.
        destruct S1 as (B1 & B2 & B3 & B4 & B5 & B6 & B7).
        specialize (IH L1 B1 (fun f' idx Hf Hx => Hin' f' idx (or_intror Hf) Hx) Hd2). cbv zeta in IH.
        destruct IH as (A1 & A2 & A3 & A4 & A5 & A6).
        assert (Hcn : forall k c, l_count L1 + column_number params k c = l_count L + column_number (f :: params) (S k) c).
        { intros k c. rewrite B2. simpl. lia. }
        split; [exact A1|]. split; [|split; [|split; [|split]]].
        + intros u p Hp. rewrite A2.
          * rewrite B3; [apply alloc_other|]; (destruct Hp as [Hp|Hp]; [left|right; assumption]; intros E; apply Hp; left; congruence).
          * destruct Hp as [Hp|Hp]; [left; intros E; apply Hp; right; assumption|right; assumption].
        + intros u p c Hp. rewrite A3 by (intros E; apply Hp; right; assumption). apply B6. left. intros E. apply Hp. left. congruence.
        + intros [|k] f' o Hk Ho.
          * simpl in Hk. injection Hk as <-.
            assert (Hal : dget2 (alloc F0 f outs passes (l_jac L)) (o_name o, f_name f) = Some (repeat (repeat F0 (length (o_rows o))) (length (f_idxs f)))).
            { apply alloc_out; auto. }
            destruct (B4 o _ Ho Hal) as (m' & C1 & C2 & C3); [rewrite repeat_length; reflexivity|].
            exists m'. split; [rewrite A2 by (left; assumption); exact C1|]. split; [rewrite C2; apply repeat_length|].
            intros c. rewrite C3. rewrite Nat.sub_0_r. reflexivity.
          * simpl in Hk. destruct (A4 k f' o Hk Ho) as (m' & C1 & C2 & C3). exists m'. split; [exact C1|]. split; [exact C2|].
            intros c. rewrite C3. rewrite Hcn. reflexivity.
        + intros u p c v HIn. destruct (A5 u p c v HIn) as [H1|(k & f' & o & C1 & C2 & C3 & C4 & C5 & C6)].
          * destruct (B5 u p c v H1) as [H2|(o & C1 & C2 & C3 & C4 & C5 & C6)]; [left; assumption|right].
            exists 0, f, o. rewrite Nat.sub_0_r in *. repeat split; auto.
          * right. exists (S k), f', o. rewrite <- Hcn. repeat split; auto.
        + intros Hn [|k] f' o c v Hk Ho Hw Hv.
          * simpl in Hk. injection Hk as <-. rewrite A3 by assumption. apply B7; auto; [lia| |]; rewrite Nat.sub_0_r; assumption.
          * simpl in Hk. apply (A6 Hn k); auto. rewrite Hcn. assumption.
    Qed.

    (** the Jacobian asked for *)
    Definition full_block (f : @fparam F) (o : fout) : list (list F) := map (colval f o) (f_idxs f).

    Context (params : list (@fparam F)).
    Hypothesis Hparams : steps_inputs ins params.
    Hypothesis Hnames : NoDup (map f_name params).

    Lemma own_one : forall n, own 1 0 n = true.
    Proof. intros n. unfold own. rewrite Nat.mod_1_r. reflexivity. Qed.

    Lemma serial_spec : Inv (l_st (fd_local 1 0 outs passes params s0)) /\
        (forall f o, In f params -> In o outs -> dget2 (l_jac (fd_local 1 0 outs passes params s0)) (o_name o, f_name f) = Some (full_block f o)) /\
        (forall u p, ~ In p (map f_name params) \/ (~ In u (map o_name outs) /\ ~ In u (map q_name passes)) ->
             dget2 (l_jac (fd_local 1 0 outs passes params s0)) (u, p) = None).
    Proof.
      destruct (fd_params_spec 1 0 params (mkL s0 0 [] []) Inv0 Hparams Hnames) as (A1 & A2 & A3 & A4 & A5 & A6).
      split; [exact A1|]. split.
      - intros f o Hf Ho. apply In_nth_error in Hf. destruct Hf as [k Hk]. destruct (A4 k f o Hk Ho) as (m & B1 & B2 & B3).
        etransitivity; [exact B1|]. f_equal. apply nth_error_ext_list. intros c. rewrite B3, own_one. reflexivity.
      - intros u p H. etransitivity; [apply A2; exact H|]. reflexivity.
    Qed.

    (** ** merging *)
    Definition right_col (kv : (string * string * nat) * list F) : Prop :=
      exists f o, In f params /\ In o outs /\ fst kv = (o_name o, f_name f, snd (fst kv)) /\
                  nth_error (full_block f o) (snd (fst kv)) = Some (snd kv).
    Definition Mg (JC : jac * cols) : Prop :=
      (forall f o, In f params -> In o outs -> exists m, dget2 (fst JC) (o_name o, f_name f) = Some m /\ length m = length (f_idxs f) /\
         forall c v, dget3 (snd JC) (o_name o, f_name f, c) = Some v -> nth_error m c = nth_error (full_block f o) c) /\
      (forall u p, ~ In p (map f_name params) \/ ~ In u (map o_name outs) -> passes = [] -> dget2 (fst JC) (u, p) = None).

    Lemma merge_one_ok : forall JC kv, Mg JC -> right_col kv -> Mg (merge_one JC kv) /\
        (forall k v, dget3 (snd JC) k = Some v -> exists v', dget3 (snd (merge_one JC kv)) k = Some v') /\
        (exists v', dget3 (snd (merge_one JC kv)) (fst kv) = Some v').
    Proof.
      intros [J C] [[[u p] c] v] (HM & HN) (f & o & Hf & Ho & Hk & Hv). simpl in Hk, Hv. injection Hk as -> ->.
      unfold merge_one. destruct (dget3 C (o_name o, f_name f, c)) as [w|] eqn:E.
      - split; [split; assumption|]. split; [eauto|]. simpl. eauto.
      - cbn [fst snd]. split; [split|split].
        + intros f' o' Hf' Ho'. destruct (HM f' o' Hf' Ho') as (m & B1 & B2 & B3). cbn [fst snd] in *. rewrite dget_set_col.
          destruct (key2_eqb (o_name o', f_name f') (o_name o, f_name f)) eqn:E2.
          * apply key2_eqb_eq in E2. rewrite <- E2. rewrite B1. simpl. eexists. split; [reflexivity|]. split; [rewrite set_nth_length; assumption|].
            assert (Hlt : c < length m).
            { rewrite B2. assert (HH : nth_error (full_block f o) c <> None) by congruence. apply nth_error_Some in HH.
              unfold full_block in HH. rewrite map_length in HH. injection E2 as Eo Ef.
              assert (f = f') by (eapply NoDup_map_inv_eq; eauto). subst. assumption. }
            assert (Hff : f = f' /\ o = o').
            { injection E2 as Eo Ef. split; [eapply (NoDup_map_inv_eq f_name); eauto|eapply (NoDup_map_inv_eq o_name); eauto]. }
            destruct Hff as [<- <-].
            intros c' v' Hc'. rewrite nth_error_set_nth by assumption. rewrite dget3_dset in Hc'.
            destruct (Nat.eqb_spec c' c) as [->|Hne]; [symmetry; assumption|].
            rewrite key3_ne in Hc' by (intros EE; injection EE as EE; contradiction). eapply B3; eassumption.
          * exists m. split; [assumption|]. split; [assumption|]. intros c' v' Hc'. rewrite dget3_dset in Hc'.
            rewrite key3_ne in Hc' by (intros EE; injection EE as E3 E4 E5; rewrite E3, E4, key2_refl in E2; discriminate).
            eapply B3; eassumption.
        + intros u p H Hp. cbn [fst] in *. rewrite dget_set_col. rewrite key2_ne; [apply HN; assumption|].
          intros EE. injection EE as -> ->. destruct H as [H|H]; apply H; apply in_map; assumption.
        + intros k w Hk. rewrite dget3_dset. destruct (key3_eqb k (o_name o, f_name f, c)); eauto.
        + rewrite dget3_dset, key3_refl. eauto.
    Qed.

    Lemma merge_all_ok : forall cs JC, Mg JC -> (forall kv, In kv cs -> right_col kv) -> Mg (fold_left merge_one cs JC) /\
        (forall k v, dget3 (snd JC) k = Some v -> exists v', dget3 (snd (fold_left merge_one cs JC)) k = Some v') /\
        (forall k v, dget3 cs k = Some v -> exists v', dget3 (snd (fold_left merge_one cs JC)) k = Some v').
    Proof.
      induction cs as [|kv cs IH]; intros JC HM Hr.
      - simpl. split; [assumption|]. split; [eauto|discriminate].
      - simpl fold_left. destruct (merge_one_ok JC kv HM (Hr kv (or_introl eq_refl))) as (B1 & B2 & B3).
        destruct (IH (merge_one JC kv) B1 (fun kv' H => Hr kv' (or_intror H))) as (A1 & A2 & A3).
        split; [exact A1|]. split.
        + intros k v Hk. destruct (B2 k v Hk) as [v' Hv']. eapply A2; eassumption.
        + intros k v Hk. destruct kv as [k0 v0]. simpl in Hk. destruct (key3_eqb k k0) eqn:E.
          * apply key3_eqb_eq in E. subst k0. destruct B3 as [v' Hv']. eapply A2; exact Hv'.
          * eapply A3; eassumption.
    Qed.

    Lemma merge_ranks_ok : forall all me rank JC, Mg JC -> (forall cs kv, In cs all -> In kv cs -> right_col kv) ->
        Mg (merge_ranks me rank all JC) /\
        (forall k v, dget3 (snd JC) k = Some v -> exists v', dget3 (snd (merge_ranks me rank all JC)) k = Some v') /\
        (forall r cs k v, nth_error all r = Some cs -> rank + r <> me -> dget3 cs k = Some v ->
             exists v', dget3 (snd (merge_ranks me rank all JC)) k = Some v').
    Proof.
      induction all as [|cs all IH]; intros me rank JC HM Hr.
      - simpl. split; [assumption|]. split; [eauto|]. intros [|r] cs k v H; discriminate.
      - simpl merge_ranks. set (JC1 := if Nat.eqb rank me then JC else fold_left merge_one cs JC).
        destruct (merge_all_ok cs JC HM (fun kv H => Hr cs kv (or_introl eq_refl) H)) as (B1 & B2 & B3).
        assert (HM1 : Mg JC1) by (unfold JC1; destruct (Nat.eqb rank me); assumption).
        destruct (IH me (S rank) JC1 HM1 (fun cs' kv H H' => Hr cs' kv (or_intror H) H')) as (A1 & A2 & A3).
        split; [exact A1|]. split.
        + intros k v Hk. assert (exists v', dget3 (snd JC1) k = Some v') as [v' Hv'] by (unfold JC1; destruct (Nat.eqb rank me); eauto).
          eapply A2; eassumption.
        + intros [|r] cs' k v Hn Hne Hk.
          * simpl in Hn. injection Hn as <-. assert (exists v', dget3 (snd JC1) k = Some v') as [v' Hv'].
            { unfold JC1. destruct (Nat.eqb_spec rank me); [exfalso; lia|]. eapply B3; eassumption. }
            eapply A2; eassumption.
          * simpl in Hn. eapply (A3 r); eauto. lia.
    Qed.

    Lemma parallel_spec : forall num ids me, 1 < num -> me < length ids -> (forall id, id < num -> In id ids) ->
        let J := fd_parallel F0 F1 fadd fmul fsub fopp finv flt total run num ids outs passes params s0 me in
        (forall f o, In f params -> In o outs -> dget2 J (o_name o, f_name f) = Some (full_block f o)) /\
        (forall u p, ~ In p (map f_name params) \/ ~ In u (map o_name outs) -> passes = [] -> dget2 J (u, p) = None).
    Proof.
      intros num ids me Hnum Hme Hids J. unfold fd_parallel in J.
      set (loc := fun id => fd_local num id outs passes params s0).
      assert (Spec : forall id, _) by (intros id; exact (fd_params_spec num id params (mkL s0 0 [] []) Inv0 Hparams Hnames)).
      cbv zeta in Spec. cbn [l_st l_count l_jac l_cols] in Spec. simpl plus in Spec.
      change (forall id : nat, let L' := loc id in
        Inv (l_st L') /\
        (forall u p, ~ In p (map f_name params) \/ (~ In u (map o_name outs) /\ ~ In u (map q_name passes)) -> dget2 (l_jac L') (u, p) = None) /\
        (forall u p c, ~ In p (map f_name params) -> dget3 (l_cols L') (u, p, c) = None) /\
        (forall k f o, nth_error params k = Some f -> In o outs ->
           exists m', dget2 (l_jac L') (o_name o, f_name f) = Some m' /\ length m' = length (f_idxs f) /\
             forall c, nth_error m' c =
                       if own num id (column_number params k c)
                       then nth_error (map (colval f o) (f_idxs f)) c
                       else nth_error (repeat (repeat F0 (length (o_rows o))) (length (f_idxs f))) c) /\
        (forall u p c v, In ((u, p, c), v) (l_cols L') -> False \/
           exists k f o, nth_error params k = Some f /\ In o outs /\ u = o_name o /\ p = f_name f /\
                     own num id (column_number params k c) = true /\
                     nth_error (map (colval f o) (f_idxs f)) c = Some v) /\
        (1 < num -> forall k f o c v, nth_error params k = Some f -> In o outs ->
           own num id (column_number params k c) = true ->
           nth_error (map (colval f o) (f_idxs f)) c = Some v -> dget3 (l_cols L') (o_name o, f_name f, c) = Some v)) in Spec.
      destruct (nth_error ids me) as [myid|] eqn:Eme; [|apply nth_error_None in Eme; lia].
      assert (EJ : J = fst (merge_ranks me 0 (map l_cols (map loc ids)) (l_jac (loc myid), l_cols (loc myid)))).
      { unfold J. rewrite nth_error_map, Eme. reflexivity. }
      clearbody J. subst J.
      assert (HM : Mg (l_jac (loc myid), l_cols (loc myid))).
      { destruct (Spec myid) as (A1 & A2 & A3 & A4 & A5 & A6). split; cbn [fst snd].
        - intros f o Hf Ho. apply In_nth_error in Hf. destruct Hf as [k Hk]. destruct (A4 k f o Hk Ho) as (m & B1 & B2 & B3).
          exists m. split; [exact B1|]. split; [exact B2|]. intros c v Hc. rewrite B3.
          apply (dget_in _ key3_eqb_eq) in Hc. destruct (A5 _ _ _ _ Hc) as [[]|(k' & f' & o' & C1 & C2 & C3 & C4 & C5 & C6)].
          assert (f = f') by (eapply (NoDup_map_inv_eq f_name); eauto using nth_error_In). subst f'.
          assert (k = k').
          { apply (proj1 (NoDup_nth_error (map f_name params)) Hnames).
            - rewrite map_length. apply nth_error_Some. congruence.
            - rewrite !nth_error_map, Hk, C1. reflexivity. }
          subst k'. rewrite C5. reflexivity.
        - intros u p H Hp. apply A2. destruct H as [H|H]; [left; assumption|right; split; [assumption|rewrite Hp; auto]]. }
      assert (Hr : forall cs kv, In cs (map l_cols (map loc ids)) -> In kv cs -> right_col kv).
      { intros cs [[[u p] c] v] Hcs Hkv. apply in_map_iff in Hcs. destruct Hcs as (L & <- & HL). apply in_map_iff in HL. destruct HL as (id & <- & Hid).
        destruct (Spec id) as (A1 & A2 & A3 & A4 & A5 & A6). destruct (A5 _ _ _ _ Hkv) as [[]|(k & f & o & C1 & C2 & C3 & C4 & C5 & C6)].
        exists f, o. simpl. subst. split; [eapply nth_error_In; eassumption|]. auto. }
      destruct (merge_ranks_ok _ me 0 _ HM Hr) as ((G1 & G1') & G2 & G3). cbn [fst snd] in *.
      split; [|exact G1'].
      intros f o Hf Ho. destruct (G1 f o Hf Ho) as (m & B1 & B2 & B3). rewrite B1. f_equal.
      apply nth_error_ext_list. intros c. destruct (nth_error (full_block f o) c) as [v|] eqn:Ec.
      - rewrite <- Ec. apply In_nth_error in Hf. destruct Hf as [k Hk].
        set (id := column_number params k c mod num).
        assert (Hid : id < num) by (apply Nat.mod_upper_bound; lia).
        destruct (In_nth_error _ _ (Hids id Hid)) as [r Hrr].
        destruct (Spec id) as (A1 & A2 & A3 & A4 & A5 & A6).
        assert (Hown : own num id (column_number params k c) = true) by (unfold own; apply Nat.eqb_refl).
        pose proof (A6 Hnum k f o c v Hk Ho Hown Ec) as Hg.
        assert (exists v', dget3 (snd (merge_ranks me 0 (map l_cols (map loc ids)) (l_jac (loc myid), l_cols (loc myid)))) (o_name o, f_name f, c) = Some v') as [v' Hv'].
        { destruct (Nat.eq_dec r me) as [->|Hne].
          - assert (id = myid) by congruence. apply (G2 _ v). rewrite <- H. exact Hg.
          - apply (G3 r (l_cols (loc id)) _ v); [rewrite !nth_error_map, Hrr; reflexivity|assumption|exact Hg]. }
        eapply B3; exact Hv'.
      - apply nth_error_None in Ec. apply nth_error_None. unfold full_block in Ec. rewrite map_length in Ec. lia.
    Qed.

    (** the columns computed by the processes *)
    Lemma columns_split : forall num k f o c, 1 < num -> nth_error params k = Some f -> In o outs -> c < length (f_idxs f) ->
        exists id, id < num /\ dmem key3_eqb (l_cols (fd_local num id outs passes params s0)) (o_name o, f_name f, c) = true /\
          forall id', dmem key3_eqb (l_cols (fd_local num id' outs passes params s0)) (o_name o, f_name f, c) = true -> id' = id.
    Proof.
      intros num k f o c Hnum Hk Ho Hc. exists (column_number params k c mod num).
      split; [apply Nat.mod_upper_bound; lia|]. split.
      - destruct (fd_params_spec num (column_number params k c mod num) params (mkL s0 0 [] []) Inv0 Hparams Hnames) as (A1 & A2 & A3 & A4 & A5 & A6).
        destruct (nth_error (map (colval f o) (f_idxs f)) c) as [v|] eqn:E.
        + unfold dmem. unfold fd_local. erewrite (A6 Hnum k f o c v); auto. unfold own. apply Nat.eqb_refl.
        + apply nth_error_None in E. rewrite map_length in E. lia.
      - intros id' H. unfold dmem in H. destruct (dget3 (l_cols (fd_local num id' outs passes params s0)) (o_name o, f_name f, c)) as [v|] eqn:E; [|discriminate].
        apply (dget_in _ key3_eqb_eq) in E.
        destruct (fd_params_spec num id' params (mkL s0 0 [] []) Inv0 Hparams Hnames) as (A1 & A2 & A3 & A4 & A5 & A6).
        destruct (A5 _ _ _ _ E) as [[]|(k' & f' & o' & C1 & C2 & C3 & C4 & C5 & C6)].
        assert (f = f') by (eapply (NoDup_map_inv_eq f_name); eauto using nth_error_In). subst f'.
        assert (k = k').
        { apply (proj1 (NoDup_nth_error (map f_name params)) Hnames).
          - rewrite map_length. apply nth_error_Some. congruence.
          - rewrite !nth_error_map, Hk, C1. reflexivity. }
        subst k'. unfold own in C5. apply Nat.eqb_eq in C5. symmetry. exact C5.
    Qed.
    Lemma columns_only : forall num id u p c, dmem key3_eqb (l_cols (fd_local num id outs passes params s0)) (u, p, c) = true ->
        exists f o, In f params /\ In o outs /\ u = o_name o /\ p = f_name f /\ c < length (f_idxs f).
    Proof.
      intros num id u p c H. unfold dmem in H. destruct (dget3 (l_cols (fd_local num id outs passes params s0)) (u, p, c)) as [v|] eqn:E; [|discriminate].
      apply (dget_in _ key3_eqb_eq) in E.
      destruct (fd_params_spec num id params (mkL s0 0 [] []) Inv0 Hparams Hnames) as (A1 & A2 & A3 & A4 & A5 & A6).
      destruct (A5 _ _ _ _ E) as [[]|(k' & f' & o' & C1 & C2 & C3 & C4 & C5 & C6)].
      exists f', o'. split; [eapply nth_error_In; eassumption|]. repeat split; auto.
      assert (HH : nth_error (map (colval f' o') (f_idxs f')) c <> None) by congruence. apply nth_error_Some in HH. rewrite map_length in HH. assumption.
    Qed.

    (** ** exactness *)
    Hypothesis two : F1 +! F1 <> F0.
    Context (e : nat -> pexpr F nat).
    Hypothesis Hphi : forall k x, asked k -> phi k x = peval fadd fmul fopp (at_list F0 x) (e k).


    Lemma at_list_add : forall x j d v, j < length x -> at_list F0 (add_at j d x) v = if Nat.eqb v j then at_list F0 x v +! d else at_list F0 x v.
    Proof. intros x j d v H. unfold at_list. apply nth_add_at. assumption. Qed.

    Lemma inputs_length : forall s, length (inputs ins s) = length ins.
    Proof. intros s. apply map_length. Qed.

    Lemma dval_exact : forall fm j h k, asked k -> h <> F0 -> j < length ins -> pdeg (e k) <= deg_bound fm ->
        (fm <> Central -> nth k (res_of total s0) F0 = phi k (inputs ins s0)) ->
        dval fm j h k = peval fadd fmul fopp (at_list F0 (inputs ins s0)) (pderiv F0 F1 Nat.eqb j (e k)).
    Proof.
      intros fm j h k Hk Hh Hj Hd Hc.
      assert (T : forall t, phi k (add_at j t (inputs ins s0)) =
                  peval fadd fmul fopp (at_list F0 (inputs ins s0)) (e k)
                  +! t *! peval fadd fmul fopp (at_list F0 (inputs ins s0)) (pderiv F0 F1 Nat.eqb j (e k))
                  +! t *! t *! pquad Nat.eqb j (at_list F0 (inputs ins s0)) (e k)).
      { intros t. rewrite Hphi by assumption. apply taylor.
        - destruct fm; simpl in Hd; lia.
        - intros w. apply at_list_add. rewrite inputs_length. assumption. }
      unfold dval. cbv zeta. destruct fm; simpl in Hd.
      - rewrite Hc by discriminate. rewrite T, (Hphi k (inputs ins s0)) by assumption. rewrite pquad_low by assumption. field. assumption.
      - rewrite Hc by discriminate. rewrite T, (Hphi k (inputs ins s0)) by assumption. rewrite pquad_low by assumption. field. assumption.
      - rewrite !T. field. split; assumption.
    Qed.

    Lemma step_nonzero : forall (f : @fparam F) x, f_step f <> F0 -> (f_relative f = true -> flt F0 (f_step f) = true) ->
        step_of fmul flt f x <> F0.
    Proof.
      intros f x H1 H2. unfold step_of. destruct (f_relative f) eqn:E; [|assumption].
      destruct (flt (x *! f_step f) (f_step f)) eqn:E2; [assumption|]. intros E3. rewrite E3 in E2. rewrite H2 in E2 by reflexivity. discriminate.
    Qed.

    Lemma fd_exact : forall f o c idx t row j,
        In f params -> In o outs -> nth_error (f_idxs f) c = Some idx -> nth_error (o_rows o) t = Some row ->
        nth_error ins j = Some (f_where f, f_start f + idx) ->
        f_step f <> F0 -> (f_relative f = true -> flt F0 (f_step f) = true) ->
        pdeg (e (o_start o + row)) <= deg_bound (f_form f) ->
        (f_form f <> Central -> nth (o_start o + row) (res_of total s0) F0 = phi (o_start o + row) (inputs ins s0)) ->
        jac_entry (fst (fd_serial F0 F1 fadd fmul fsub fopp finv flt total run outs passes params s0)) (o_name o) (f_name f) t c =
        Some (peval fadd fmul fopp (at_list F0 (inputs ins s0)) (pderiv F0 F1 Nat.eqb j (e (o_start o + row)))).
    Proof.
      intros f o c idx t row j Hf Ho Hc Ht Hj Hs1 Hs2 Hdeg Hcons. unfold fd_serial, jac_entry. cbn [fst].
      destruct serial_spec as (_ & S2 & _). rewrite (S2 f o Hf Ho). unfold full_block. rewrite nth_error_map, Hc. simpl.
      unfold colval. rewrite nth_error_map, Ht. simpl. f_equal.
      assert (Hj' : pos_in ins (f_where f, f_start f + idx) = j).
      { assert (HI : In (f_where f, f_start f + idx) ins) by (eapply nth_error_In; eassumption).
        apply (proj1 (NoDup_nth_error ins) Hnd).
        - apply nth_error_Some. rewrite pos_in_ok by assumption. discriminate.
        - rewrite pos_in_ok by assumption. symmetry; assumption. }
      rewrite Hj'. apply dval_exact; auto.
      - apply Hask. exists o, row. split; [assumption|]. split; [eapply nth_error_In; eassumption|reflexivity].
      - apply step_nonzero; assumption.
      - apply nth_error_Some. congruence.
    Qed.
    Lemma fd_block_shape : forall f o, In f params -> In o outs ->
        jac_shape (fst (fd_serial F0 F1 fadd fmul fsub fopp finv flt total run outs passes params s0)) (o_name o) (f_name f)
          (length (o_rows o)) (length (f_idxs f)).
    Proof.
      intros f o Hf Ho. destruct serial_spec as (_ & S2 & _). exists (full_block f o). split; [apply S2; assumption|].
      split; [apply map_length|]. apply Forall_forall. intros x Hx. apply in_map_iff in Hx. destruct Hx as (i & <- & _). apply map_length.
    Qed.
    Lemma fd_keeps : inputs ins (snd (fd_serial F0 F1 fadd fmul fsub fopp finv flt total run outs passes params s0)) = inputs ins s0 /\
        res_of total (snd (fd_serial F0 F1 fadd fmul fsub fopp finv flt total run outs passes params s0)) = res_of total s0.
    Proof. destruct serial_spec as ((_ & S1 & S2) & _). split; assumption. Qed.
  End System.

  (** ** restoration of everything, when the run keeps parameters and unknowns *)
  Lemma bump_bump : forall w i d s, bump w i (fopp d) (bump w i d s) = s.
  Proof. intros [] i d [p u r]; simpl; rewrite add_at_cancel; reflexivity. Qed.
  Lemma bump_bump' : forall w i d s, bump w i d (bump w i (fopp d) s) = s.
  Proof. intros [] i d [p u r]; simpl; rewrite add_at_cancel'; reflexivity. Qed.

  Definition keeps_pu (run : st -> st) (s0 : st) : Prop :=
    forall s, same_shape s s0 -> s_p (run s) = s_p s /\ s_u (run s) = s_u s.

  Lemma set_r_ext : forall s s' : st, s_p s = s_p s' -> s_u s = s_u s' -> forall v, set_res false s v = set_res false s' v.
  Proof. intros [p u r] [p' u' r'] H1 H2 v; simpl in *. unfold set_res. simpl. congruence. Qed.
  Lemma bump_pu : forall w i d (s s' : st), s_p s = s_p s' -> s_u s = s_u s' -> s_p (bump w i d s) = s_p (bump w i d s') /\ s_u (bump w i d s) = s_u (bump w i d s').
  Proof. intros [] i d [p u r] [p' u' r'] H1 H2; simpl in *; subst; auto. Qed.

  Lemma difference_restores : forall run s0 fm w i h, keeps_pu run s0 ->
      set_res false (difference F1 fadd fmul fsub fopp finv false run fm w i h (s_r s0) s0) (s_r s0) = s0.
  Proof.
    intros run s0 fm w i h Hk.
    assert (Hsh : forall d s, same_shape s s0 -> same_shape (bump w i d s) s0).
    { intros d s (H1 & H2 & H3). unfold same_shape. destruct w; simpl; rewrite add_at_length; auto. }
    assert (H0 : same_shape s0 s0) by (repeat split).
    assert (Fin : forall s, s_p s = s_p s0 -> s_u s = s_u s0 -> set_res false s (s_r s0) = s0).
    { intros s H1 H2. rewrite (set_r_ext s s0 H1 H2). destruct s0; reflexivity. }
    assert (One : forall d d', (forall s : st, bump w i d' (bump w i d s) = s) ->
              s_p (bump w i d' (run (bump w i d s0))) = s_p s0 /\ s_u (bump w i d' (run (bump w i d s0))) = s_u s0).
    { intros d d' Hc. destruct (Hk (bump w i d s0) (Hsh d s0 H0)) as [K1 K2].
      destruct (bump_pu w i d' _ _ K1 K2) as [K3 K4]. rewrite K3, K4. rewrite Hc. auto. }
    destruct fm; unfold difference; cbv zeta.
    - apply Fin; simpl; apply One; intros s; apply bump_bump.
    - apply Fin; simpl; apply One; intros s; apply bump_bump'.
    - set (s1 := set_res false (bump w i (fopp h) (run (bump w i h s0))) (s_r s0)).
      assert (E1 : s1 = s0) by (apply Fin; apply One; intros s; apply bump_bump). rewrite E1.
      destruct (Hk (bump w i (fopp h) s0) (Hsh _ s0 H0)) as [K1 K2].
      apply Fin; [|]; set (s2 := run (bump w i (fopp h) s0)) in *;
      (match goal with |- context [bump w i h ?X] => destruct (bump_pu w i h X (bump w i (fopp h) s0)) as [K3 K4] end; [exact K1|exact K2|]);
      [rewrite K3|rewrite K4]; rewrite bump_bump'; reflexivity.
  Qed.

  Lemma fd_restores : forall run outs passes params s0 num id, keeps_pu run s0 ->
      l_st (fd_local F0 F1 fadd fmul fsub fopp finv flt false run num id outs passes params s0) = s0.
  Proof.
    intros run outs passes params s0 num id Hk. unfold fd_local.
    assert (G1 : forall f idxs col (L : @loop F), l_st L = s0 ->
      l_st (fd_idxs F0 F1 fadd fmul fsub fopp finv flt false run num id (s_r s0) outs passes f col idxs L) = s0).
    { induction idxs as [|idx idxs IH]; intros col L HL; [assumption|]. cbn [fd_idxs]. cbv zeta. apply IH.
      destruct (l_count L mod num =? id); [|assumption]. cbn [l_st]. rewrite HL. apply difference_restores. assumption. }
    assert (G : forall (L : @loop F), l_st L = s0 ->
      l_st (fold_left (fd_param F0 F1 fadd fmul fsub fopp finv flt false run num id (s_r s0) outs passes) params L) = s0).
    { induction params as [|f params IH]; intros L HL; [assumption|]. simpl. apply IH. unfold fd_param. apply G1. assumption. }
    apply G. reflexivity.
  Qed.

  (** ** an explicit component *)
  Lemma zip_neg_add : forall a b, length a = length b -> zip fsub b (zip fadd (map fopp a) b) = a.
  Proof.
    induction a as [|x a IH]; intros [|y b] H; simpl in *; try discriminate; [reflexivity|]. f_equal; [ring|]. apply IH. lia.
  Qed.
  Lemma comp_keeps : forall f s0, (forall x, length x = length (s_p s0) -> length (f x) = length (s_u s0)) -> keeps_pu (comp_apply fadd fsub fopp f) s0.
  Proof.
    intros f s0 Hf s (H1 & H2 & H3). unfold comp_apply. cbn [s_p s_u s_r]. split; [reflexivity|].
    apply zip_neg_add. rewrite Hf by assumption. assumption.
  Qed.

  Definition all_inputs (np nu : nat) : list (place * nat) := map (fun i => (InP, i)) (seq 0 np) ++ map (fun i => (InU, i)) (seq 0 nu).
  Lemma in_all : forall np nu w i, In (w, i) (all_inputs np nu) <-> (w = InP /\ i < np) \/ (w = InU /\ i < nu).
  Proof.
    intros np nu w i. unfold all_inputs. rewrite in_app_iff, !in_map_iff. split.
    - intros [(x & E & H)|(x & E & H)]; injection E as <- <-; apply in_seq in H; [left|right]; split; auto; lia.
    - intros [[-> H]|[-> H]]; [left|right]; exists i; (split; [reflexivity|apply in_seq; lia]).
  Qed.
  Lemma inputs_all : forall s : st, inputs (all_inputs (length (s_p s)) (length (s_u s))) s = s_p s ++ s_u s.
  Proof.
    intros [p u r]. unfold inputs, all_inputs. rewrite map_app, !map_map. simpl. f_equal; apply nth_error_ext_list; intros c; rewrite nth_error_map.
    - destruct (Nat.ltb_spec c (length p)).
      + rewrite (nth_error_nth' _ 0) by (rewrite seq_length; assumption). rewrite seq_nth by assumption. simpl. symmetry. apply nth_error_nth'. assumption.
      + assert (N1 : nth_error (seq 0 (length p)) c = None) by (apply nth_error_None; rewrite seq_length; assumption).
        assert (N2 : nth_error p c = None) by (apply nth_error_None; assumption). rewrite N1, N2. reflexivity.
    - destruct (Nat.ltb_spec c (length u)).
      + rewrite (nth_error_nth' _ 0) by (rewrite seq_length; assumption). rewrite seq_nth by assumption. simpl. symmetry. apply nth_error_nth'. assumption.
      + assert (N1 : nth_error (seq 0 (length u)) c = None) by (apply nth_error_None; rewrite seq_length; assumption).
        assert (N2 : nth_error u c = None) by (apply nth_error_None; assumption). rewrite N1, N2. reflexivity.
  Qed.
  Lemma NoDup_app_intro' : forall {A} (l l' : list A), NoDup l -> NoDup l' -> (forall x, In x l -> ~ In x l') -> NoDup (l ++ l').
  Proof.
    induction l as [|x l IH]; intros l' H1 H2 H3; [assumption|]. simpl. apply NoDup_cons_iff in H1. destruct H1 as [Ha Hb]. constructor.
    - rewrite in_app_iff. intros [H|H]; [auto|]. apply (H3 x); [left; reflexivity|assumption].
    - apply IH; auto. intros y Hy. apply H3. right; assumption.
  Qed.
  Lemma NoDup_all : forall np nu, NoDup (all_inputs np nu).
  Proof.
    intros np nu. unfold all_inputs. apply NoDup_app_intro'.
    - apply FinFun.Injective_map_NoDup; [|apply seq_NoDup]. intros a b H. injection H. auto.
    - apply FinFun.Injective_map_NoDup; [|apply seq_NoDup]. intros a b H. injection H. auto.
    - intros x H1 H2. apply in_map_iff in H1, H2. destruct H1 as (a & <- & _), H2 as (b & E & _). discriminate.
  Qed.


  Lemma peval_vars : forall (ex : pexpr F nat) x y, (forall v, x v = y v) -> peval fadd fmul fopp x ex = peval fadd fmul fopp y ex.
  Proof. intros. apply peval_ext. assumption. Qed.

  Lemma peval_below : forall n (ex : pexpr F nat) x y, vars_below n ex -> (forall v, v < n -> x v = y v) ->
      peval fadd fmul fopp x ex = peval fadd fmul fopp y ex.
  Proof.
    induction ex; intros x y Hb Hxy; simpl in *; auto.
    - rewrite (IHex1 x y), (IHex2 x y); tauto.
    - rewrite (IHex1 x y), (IHex2 x y); tauto.
    - rewrite (IHex x y); tauto.
  Qed.
  Lemma pderiv_below : forall n (ex : pexpr F nat) v, vars_below n ex -> vars_below n (pderiv F0 F1 Nat.eqb v ex).
  Proof. induction ex; intros w H; simpl in *; auto; intuition. Qed.

  Definition comp_res (es : list (pexpr F nat)) (np k : nat) : pexpr F nat :=
    PAdd (nth k es (PC F0)) (PNeg (PV (np + k))).

  Lemma nth_poly_out : forall es x k, k < length es -> nth k (poly_out F0 fadd fmul fopp es x) F0 = peval fadd fmul fopp (at_list F0 x) (nth k es (PC F0)).
  Proof. induction es; intros x [|k] H; simpl in *; try lia; [reflexivity|]. apply IHes. lia. Qed.

  Lemma comp_evaluates : forall es s0, Forall (vars_below (length (s_p s0))) es -> length es = length (s_u s0) -> length (s_r s0) = length (s_u s0) ->
      evaluates F0 false (comp_apply fadd fsub fopp (poly_out F0 fadd fmul fopp es)) (all_inputs (length (s_p s0)) (length (s_u s0)))
        (fun k => k < length es) (fun k x => peval fadd fmul fopp (at_list F0 x) (comp_res es (length (s_p s0)) k)) s0.
  Proof.
    intros es s0 Hv He Hr.
    assert (Hk : keeps_pu (comp_apply fadd fsub fopp (poly_out F0 fadd fmul fopp es)) s0).
    { apply comp_keeps. intros x _. unfold poly_out. rewrite map_length. assumption. }
    constructor.
    - intros s Hs. destruct (Hk s Hs) as [K1 K2]. destruct Hs as (H1 & H2 & H3). unfold same_shape. rewrite K1, K2. repeat split; auto.
      simpl. rewrite zip_length; rewrite map_length; [rewrite H2; congruence|]. unfold poly_out. rewrite map_length. congruence.
    - intros s w i Hs _. destruct (Hk s Hs) as [K1 K2]. destruct w; simpl; [reflexivity|]. f_equal. exact K2.
    - intros s k Hs Hkk. destruct Hs as (H1 & H2 & H3). simpl.
      rewrite nth_zip by (rewrite map_length; [unfold poly_out; rewrite ?map_length; congruence]).
      rewrite nth_map' by congruence. rewrite nth_poly_out by assumption.
      rewrite <- H1, <- H2, inputs_all. unfold at_list. rewrite app_nth2_plus.
      assert (E : peval fadd fmul fopp (fun j => nth j (s_p s ++ s_u s) F0) (nth k es (PC F0)) =
                  peval fadd fmul fopp (fun j => nth j (s_p s) F0) (nth k es (PC F0))).
      { apply (peval_below (length (s_p s))).
        - rewrite Forall_forall in Hv. rewrite H1. apply Hv. apply nth_In. assumption.
        - intros v Hvv. apply app_nth1. assumption. }
      rewrite E. ring.
  Qed.

  Lemma comp_fd : forall es outs params s0 f o c idx t row, F1 +! F1 <> F0 ->
      Forall (vars_below (length (s_p s0))) es -> length es = length (s_u s0) -> s_r s0 = zip fsub (poly_out F0 fadd fmul fopp es (s_p s0)) (s_u s0) ->
      NoDup (map o_name outs) -> NoDup (map f_name params) ->
      (forall o row, In o outs -> In row (o_rows o) -> o_start o + row < length es) ->
      (forall f, In f params -> f_where f = InP /\ f_step f <> F0 /\ (f_relative f = true -> flt F0 (f_step f) = true) /\
                               forall idx, In idx (f_idxs f) -> f_start f + idx < length (s_p s0)) ->
      In f params -> In o outs -> nth_error (f_idxs f) c = Some idx -> nth_error (o_rows o) t = Some row ->
      pdeg (nth (o_start o + row) es (PC F0)) <= deg_bound (f_form f) ->
      jac_entry (fst (fd_serial F0 F1 fadd fmul fsub fopp finv flt false (comp_apply fadd fsub fopp (poly_out F0 fadd fmul fopp es)) outs [] params s0))
        (o_name o) (f_name f) t c =
      Some (peval fadd fmul fopp (at_list F0 (s_p s0)) (pderiv F0 F1 Nat.eqb (f_start f + idx) (nth (o_start o + row) es (PC F0)))).
  Proof.
    intros es outs params s0 f o c idx t row H2 Hv He Hr Hno Hnp Hrows Hps Hf Ho Hc Ht Hdeg.
    assert (Hlr : length (s_r s0) = length (s_u s0)).
    { rewrite Hr. unfold poly_out. rewrite zip_length; rewrite map_length; congruence. }
    pose proof (comp_evaluates es s0 Hv He Hlr) as Hev.
    destruct (Hps f Hf) as (Hw & Hs1 & Hs2 & Hlt).
    assert (Hrow : o_start o + row < length es) by (apply Hrows; [assumption|eapply nth_error_In; eassumption]).
    assert (Hix : f_start f + idx < length (s_p s0)) by (apply Hlt; eapply nth_error_In; eassumption).
    rewrite (fd_exact false _ (all_inputs (length (s_p s0)) (length (s_u s0))) (fun k => k < length es)
              (fun k x => peval fadd fmul fopp (at_list F0 x) (comp_res es (length (s_p s0)) k)) s0 Hev) with
        (e := comp_res es (length (s_p s0))) (idx := idx) (row := row) (j := f_start f + idx); auto.
    - f_equal. rewrite inputs_all. unfold comp_res. simpl.
      assert (N : Nat.eqb (length (s_p s0) + (o_start o + row)) (f_start f + idx) = false) by (apply Nat.eqb_neq; lia). rewrite N.
      rewrite (peval_below (length (s_p s0)) _ _ (at_list F0 (s_p s0))).
      + ring.
      + apply pderiv_below. rewrite Forall_forall in Hv. apply Hv. apply nth_In. assumption.
      + intros v Hvv. unfold at_list. apply app_nth1. assumption.
    - intros w i Hi. apply in_all in Hi. destruct Hi as [[-> Hi]|[-> Hi]]; assumption.
    - intros k Hk. simpl. split; [congruence|discriminate].
    - apply NoDup_all.
    - intros k (o' & t' & A1 & A2 & ->). apply Hrows; assumption.
    - intros f' idx' Hf' Hi'. apply in_all. left. destruct (Hps f' Hf') as (B1 & _ & _ & B4). split; [assumption|]. apply B4. assumption.
    - unfold all_inputs. rewrite nth_error_app1 by (rewrite map_length, seq_length; assumption).
      rewrite nth_error_map. rewrite (nth_error_nth' _ 0) by (rewrite seq_length; assumption). rewrite seq_nth by assumption. simpl. rewrite Hw. reflexivity.
    - unfold comp_res. simpl. destruct (f_form f); simpl in *; lia.
    - intros _. simpl res_of. rewrite Hr. rewrite nth_zip by (unfold poly_out; rewrite map_length; congruence).
      rewrite nth_poly_out by assumption. rewrite inputs_all. unfold comp_res. simpl. unfold at_list. rewrite app_nth2_plus.
      rewrite (peval_below (length (s_p s0)) _ (fun k => nth k (s_p s0 ++ s_u s0) F0) (fun k => nth k (s_p s0) F0)).
      + ring.
      + rewrite Forall_forall in Hv. apply Hv. apply nth_In. assumption.
      + intros v Hvv. apply app_nth1. assumption.
  Qed.

  (** ** a solved group, total derivatives *)
  Lemma group_evaluates : forall n es s0, Forall (vars_below n) es -> length (s_p s0) = n -> length (s_u s0) = n + length es ->
      evaluates F0 true (group_solve n (poly_out F0 fadd fmul fopp es)) (map (fun i => (InU, i)) (seq 0 n))
        (fun k => n <= k < n + length es) (fun k x => peval fadd fmul fopp (at_list F0 x) (nth (k - n) es (PC F0))) s0.
  Proof.
    intros n es s0 Hv Hp Hu. constructor.
    - intros s (H1 & H2 & H3). unfold same_shape, group_solve. simpl. rewrite app_length. unfold poly_out. rewrite map_length, !firstn_length. repeat split; lia.
    - intros s w i (H1 & H2 & H3) Hi. apply in_map_iff in Hi. destruct Hi as (x & E & Hx). injection E as <- <-. apply in_seq in Hx.
      simpl. rewrite app_nth1 by (rewrite firstn_length; lia). rewrite <- (firstn_skipn n (s_u s)) at 2. rewrite app_nth1; [reflexivity|rewrite firstn_length; lia].
    - intros s k (H1 & H2 & H3) Hk. simpl. assert (Hl : length (firstn n (s_u s)) = n) by (rewrite firstn_length; lia).
      rewrite app_nth2 by lia. rewrite Hl. rewrite nth_poly_out by lia.
      apply peval_vars. intros v. unfold at_list. f_equal. unfold inputs. rewrite map_map. simpl.
      apply nth_error_ext_list. intros c. rewrite nth_error_map. destruct (Nat.ltb_spec c n) as [Hc|Hc].
      + rewrite (nth_error_nth' (seq 0 n) 0) by (rewrite seq_length; assumption). rewrite seq_nth by assumption. simpl.
        rewrite (nth_error_nth' _ F0) by lia. f_equal. rewrite <- (firstn_skipn n (s_u s)) at 2. rewrite app_nth1; [reflexivity|lia].
      + assert (N1 : nth_error (seq 0 n) c = None) by (apply nth_error_None; rewrite seq_length; assumption).
        assert (N2 : nth_error (firstn n (s_u s)) c = None) by (apply nth_error_None; lia). rewrite N1, N2. reflexivity.
  Qed.

  Lemma group_fd : forall n es outs passes params s0 f o c idx t row, F1 +! F1 <> F0 ->
      Forall (vars_below n) es -> length (s_p s0) = n -> s_u s0 = firstn n (s_u s0) ++ poly_out F0 fadd fmul fopp es (firstn n (s_u s0)) -> n <= length (s_u s0) ->
      NoDup (map o_name outs) -> NoDup (map f_name params) -> (forall o q, In o outs -> In q passes -> q_name q <> o_name o) ->
      (forall o row, In o outs -> In row (o_rows o) -> n <= o_start o + row < n + length es) ->
      (forall f, In f params -> f_where f = InU /\ f_step f <> F0 /\ (f_relative f = true -> flt F0 (f_step f) = true) /\
                               forall idx, In idx (f_idxs f) -> f_start f + idx < n) ->
      In f params -> In o outs -> nth_error (f_idxs f) c = Some idx -> nth_error (o_rows o) t = Some row ->
      pdeg (nth (o_start o + row - n) es (PC F0)) <= deg_bound (f_form f) ->
      let r := fd_serial F0 F1 fadd fmul fsub fopp finv flt true (group_solve n (poly_out F0 fadd fmul fopp es)) outs passes params s0 in
      jac_entry (fst r) (o_name o) (f_name f) t c =
        Some (peval fadd fmul fopp (at_list F0 (firstn n (s_u s0))) (pderiv F0 F1 Nat.eqb (f_start f + idx) (nth (o_start o + row - n) es (PC F0)))) /\
      s_u (snd r) = s_u s0.
  Proof.
    intros n es outs passes params s0 f o c idx t row H2 Hv Hp Hu Hn Hno Hnp Hop Hrows Hps Hf Ho Hc Ht Hdeg r. subst r.
    assert (Hlf : length (firstn n (s_u s0)) = n) by (rewrite firstn_length; lia).
    assert (Hlu : length (s_u s0) = n + length es) by (rewrite Hu, app_length, Hlf; unfold poly_out; rewrite map_length; reflexivity).
    pose proof (group_evaluates n es s0 Hv Hp Hlu) as Hev.
    destruct (Hps f Hf) as (Hw & Hs1 & Hs2 & Hlt).
    assert (Hrow : n <= o_start o + row < n + length es) by (apply Hrows; [assumption|eapply nth_error_In; eassumption]).
    assert (Hix : f_start f + idx < n) by (apply Hlt; eapply nth_error_In; eassumption).
    assert (Ein : inputs (map (fun i => (InU, i)) (seq 0 n)) s0 = firstn n (s_u s0)).
    { unfold inputs. rewrite map_map. simpl. apply nth_error_ext_list. intros x. rewrite nth_error_map. destruct (Nat.ltb_spec x n) as [Hx|Hx].
      + rewrite (nth_error_nth' (seq 0 n) 0) by (rewrite seq_length; assumption). rewrite seq_nth by assumption. simpl.
        rewrite (nth_error_nth' _ F0) by lia. f_equal. rewrite <- (firstn_skipn n (s_u s0)) at 1. rewrite app_nth1; [reflexivity|lia].
      + assert (N1 : nth_error (seq 0 n) x = None) by (apply nth_error_None; rewrite seq_length; assumption).
        assert (N2 : nth_error (firstn n (s_u s0)) x = None) by (apply nth_error_None; lia). rewrite N1, N2. reflexivity. }
    assert (I1 : in_vectors (map (fun i => (InU, i)) (seq 0 n)) s0).
    { intros w i Hi. apply in_map_iff in Hi. destruct Hi as (x & E & Hx). injection E as <- <-. apply in_seq in Hx. lia. }
    assert (I2 : not_inputs true (map (fun i => (InU, i)) (seq 0 n)) (fun k => n <= k < n + length es) s0).
    { intros k Hk. simpl. split; [lia|]. intros _ Hi. apply in_map_iff in Hi. destruct Hi as (x & E & Hx). injection E as <-. apply in_seq in Hx. lia. }
    assert (I3 : NoDup (map (fun i => (InU, i)) (seq 0 n))).
    { apply FinFun.Injective_map_NoDup; [|apply seq_NoDup]. intros a b H. injection H. auto. }
    assert (I4 : forall k, asked_by outs k -> n <= k < n + length es) by (intros k (o' & t' & A1 & A2 & ->); apply Hrows; assumption).
    assert (I5 : steps_inputs (map (fun i => (InU, i)) (seq 0 n)) params).
    { intros f' idx' Hf' Hi'. destruct (Hps f' Hf') as (B1 & _ & _ & B4). rewrite B1. apply in_map_iff. eexists. split; [reflexivity|]. apply in_seq. specialize (B4 _ Hi'). lia. }
    split.
    - rewrite (fd_exact true _ (map (fun i => (InU, i)) (seq 0 n)) (fun k => n <= k < n + length es) _ s0 Hev) with
        (e := fun k => nth (k - n) es (PC F0)) (idx := idx) (row := row) (j := f_start f + idx); auto.
      + rewrite Ein. reflexivity.
      + rewrite nth_error_map. rewrite (nth_error_nth' _ 0) by (rewrite seq_length; assumption). rewrite seq_nth by assumption. simpl. rewrite Hw. reflexivity.
      + intros _. rewrite Ein. simpl res_of. rewrite Hu at 1. rewrite app_nth2 by lia. rewrite Hlf. apply nth_poly_out. lia.
    - apply (fd_keeps true _ _ _ _ _ Hev I1 I2 I3 outs passes I4 Hno Hop params I5 Hnp).
  Qed.
End Proofs.

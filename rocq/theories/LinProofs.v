(** Proofs for the linear operators: forward and reverse products are those of
    the matrix of the system. *)
From Coq Require Import Ring_theory Ring.
From Verif Require Import Base LinModel LinSpec.
Local Open Scope string_scope.
Local Open Scope nat_scope.

Lemma inr_spec : forall off size k, inr off size k = true <-> off <= k < off + size.
Proof. intros. unfold inr. rewrite Bool.andb_true_iff, Nat.leb_le, Nat.ltb_lt. tauto. Qed.
Lemma inr_seq : forall off size k, inr off size k = true <-> In k (seq off size).
Proof. intros. rewrite inr_spec, in_seq. tauto. Qed.

Lemma col_eqb_eq : forall a b, col_eqb a b = true <-> a = b.
Proof.
  intros [a|a] [b|b]; simpl; try (split; [discriminate | intro E; inversion E]);
    rewrite Nat.eqb_eq; split; congruence.
Qed.
Lemma col_eqb_refl : forall a, col_eqb a a = true.
Proof. intros. now apply col_eqb_eq. Qed.

Lemma NoDup_app_split : forall {A} (a b : list A), NoDup (a ++ b) -> NoDup a /\ NoDup b /\ forall x, In x a -> ~ In x b.
Proof.
  induction a as [|x a IH]; intros b H; simpl in H.
  - repeat split; auto. constructor.
  - apply NoDup_cons_iff in H. destruct H as [Hx H]. destruct (IH b H) as [Ha [Hb Hd]].
    rewrite in_app_iff in Hx. repeat split; auto.
    + constructor; tauto.
    + intros y [->|Hy] Hb'; [tauto | exact (Hd y Hy Hb')].
Qed.

Section P.
  Context {F : Type} (F0 F1 : F) (fadd fmul fsub : F -> F -> F) (fopp : F -> F).
  Context (Fth : ring_theory F0 F1 fadd fmul fsub fopp eq).
  Add Ring FRing : Fth.
  Infix "+!" := fadd (at level 50, left associativity).
  Infix "*!" := fmul (at level 40, left associativity).
  Infix "-!" := fsub (at level 50, left associativity).
  Notation total := (total F0 fadd).
  Notation row_of := (row_of F0 fadd fmul).
  Notation col_of := (col_of F0 fadd fmul).
  Notation sumto := (sumto F0 fadd).

  Lemma total_app : forall A (f : A -> F) a b, total f (a ++ b) = total f a +! total f b.
  Proof. induction a as [|x a IH]; intro b; simpl; [ring | rewrite IH; ring]. Qed.
  Lemma total_ext : forall A (f g : A -> F) l, (forall a, In a l -> f a = g a) -> total f l = total g l.
  Proof.
    induction l as [|x l IH]; intro H; simpl; auto.
    rewrite (H x (or_introl eq_refl)), IH; auto. intros; apply H; right; auto.
  Qed.
  Lemma total_zero : forall A (f : A -> F) l, (forall a, In a l -> f a = F0) -> total f l = F0.
  Proof.
    induction l as [|x l IH]; intro H; simpl; auto.
    rewrite (H x (or_introl eq_refl)), IH; [ring|]. intros; apply H; right; auto.
  Qed.
  Lemma total_map : forall A B (h : A -> B) (f : B -> F) l, total f (map h l) = total (fun a => f (h a)) l.
  Proof. induction l as [|x l IH]; simpl; auto. now rewrite IH. Qed.
  Lemma total_flat_map : forall A B (h : A -> list B) (f : B -> F) l, total f (flat_map h l) = total (fun a => total f (h a)) l.
  Proof. induction l as [|x l IH]; simpl; auto. now rewrite total_app, IH. Qed.
  Lemma total_add : forall A (f g : A -> F) l, total (fun a => f a +! g a) l = total f l +! total g l.
  Proof. induction l as [|x l IH]; simpl; [ring | rewrite IH; ring]. Qed.
  Lemma total_mul_l : forall A c (f : A -> F) l, total (fun a => c *! f a) l = c *! total f l.
  Proof. induction l as [|x l IH]; simpl; [ring | rewrite IH; ring]. Qed.
  Lemma total_mul_r : forall A c (f : A -> F) l, total (fun a => f a *! c) l = total f l *! c.
  Proof. induction l as [|x l IH]; simpl; [ring | rewrite IH; ring]. Qed.
  Lemma total_swap : forall A B (f : A -> B -> F) l m,
      total (fun a => total (fun b => f a b) m) l = total (fun b => total (fun a => f a b) l) m.
  Proof.
    induction l as [|x l IH]; intros m; simpl.
    - symmetry; apply total_zero; auto.
    - rewrite IH. symmetry. rewrite <- total_add. reflexivity.
  Qed.
  Lemma sumto_total : forall n f, sumto n f = total f (seq 0 n).
  Proof.
    induction n as [|n IH]; intro f; simpl LinModel.sumto; auto.
    rewrite seq_S, total_app, IH. simpl. ring.
  Qed.
  Lemma sumto_ext : forall n f g, (forall i, i < n -> f i = g i) -> sumto n f = sumto n g.
  Proof. intros. rewrite !sumto_total. apply total_ext. intros a Ha. apply in_seq in Ha. apply H. lia. Qed.
  Lemma sumto_mul_l : forall n c f, sumto n (fun i => c *! f i) = c *! sumto n f.
  Proof. intros. rewrite !sumto_total. apply total_mul_l. Qed.
  Lemma sumto_mul_r : forall n c f, sumto n (fun i => f i *! c) = sumto n f *! c.
  Proof. intros. rewrite !sumto_total. apply total_mul_r. Qed.

  (** exactly one index contributes *)
  Lemma total_seq_pick : forall n o k f, (forall i, o <= i < o + n -> i <> k -> f i = F0) ->
      total f (seq o n) = if inr o n k then f k else F0.
  Proof.
    induction n as [|n IH]; intros o k f H; simpl.
    - destruct (inr o 0 k) eqn:E; auto. apply inr_spec in E. lia.
    - rewrite (IH (S o) k f) by (intros; apply H; lia).
      destruct (Nat.eq_dec o k) as [->|Hk].
      + destruct (inr (S k) n k) eqn:E1; [apply inr_spec in E1; lia|].
        destruct (inr k (S n) k) eqn:E2; [ring|].
        exfalso. assert (inr k (S n) k = true) by (apply inr_spec; lia). congruence.
      + rewrite (H o) by lia.
        destruct (inr (S o) n k) eqn:E1, (inr o (S n) k) eqn:E2; try ring; exfalso.
        * apply inr_spec in E1. assert (inr o (S n) k = true) by (apply inr_spec; lia). congruence.
        * apply inr_spec in E2. assert (inr (S o) n k = true) by (apply inr_spec; lia). congruence.
  Qed.

  Lemma row_of_app : forall a b x k, row_of (a ++ b) x k = row_of a x k +! row_of b x k.
  Proof. intros. apply total_app. Qed.
  Lemma col_of_app : forall a b y c, col_of (a ++ b) y c = col_of a y c +! col_of b y c.
  Proof. intros. apply total_app. Qed.
  Lemma row_of_flat : forall A (h : A -> list entry) l x k, row_of (flat_map h l) x k = total (fun a => row_of (h a) x k) l.
  Proof. intros. apply total_flat_map. Qed.
  Lemma col_of_flat : forall A (h : A -> list entry) l y c, col_of (flat_map h l) y c = total (fun a => col_of (h a) y c) l.
  Proof. intros. apply total_flat_map. Qed.
  Lemma row_ext : forall m x x' k, (forall e, In e m -> x (e_col e) = x' (e_col e)) -> row_of m x k = row_of m x' k.
  Proof. intros. apply total_ext. intros a Ha. rewrite (H a Ha). reflexivity. Qed.
  Lemma col_ext : forall m y y' c, (forall e, In e m -> y (e_row e) = y' (e_row e)) -> col_of m y c = col_of m y' c.
  Proof. intros. apply total_ext. intros a Ha. rewrite (H a Ha). reflexivity. Qed.
  Lemma row_none : forall m x k, (forall e, In e m -> e_row e <> k) -> row_of m x k = F0.
  Proof. intros. apply total_zero. intros a Ha. specialize (H a Ha). apply Nat.eqb_neq in H. now rewrite H. Qed.
  Lemma col_none : forall m y c, (forall e, In e m -> e_col e <> c) -> col_of m y c = F0.
  Proof.
    intros. apply total_zero. intros a Ha. specialize (H a Ha).
    destruct (col_eqb (e_col a) c) eqn:E; auto. apply col_eqb_eq in E. contradiction.
  Qed.
  Lemma row_add : forall m x y k, row_of m (fun c => x c +! y c) k = row_of m x k +! row_of m y k.
  Proof.
    intros. unfold LinSpec.row_of. rewrite <- total_add. apply total_ext. intros a _.
    destruct (e_row a =? k); ring.
  Qed.

  Lemma row_block : forall cc ro co nr nc f x k,
      row_of (block cc ro co nr nc f) x k =
      if inr ro nr k then sumto nc (fun j => f (k - ro) j *! x (cc (co + j))) else F0.
  Proof.
    intros. unfold block. rewrite row_of_flat.
    rewrite total_ext with (g := fun i => if ro + i =? k then sumto nc (fun j => f i j *! x (cc (co + j))) else F0).
    2:{ intros i _. unfold LinSpec.row_of. rewrite total_map. cbn [e_row e_col fst snd].
        destruct (ro + i =? k); [symmetry; apply sumto_total | apply total_zero; auto]. }
    destruct (inr ro nr k) eqn:E.
    - apply inr_spec in E. rewrite total_seq_pick with (k := k - ro).
      + replace (inr 0 nr (k - ro)) with true by (symmetry; apply inr_spec; lia).
        replace (ro + (k - ro)) with k by lia. now rewrite Nat.eqb_refl.
      + intros i _ Hi. replace (ro + i =? k) with false; auto. symmetry; apply Nat.eqb_neq. lia.
    - apply total_zero. intros i Hi. apply in_seq in Hi.
      destruct (ro + i =? k) eqn:E2; auto. apply Nat.eqb_eq in E2.
      assert (inr ro nr k = true) by (apply inr_spec; lia). congruence.
  Qed.

  Lemma col_block : forall cc ro co nr nc f y t,
      (forall a b, col_eqb (cc a) (cc b) = (a =? b)) ->
      col_of (block cc ro co nr nc f) y (cc t) =
      if inr co nc t then sumto nr (fun i => f i (t - co) *! y (ro + i)) else F0.
  Proof.
    intros cc ro co nr nc f y t Hcc. unfold block. rewrite col_of_flat.
    rewrite total_ext with (g := fun i => if inr co nc t then f i (t - co) *! y (ro + i) else F0).
    - destruct (inr co nc t); [symmetry; apply sumto_total | apply total_zero; auto].
    - intros i _. unfold LinSpec.col_of. rewrite total_map. cbn [e_row e_col fst snd].
      rewrite total_ext with (g := fun j => if co + j =? t then f i j *! y (ro + i) else F0)
        by (intros j _; now rewrite Hcc).
      destruct (inr co nc t) eqn:E.
      + apply inr_spec in E. rewrite total_seq_pick with (k := t - co).
        * replace (inr 0 nc (t - co)) with true by (symmetry; apply inr_spec; lia).
          replace (co + (t - co)) with t by lia. now rewrite Nat.eqb_refl.
        * intros j _ Hj. replace (co + j =? t) with false; auto. symmetry; apply Nat.eqb_neq. lia.
      + apply total_zero. intros j Hj. apply in_seq in Hj.
        destruct (co + j =? t) eqn:E2; auto. apply Nat.eqb_eq in E2.
        assert (inr co nc t = true) by (apply inr_spec; lia). congruence.
  Qed.

  Lemma in_block : forall cc ro co nr nc (f : nat -> nat -> F) e, In e (block cc ro co nr nc f) ->
      exists i j, i < nr /\ j < nc /\ e = (ro + i, cc (co + j), f i j).
  Proof.
    intros cc ro co nr nc f e H. unfold block in H. apply in_flat_map in H. destruct H as [i [Hi H]].
    apply in_map_iff in H. destruct H as [j [He Hj]]. apply in_seq in Hi. apply in_seq in Hj.
    exists i, j. split; [lia|]. split; [lia|]. now symmetry.
  Qed.

  Lemma col_block_other : forall cc ro co nr nc f y c, (forall a, cc a <> c) ->
      col_of (block cc ro co nr nc f) y c = F0.
  Proof.
    intros. apply col_none. intros e He. apply in_block in He.
    destruct He as [i [j [_ [_ ->]]]]. apply H.
  Qed.

  (** ** ranges *)
  Section Ranges.
    Context {A : Type} (off size : A -> nat) (g : A -> (nat -> F) -> nat -> F) (h : A -> nat -> F -> F).
    Context (Hg : forall a v k, g a v k = if inr (off a) (size a) k then h a (k - off a) (v k) else v k).
    Let cells (l : list A) := flat_map (fun a => seq (off a) (size a)) l.

    Lemma fold_out : forall l v k, ~ In k (cells l) -> fold_left (fun v a => g a v) l v k = v k.
    Proof.
      induction l as [|a l IH]; intros v k H; simpl; auto.
      unfold cells in H. simpl in H. rewrite in_app_iff in H. rewrite IH by (unfold cells; tauto).
      rewrite Hg. destruct (inr (off a) (size a) k) eqn:E; auto. apply inr_seq in E. tauto.
    Qed.
    Lemma fold_in : forall l v a k, NoDup (cells l) -> In a l -> inr (off a) (size a) k = true ->
        fold_left (fun v a => g a v) l v k = h a (k - off a) (v k).
    Proof.
      induction l as [|b l IH]; intros v a k Hn Ha Hk; [destruct Ha|].
      unfold cells in Hn. simpl in Hn. apply NoDup_app_split in Hn. destruct Hn as [_ [Hn Hd]].
      simpl. destruct (inr (off b) (size b) k) eqn:E.
      - apply inr_seq in E. rewrite fold_out by (apply Hd; exact E). rewrite Hg.
        replace (inr (off b) (size b) k) with true by (symmetry; now apply inr_seq).
        destruct Ha as [->|Ha]; auto. exfalso. apply (Hd k E). apply in_flat_map. exists a. split; auto. now apply inr_seq.
      - destruct Ha as [->|Ha]; [congruence|]. rewrite (IH _ a k Hn Ha Hk). rewrite Hg, E. reflexivity.
    Qed.
    Lemma owner : forall l k, In k (cells l) -> exists a, In a l /\ inr (off a) (size a) k = true.
    Proof. intros l k H. apply in_flat_map in H. destruct H as [a [Ha Hk]]. exists a. split; auto. now apply inr_seq. Qed.
    Lemma owner_unique : forall l a b k, NoDup (cells l) -> In a l -> In b l ->
        inr (off a) (size a) k = true -> inr (off b) (size b) k = true -> a = b.
    Proof.
      induction l as [|c l IH]; intros a b k Hn Ha Hb Hka Hkb; [destruct Ha|].
      unfold cells in Hn. simpl in Hn. apply NoDup_app_split in Hn. destruct Hn as [_ [Hn Hd]].
      assert (Hin : forall x, In x l -> inr (off x) (size x) k = true -> In k (cells l)).
      { intros x Hx Hk. apply in_flat_map. exists x. split; auto. now apply inr_seq. }
      destruct Ha as [->|Ha], Hb as [->|Hb]; auto.
      - exfalso. apply inr_seq in Hka. exact (Hd k Hka (Hin b Hb Hkb)).
      - exfalso. apply inr_seq in Hkb. exact (Hd k Hkb (Hin a Ha Hka)).
      - eapply IH; eauto.
    Qed.
    Lemma total_owner : forall (f : A -> F) l a k, NoDup (cells l) -> In a l -> inr (off a) (size a) k = true ->
        (forall b, In b l -> inr (off b) (size b) k = false -> f b = F0) -> total f l = f a.
    Proof.
      intros f. induction l as [|c l IH]; intros a k Hn Ha Hk H; [destruct Ha|].
      unfold cells in Hn. simpl in Hn. apply NoDup_app_split in Hn. destruct Hn as [_ [Hn Hd]]. simpl.
      destruct Ha as [->|Ha].
      - rewrite total_zero; [ring|]. intros b Hb. apply H; [now right|].
        destruct (inr (off b) (size b) k) eqn:E; auto. exfalso. apply inr_seq in Hk. apply (Hd k Hk).
        apply in_flat_map. exists b. split; auto. now apply inr_seq.
      - rewrite (IH a k Hn Ha Hk) by (intros; apply H; auto; now right).
        rewrite (H c (or_introl eq_refl)); [ring|].
        destruct (inr (off c) (size c) k) eqn:E; auto. exfalso. apply inr_seq in E. apply (Hd k E).
        apply in_flat_map. exists a. split; auto. now apply inr_seq.
    Qed.
  End Ranges.

  Lemma times_factor : forall o x, times fmul o x = x *! factor F1 o.
  Proof. intros [a|] x; simpl; [auto | ring]. Qed.

  Notation comp := (comp (F:=F)).
  Notation sys := (sys (F:=F)).
  Notation state := (state (F:=F)).
  Notation key_entries := (key_entries F1 fmul).
  Notation comp_mat := (comp_mat F1 fmul fopp).
  Notation sys_mat := (sys_mat F1 fmul fopp).
  Notation minus_identity := (minus_identity F1 fopp).
  Notation apply_jac := (apply_jac F0 fadd fmul).
  Notation jac_terms := (jac_terms F0 fadd fmul).
  Notation jac_term := (jac_term F0 fadd fmul).
  Notation comp_fwd := (comp_fwd F0 fadd fmul fsub).
  Notation comp_rev := (comp_rev F0 fadd fmul fsub).
  Notation sys_fwd := (sys_fwd F0 fadd fmul fsub).
  Notation sys_rev := (sys_rev F0 fadd fmul fsub).

  (** the component without scale and unit factors *)
  Definition raw (c : comp) : comp := mkC (c_params c) (c_unks c) true (c_jac c) (c_solve c).

  Lemma find_eq : forall A (f g : A -> bool) l, (forall a, f a = g a) -> find f l = find g l.
  Proof. intros A f g l H. induction l as [|a l IH]; simpl; auto. now rewrite H, IH. Qed.

  Ltac inspect := repeat match goal with |- context [if ?b then _ else _] => destruct b eqn:? end.

  (** ** one Jacobian block *)
  Lemma term_fwd : forall c s key, fits c key ->
      exists s', jac_term true c s (fst (fst key)) (snd (fst key)) (snd key) = Ok s' /\ du s' = du s /\ dp s' = dp s /\
        forall k, dr s' k = dr s k +! row_of (key_entries (raw c) key) (over (du s) (dp s)) k.
  Proof.
    intros c s [[un pn] J] Hf. unfold LinModel.jac_term. cbn [fst snd].
    unfold fits in Hf. unfold unknown_of, state_of, param_of in Hf. unfold find_u, find_p, LinSpec.key_entries.
    unfold unknown_of, state_of, param_of. cbn [c_unks c_params c_fd raw].
    destruct (find (fun u => String.eqb (u_name u) un) (c_unks c)) as [u|] eqn:Eu.
    2:{ exists s. repeat split; auto. intro k. unfold LinSpec.row_of. simpl. ring. }
    destruct (Hf u eq_refl) as [Hs Hp]. clear Hf.
    destruct (find (fun u0 => String.eqb (u_name u0) pn && u_state u0)%bool (c_unks c)) as [x|] eqn:Ex.
    - destruct (Hs x eq_refl) as [E1 E2]. unfold jdot. rewrite E2, Nat.eqb_refl. cbn [bind]. unfold iadd. cbn [fst snd].
      rewrite E1, Nat.eqb_refl. cbn [bind]. eexists. split; [reflexivity|]. cbn [du dr dp]. repeat split; auto.
      intro k. rewrite row_block. unfold at_range. destruct (inr (u_off u) (u_size u) k) eqn:E; [|ring].
      f_equal. apply sumto_ext. intros j Hj. cbn [over]. ring.
    - destruct (find (fun p => String.eqb (p_name p) pn) (c_params c)) as [p|] eqn:Ep.
      2:{ exists s. repeat split; auto. intro k. unfold LinSpec.row_of. simpl. ring. }
      destruct (Hp p eq_refl eq_refl) as [E1 E2]. unfold jdot. rewrite E2, Nat.eqb_refl. cbn [bind]. unfold iadd. cbn [fst snd].
      rewrite E1, Nat.eqb_refl. cbn [bind]. eexists. split; [reflexivity|]. cbn [du dr dp]. repeat split; auto.
      intro k. rewrite row_block. unfold at_range. destruct (inr (u_off u) (u_size u) k) eqn:E; [|ring].
      f_equal. apply sumto_ext. intros j Hj. cbn [over]. ring.
  Qed.

  Lemma term_rev : forall c s key, fits c key ->
      exists s', jac_term false c s (fst (fst key)) (snd (fst key)) (snd key) = Ok s' /\ dr s' = dr s /\
        (forall k, du s' k = du s k +! col_of (key_entries (raw c) key) (dr s) (CU k)) /\
        (forall t, dp s' t = dp s t +! col_of (key_entries (raw c) key) (dr s) (CP t)).
  Proof.
    intros c s [[un pn] J] Hf. unfold LinModel.jac_term. cbn [fst snd].
    unfold fits in Hf. unfold unknown_of, state_of, param_of in Hf. unfold find_u, find_p, LinSpec.key_entries.
    unfold unknown_of, state_of, param_of. cbn [c_unks c_params c_fd raw].
    destruct (find (fun u => String.eqb (u_name u) un) (c_unks c)) as [u|] eqn:Eu.
    2:{ exists s. split; [reflexivity|]. split; [reflexivity|]. split; intro k; unfold LinSpec.col_of; simpl; ring. }
    destruct (Hf u eq_refl) as [Hs Hp]. clear Hf.
    destruct (find (fun u0 => String.eqb (u_name u0) pn && u_state u0)%bool (c_unks c)) as [x|] eqn:Ex.
    - destruct (Hs x eq_refl) as [E1 E2]. unfold jtdot. rewrite E1, Nat.eqb_refl. cbn [bind]. unfold iadd. cbn [fst snd].
      rewrite E2, Nat.eqb_refl. cbn [bind]. eexists. split; [reflexivity|]. cbn [du dr dp]. split; [reflexivity|]. split.
      + intro k. rewrite col_block by (intros; reflexivity). unfold at_range.
        destruct (inr (u_off x) (u_size x) k) eqn:E; [|ring].
        f_equal. apply sumto_ext. intros j Hj. ring.
      + intro t. rewrite col_block_other by (intros; discriminate). ring.
    - destruct (find (fun p => String.eqb (p_name p) pn) (c_params c)) as [p|] eqn:Ep.
      2:{ exists s. split; [reflexivity|]. split; [reflexivity|]. split; intro k; unfold LinSpec.col_of; simpl; ring. }
      destruct (Hp p eq_refl eq_refl) as [E1 E2]. unfold jtdot. rewrite E1, Nat.eqb_refl. cbn [bind]. unfold iadd. cbn [fst snd].
      rewrite E2, Nat.eqb_refl. cbn [bind]. eexists. split; [reflexivity|]. cbn [du dr dp]. split; [reflexivity|]. split.
      + intro k. rewrite col_block_other by (intros; discriminate). ring.
      + intro t. rewrite col_block by (intros; reflexivity). unfold at_range.
        destruct (inr (p_off p) (p_size p) t) eqn:E; [|ring].
        f_equal. apply sumto_ext. intros j Hj. ring.
  Qed.

  Lemma terms_fwd : forall c l s, Forall (fits c) l ->
      exists s', jac_terms true c l s = Ok s' /\ du s' = du s /\ dp s' = dp s /\
        forall k, dr s' k = dr s k +! row_of (flat_map (key_entries (raw c)) l) (over (du s) (dp s)) k.
  Proof.
    induction l as [|key l IH]; intros s Hf.
    - exists s. repeat split; auto. intro k. unfold LinSpec.row_of. simpl. ring.
    - apply Forall_cons_iff in Hf. destruct Hf as [Hk Hl].
      destruct (term_fwd c s key Hk) as [s1 [E1 [U1 [P1 R1]]]].
      destruct (IH s1 Hl) as [s2 [E2 [U2 [P2 R2]]]].
      exists s2. destruct key as [[un pn] J]. cbn [LinModel.jac_terms]. cbn [fst snd] in E1. rewrite E1. cbn [bind].
      split; [exact E2|]. split; [congruence|]. split; [congruence|].
      intro k. rewrite R2, R1. cbn [flat_map]. rewrite row_of_app, U1, P1. ring.
  Qed.

  Lemma terms_rev : forall c l s, Forall (fits c) l ->
      exists s', jac_terms false c l s = Ok s' /\ dr s' = dr s /\
        (forall k, du s' k = du s k +! col_of (flat_map (key_entries (raw c)) l) (dr s) (CU k)) /\
        (forall t, dp s' t = dp s t +! col_of (flat_map (key_entries (raw c)) l) (dr s) (CP t)).
  Proof.
    induction l as [|key l IH]; intros s Hf.
    - exists s. split; [reflexivity|]. split; [reflexivity|]. split; intro k; unfold LinSpec.col_of; simpl; ring.
    - apply Forall_cons_iff in Hf. destruct Hf as [Hk Hl].
      destruct (term_rev c s key Hk) as [s1 [E1 [D1 [U1 P1]]]].
      destruct (IH s1 Hl) as [s2 [E2 [D2 [U2 P2]]]].
      exists s2. destruct key as [[un pn] J]. cbn [LinModel.jac_terms]. cbn [fst snd] in E1. rewrite E1. cbn [bind].
      split; [exact E2|]. split; [congruence|].
      split; intro k; [rewrite U2, U1 | rewrite P2, P1]; cbn [flat_map]; rewrite col_of_app, D1; ring.
  Qed.

  (** ** components *)
  Lemma zero_us_in : forall us v k, NoDup (ucells us) -> In k (ucells us) -> zero_us F0 us v k = F0.
  Proof.
    intros us v k Hn Hk. destruct (owner u_off u_size us k Hk) as [u [Hu Hr]].
    unfold zero_us. erewrite (fold_in u_off u_size _ (fun _ _ _ => F0)); eauto.
  Qed.
  Lemma zero_us_out : forall us v k, ~ In k (ucells us) -> zero_us F0 us v k = v k.
  Proof. intros us v k Hk. unfold zero_us. erewrite (fold_out u_off u_size _ (fun _ _ _ => F0)); eauto. Qed.
  Lemma zero_ps_in : forall ps v k, NoDup (pcells ps) -> In k (pcells ps) -> zero_ps F0 ps v k = F0.
  Proof.
    intros us v k Hn Hk. destruct (owner p_off p_size us k Hk) as [u [Hu Hr]].
    unfold zero_ps. erewrite (fold_in p_off p_size _ (fun _ _ _ => F0)); eauto.
  Qed.
  Lemma zero_ps_out : forall ps v k, ~ In k (pcells ps) -> zero_ps F0 ps v k = v k.
  Proof. intros us v k Hk. unfold zero_ps. erewrite (fold_out p_off p_size _ (fun _ _ _ => F0)); eauto. Qed.

  Lemma unit_in : forall c s p k, NoDup (pcells (c_params c)) -> In p (c_params c) -> inr (p_off p) (p_size p) k = true ->
      dp (unit_derivs fmul c s) k = dp s k *! factor F1 (p_unit p).
  Proof.
    intros c s p k Hn Hp Hk. unfold unit_derivs. cbn [dp].
    erewrite (fold_in p_off p_size _ (fun p _ x => times fmul (p_unit p) x)); eauto. apply times_factor.
  Qed.
  Lemma unit_out : forall c s k, ~ In k (pcells (c_params c)) -> dp (unit_derivs fmul c s) k = dp s k.
  Proof.
    intros c s k Hk. unfold unit_derivs. cbn [dp].
    erewrite (fold_out p_off p_size _ (fun p _ x => times fmul (p_unit p) x)); eauto.
  Qed.
  Lemma scale_in : forall c s u k, NoDup (ucells (c_unks c)) -> In u (c_unks c) -> inr (u_off u) (u_size u) k = true ->
      dr (scale_derivs fmul c s) k = dr s k *! factor F1 (u_scale u).
  Proof.
    intros c s p k Hn Hp Hk. unfold scale_derivs. cbn [dr].
    erewrite (fold_in u_off u_size _ (fun u _ x => times fmul (u_scale u) x)); eauto. apply times_factor.
  Qed.
  Lemma scale_out : forall c s k, ~ In k (ucells (c_unks c)) -> dr (scale_derivs fmul c s) k = dr s k.
  Proof.
    intros c s k Hk. unfold scale_derivs. cbn [dr].
    erewrite (fold_out u_off u_size _ (fun u _ x => times fmul (u_scale u) x)); eauto.
  Qed.

  Definition sub_h (g : option (list string)) (src : nat -> F) (u : uvar (F:=F)) (i : nat) (x : F) : F :=
    if listed g (u_name u) && negb (u_state u) then x -! src (u_off u + i) else x.
  Lemma sub_listed_g : forall g src (u : uvar (F:=F)) v k,
      (if listed g (u_name u) && negb (u_state u)
       then at_range (u_off u) (u_size u) (fun i x => x -! src (u_off u + i)) v else v) k =
      if inr (u_off u) (u_size u) k then sub_h g src u (k - u_off u) (v k) else v k.
  Proof.
    intros. unfold sub_h. destruct (listed g (u_name u) && negb (u_state u)); [reflexivity|].
    destruct (inr (u_off u) (u_size u) k); reflexivity.
  Qed.
  Lemma sub_listed_in : forall g us src v u k, NoDup (ucells us) -> In u us -> inr (u_off u) (u_size u) k = true ->
      sub_listed fsub g us src v k = if listed g (u_name u) && negb (u_state u) then v k -! src k else v k.
  Proof.
    intros g us src v u k Hn Hu Hk. unfold sub_listed.
    etransitivity; [exact (fold_in u_off u_size _ (sub_h g src) (sub_listed_g g src) us v u k Hn Hu Hk)|].
    unfold sub_h. apply inr_spec in Hk. replace (u_off u + (k - u_off u)) with k by lia. reflexivity.
  Qed.
  Lemma sub_listed_out : forall g us src v k, ~ In k (ucells us) -> sub_listed fsub g us src v k = v k.
  Proof.
    intros g us src v k Hk. unfold sub_listed.
    exact (fold_out u_off u_size _ (sub_h g src) (sub_listed_g g src) us v k Hk).
  Qed.

  Lemma minus_identity_alt : forall g us, minus_identity g us =
      flat_map (fun u => if listed g (u_name u) && negb (u_state u)
                         then map (fun k => (k, CU k, fopp F1)) (seq (u_off u) (u_size u)) else []) us.
  Proof.
    intros g us. unfold LinSpec.minus_identity. apply flat_map_ext. intro u.
    destruct (u_state u); [now rewrite Bool.andb_false_r|]. rewrite Bool.andb_true_r.
    destruct g as [l|]; reflexivity.
  Qed.
  Lemma ident_row : forall o n x k, row_of (map (fun k => (k, CU k, fopp F1)) (seq o n)) x k = if inr o n k then fopp (x (CU k)) else F0.
  Proof.
    intros. unfold LinSpec.row_of. rewrite total_map. cbn [e_row e_col fst snd].
    rewrite total_seq_pick with (k := k).
    - rewrite Nat.eqb_refl. destruct (inr o n k); ring.
    - intros i _ Hi. apply Nat.eqb_neq in Hi. now rewrite Hi.
  Qed.
  Lemma ident_col : forall o n y k, col_of (map (fun k => (k, CU k, fopp F1)) (seq o n)) y (CU k) = if inr o n k then fopp (y k) else F0.
  Proof.
    intros. unfold LinSpec.col_of. rewrite total_map. cbn [e_row e_col fst snd col_eqb].
    rewrite total_seq_pick with (k := k).
    - rewrite Nat.eqb_refl. destruct (inr o n k); ring.
    - intros i _ Hi. apply Nat.eqb_neq in Hi. now rewrite Hi.
  Qed.
  Lemma minus_row : forall g us x u k, NoDup (ucells us) -> In u us -> inr (u_off u) (u_size u) k = true ->
      row_of (minus_identity g us) x k = if listed g (u_name u) && negb (u_state u) then fopp (x (CU k)) else F0.
  Proof.
    intros g us x u k Hn Hu Hk. rewrite minus_identity_alt, row_of_flat.
    rewrite (total_owner u_off u_size _ us u k Hn Hu Hk).
    - destruct (listed g (u_name u) && negb (u_state u)); [|reflexivity]. now rewrite ident_row, Hk.
    - intros b _ Hb. destruct (listed g (u_name b) && negb (u_state b)); [|reflexivity]. now rewrite ident_row, Hb.
  Qed.
  Lemma minus_col : forall g us y u k, NoDup (ucells us) -> In u us -> inr (u_off u) (u_size u) k = true ->
      col_of (minus_identity g us) y (CU k) = if listed g (u_name u) && negb (u_state u) then fopp (y k) else F0.
  Proof.
    intros g us x u k Hn Hu Hk. rewrite minus_identity_alt, col_of_flat.
    rewrite (total_owner u_off u_size _ us u k Hn Hu Hk).
    - destruct (listed g (u_name u) && negb (u_state u)); [|reflexivity]. now rewrite ident_col, Hk.
    - intros b _ Hb. destruct (listed g (u_name b) && negb (u_state b)); [|reflexivity]. now rewrite ident_col, Hb.
  Qed.
  Lemma minus_in : forall g us e, In e (minus_identity g us) -> In (e_row e) (ucells us) /\ e_col e = CU (e_row e) /\ snd e = fopp F1.
  Proof.
    intros g us e H. rewrite minus_identity_alt in H. apply in_flat_map in H. destruct H as [u [Hu H]].
    destruct (listed g (u_name u) && negb (u_state u)); [|destruct H].
    apply in_map_iff in H. destruct H as [k [<- Hk]]. cbn. repeat split; auto. apply in_flat_map. eauto.
  Qed.
  Lemma minus_col_p : forall g us y t, col_of (minus_identity g us) y (CP t) = F0.
  Proof. intros. apply col_none. intros e He. apply minus_in in He. destruct He as [_ [-> _]]. discriminate. Qed.

  Lemma key_in : forall c key e, In e (key_entries c key) ->
      In (e_row e) (ucells (c_unks c)) /\
      match e_col e with CU j => In j (ucells (c_unks c)) | CP t => In t (pcells (c_params c)) end.
  Proof.
    intros c [[un pn] J] e H. unfold LinSpec.key_entries in H.
    destruct (unknown_of c un) as [u|] eqn:Eu; [|destruct H]. apply find_some in Eu. destruct Eu as [Eu _].
    destruct (state_of c pn) as [x|] eqn:Ex.
    - apply find_some in Ex. destruct Ex as [Ex _]. apply in_block in H. destruct H as [i [j [Hi [Hj ->]]]]. cbn.
      split; apply in_flat_map; [exists u | exists x]; (split; [auto | apply in_seq; lia]).
    - destruct (param_of c pn) as [p|] eqn:Ep; [|destruct H]. apply find_some in Ep. destruct Ep as [Ep _].
      apply in_block in H. destruct H as [i [j [Hi [Hj ->]]]]. cbn.
      split; apply in_flat_map; [exists u | exists p]; (split; [auto | apply in_seq; lia]).
  Qed.

  (** unit and scale factors, forward and reverse *)
  Definition sc (c : comp) (o : option F) : F := if c_fd c then F1 else factor F1 o.

  Lemma scaled_row : forall c key (a b b' : nat -> F) u k, NoDup (ucells (c_unks c)) -> NoDup (pcells (c_params c)) ->
      In u (c_unks c) -> inr (u_off u) (u_size u) k = true ->
      (forall p t, In p (c_params c) -> inr (p_off p) (p_size p) t = true -> b' t = b t *! sc c (p_unit p)) ->
      row_of (key_entries c key) (over a b) k = sc c (u_scale u) *! row_of (key_entries (raw c) key) (over a b') k.
  Proof.
    intros c [[un pn] J] a b b' u k Hu Hp Hin Hk Hb. unfold LinSpec.key_entries.
    unfold unknown_of, state_of, param_of. cbn [c_unks c_params c_fd raw].
    destruct (find (fun u => String.eqb (u_name u) un) (c_unks c)) as [v|] eqn:Ev.
    2:{ unfold LinSpec.row_of; simpl; ring. }
    apply find_some in Ev. destruct Ev as [Ev _].
    assert (Huv : inr (u_off v) (u_size v) k = true -> v = u).
    { intro E. apply (owner_unique u_off u_size (c_unks c) v u k Hu Ev Hin E Hk). }
    destruct (find (fun u0 => String.eqb (u_name u0) pn && u_state u0)%bool (c_unks c)) as [x|] eqn:Ex.
    - rewrite !row_block. destruct (inr (u_off v) (u_size v) k) eqn:E; [|ring]. rewrite (Huv eq_refl).
      rewrite <- sumto_mul_l. apply sumto_ext. intros j Hj. cbn [over]. fold (sc c (u_scale u)). ring.
    - destruct (find (fun p => String.eqb (p_name p) pn) (c_params c)) as [p|] eqn:Ep.
      2:{ unfold LinSpec.row_of; simpl; ring. }
      apply find_some in Ep. destruct Ep as [Ep _].
      rewrite !row_block. destruct (inr (u_off v) (u_size v) k) eqn:E; [|ring]. rewrite (Huv eq_refl).
      rewrite <- sumto_mul_l. apply sumto_ext. intros j Hj. cbn [over].
      rewrite (Hb p (p_off p + j) Ep) by (apply inr_spec; lia).
      fold (sc c (u_scale u)). fold (sc c (p_unit p)). ring.
  Qed.

  Lemma scaled_col_u : forall c key (y y' : nat -> F) k, NoDup (ucells (c_unks c)) ->
      (forall u i, In u (c_unks c) -> inr (u_off u) (u_size u) i = true -> y' i = y i *! sc c (u_scale u)) ->
      col_of (key_entries c key) y (CU k) = col_of (key_entries (raw c) key) y' (CU k).
  Proof.
    intros c [[un pn] J] y y' k Hu Hy. unfold LinSpec.key_entries.
    unfold unknown_of, state_of, param_of. cbn [c_unks c_params c_fd raw].
    destruct (find (fun u => String.eqb (u_name u) un) (c_unks c)) as [v|] eqn:Ev; [|reflexivity].
    apply find_some in Ev. destruct Ev as [Ev _].
    destruct (find (fun u0 => String.eqb (u_name u0) pn && u_state u0)%bool (c_unks c)) as [x|] eqn:Ex.
    - rewrite !col_block by (intros; reflexivity). destruct (inr (u_off x) (u_size x) k) eqn:E; [|ring].
      apply sumto_ext. intros i Hi. rewrite (Hy v (u_off v + i) Ev) by (apply inr_spec; lia).
      fold (sc c (u_scale v)). ring.
    - destruct (find (fun p => String.eqb (p_name p) pn) (c_params c)) as [p|] eqn:Ep; [|reflexivity].
      rewrite !col_block_other by (intros; discriminate). reflexivity.
  Qed.
  Lemma scaled_col_p : forall c key (y y' : nat -> F) p t, NoDup (ucells (c_unks c)) -> NoDup (pcells (c_params c)) ->
      In p (c_params c) -> inr (p_off p) (p_size p) t = true ->
      (forall u i, In u (c_unks c) -> inr (u_off u) (u_size u) i = true -> y' i = y i *! sc c (u_scale u)) ->
      col_of (key_entries c key) y (CP t) = col_of (key_entries (raw c) key) y' (CP t) *! sc c (p_unit p).
  Proof.
    intros c [[un pn] J] y y' q t Hu Hp Hq Ht Hy. unfold LinSpec.key_entries.
    unfold unknown_of, state_of, param_of. cbn [c_unks c_params c_fd raw].
    destruct (find (fun u => String.eqb (u_name u) un) (c_unks c)) as [v|] eqn:Ev.
    2:{ unfold LinSpec.col_of; simpl; ring. }
    apply find_some in Ev. destruct Ev as [Ev _].
    destruct (find (fun u0 => String.eqb (u_name u0) pn && u_state u0)%bool (c_unks c)) as [x|] eqn:Ex.
    - rewrite !col_block_other by (intros; discriminate). ring.
    - destruct (find (fun p => String.eqb (p_name p) pn) (c_params c)) as [p|] eqn:Ep.
      2:{ unfold LinSpec.col_of; simpl; ring. }
      apply find_some in Ep. destruct Ep as [Ep _].
      rewrite !col_block by (intros; reflexivity). destruct (inr (p_off p) (p_size p) t) eqn:E; [|ring].
      assert (p = q) as -> by (apply (owner_unique p_off p_size (c_params c) p q t Hp Ep Hq E Ht)).
      rewrite <- sumto_mul_r. apply sumto_ext. intros i Hi. rewrite (Hy v (u_off v + i) Ev) by (apply inr_spec; lia).
      fold (sc c (u_scale v)). fold (sc c (p_unit q)). ring.
  Qed.

  Lemma comp_fwd_spec : forall g c s, wf_comp c ->
      exists s', comp_fwd g c s = Ok s' /\ du s' = du s /\
        (forall k, In k (ucells (c_unks c)) -> dr s' k = row_of (comp_mat g c) (over (du s) (dp s)) k) /\
        (forall k, ~ In k (ucells (c_unks c)) -> dr s' k = dr s k) /\
        (forall t, ~ In t (pcells (c_params c)) -> dp s' t = dp s t) /\
        (forall t, dp s t = F0 -> dp s' t = F0).
  Proof.
    intros g c s [Hu [Hp [l [Hl [Hf He]]]]]. unfold LinModel.comp_fwd. set (s0 := mkS (du s) (zero_us F0 (c_unks c) (dr s)) (dp s)).
    assert (Hmid : exists s1, (if do_apply c then if c_fd c then apply_jac true c s0
                               else let! s := apply_jac true c (unit_derivs fmul c s0) in Ok (scale_derivs fmul c s)
                               else Ok s0) = Ok s1 /\ du s1 = du s /\
              (forall u k, In u (c_unks c) -> inr (u_off u) (u_size u) k = true ->
                 dr s1 k = row_of (flat_map (key_entries c) l) (over (du s) (dp s)) k) /\
              (forall k, ~ In k (ucells (c_unks c)) -> dr s1 k = dr s k) /\
              (forall t, ~ In t (pcells (c_params c)) -> dp s1 t = dp s t) /\
              (forall t, dp s t = F0 -> dp s1 t = F0)).
    { assert (Hout : forall k x, ~ In k (ucells (c_unks c)) -> row_of (flat_map (key_entries (raw c)) l) x k = F0).
      { intros k x Hk. apply row_none. intros e Hin E. apply in_flat_map in Hin. destruct Hin as [key [_ Hin]].
        apply key_in in Hin. destruct Hin as [Hin _]. apply Hk. rewrite <- E. exact Hin. }
      assert (Hz : forall u k, In u (c_unks c) -> inr (u_off u) (u_size u) k = true -> In k (ucells (c_unks c))).
      { intros u k H1 H2. apply in_flat_map. exists u. split; auto. now apply inr_seq. }
      unfold do_apply. destruct (c_params c) as [|p0 ps] eqn:Eps.
      - exists s0. split; [reflexivity|]. split; [reflexivity|]. rewrite (He eq_refl). split; [|split].
        + intros u k H1 H2. unfold LinSpec.row_of. simpl. subst s0. cbn [dr]. apply zero_us_in; eauto.
        + intros k Hk. subst s0. cbn [dr]. now apply zero_us_out.
        + split; [reflexivity | intros t Ht; exact Ht].
      - destruct (c_fd c) eqn:Efd.
        + unfold LinModel.apply_jac. rewrite Hl. destruct (terms_fwd c l s0 Hf) as [s1 [E1 [U1 [P1 R1]]]].
          exists s1. split; [exact E1|]. split; [exact U1|]. split; [|split].
          * intros u k H1 H2. rewrite R1. subst s0. cbn [dr du dp]. rewrite zero_us_in by eauto.
            rewrite !row_of_flat. rewrite (total_ext _ _ (fun a => row_of (key_entries c a) (over (du s) (dp s)) k)); [ring|].
            intros key _. rewrite (scaled_row c key (du s) (dp s) (dp s) u k Hu); auto.
            -- unfold sc. rewrite Efd. ring.
            -- rewrite Eps; exact Hp.
            -- intros. unfold sc. rewrite Efd. ring.
          * intros k Hk. rewrite R1, Hout by exact Hk. subst s0. cbn [dr]. rewrite zero_us_out by exact Hk. ring.
          * split; intros t Ht; rewrite P1; [reflexivity | exact Ht].
        + unfold LinModel.apply_jac. rewrite Hl. destruct (terms_fwd c l (unit_derivs fmul c s0) Hf) as [s1 [E1 [U1 [P1 R1]]]].
          rewrite E1. cbn [bind]. eexists. split; [reflexivity|]. split; [exact U1|]. split; [|split].
          * intros u k H1 H2. rewrite (scale_in c s1 u k Hu H1 H2). rewrite R1. subst s0. cbn [dr du dp unit_derivs].
            rewrite zero_us_in by eauto.
            rewrite !row_of_flat.
            rewrite (total_ext _ (fun a => row_of (key_entries c a) (over (du s) (dp s)) k)
                       (fun a => sc c (u_scale u) *! row_of (key_entries (raw c) a)
                          (over (du s) (dp (unit_derivs fmul c (mkS (du s) (zero_us F0 (c_unks c) (dr s)) (dp s))))) k)).
            -- rewrite total_mul_l. unfold sc. rewrite Efd. cbn [unit_derivs dp]. ring.
            -- intros key _. apply scaled_row; auto.
               ++ rewrite Eps; exact Hp.
               ++ intros p t Hpp Ht. rewrite (unit_in c _ p t); auto; [|rewrite Eps; exact Hp].
                  cbn [dp]. unfold sc. rewrite Efd. ring.
          * intros k Hk. rewrite scale_out by exact Hk. rewrite R1, Hout by exact Hk. subst s0. cbn [dr unit_derivs]. rewrite zero_us_out by exact Hk. ring.
          * split.
            -- intros t Ht. cbn [dp scale_derivs]. rewrite P1. rewrite unit_out by (rewrite Eps; exact Ht). reflexivity.
            -- intros t Ht. cbn [dp scale_derivs]. rewrite P1.
               destruct (in_dec Nat.eq_dec t (pcells (c_params c))) as [Hin|Hin].
               ++ destruct (owner p_off p_size (c_params c) t Hin) as [q [H1 H2]].
                  rewrite (unit_in c _ q t); auto; [|rewrite Eps; exact Hp]. subst s0. cbn [dp]. rewrite Ht. ring.
               ++ rewrite unit_out by exact Hin. exact Ht. }
    destruct Hmid as [s1 [E1 [U1 [R1 [O1 P1]]]]]. rewrite E1. cbn [bind].
    eexists. split; [reflexivity|]. cbn [du dr dp]. split; [exact U1|]. split; [|split; [|exact P1]].
    - intros k Hk. destruct (owner u_off u_size (c_unks c) k Hk) as [u [H1 H2]].
      rewrite (sub_listed_in g (c_unks c) (du s1) (dr s1) u k Hu H1 H2).
      unfold LinSpec.comp_mat. rewrite Hl, row_of_app, (minus_row g (c_unks c) _ u k Hu H1 H2), (R1 u k H1 H2), U1.
      destruct (listed g (u_name u) && negb (u_state u)); cbn [over]; ring.
    - intros k Hk. rewrite sub_listed_out by exact Hk. apply O1; exact Hk.
  Qed.

  Definition no_scale (c : comp) : Prop := c_fd c = true \/ Forall (fun u => u_scale u = None) (c_unks c).

  Lemma comp_rev_spec : forall g c s, wf_comp c ->
      exists s', comp_rev g c s = Ok s' /\
        (forall k, In k (ucells (c_unks c)) -> du s' k = col_of (comp_mat g c) (dr s) (CU k)) /\
        (forall k, ~ In k (ucells (c_unks c)) -> du s' k = du s k) /\
        (forall t, In t (pcells (c_params c)) -> dp s' t = col_of (comp_mat g c) (dr s) (CP t)) /\
        (forall t, ~ In t (pcells (c_params c)) -> dp s' t = dp s t) /\
        (forall k, ~ In k (ucells (c_unks c)) -> dr s' k = dr s k) /\
        (no_scale c -> forall k, dr s' k = dr s k).
  Proof.
    intros g c s [Hu [Hp [l [Hl [Hf He]]]]]. unfold LinModel.comp_rev.
    cbn [du dr dp].
    set (s0 := mkS (sub_listed fsub g (c_unks c) (dr s) (zero_us F0 (c_unks c) (du s))) (dr s) (zero_ps F0 (c_params c) (dp s))).
    assert (Hz : forall u k, In u (c_unks c) -> inr (u_off u) (u_size u) k = true -> In k (ucells (c_unks c))).
    { intros u k H1 H2. apply in_flat_map. exists u. split; auto. now apply inr_seq. }
    assert (Hzp : forall u k, In u (c_params c) -> inr (p_off u) (p_size u) k = true -> In k (pcells (c_params c))).
    { intros u k H1 H2. apply in_flat_map. exists u. split; auto. now apply inr_seq. }
    assert (HU0 : forall u k, In u (c_unks c) -> inr (u_off u) (u_size u) k = true ->
                    du s0 k = col_of (minus_identity g (c_unks c)) (dr s) (CU k)).
    { intros u k H1 H2. subst s0. cbn [du]. rewrite (sub_listed_in g _ _ _ u k Hu H1 H2).
      rewrite (minus_col g _ _ u k Hu H1 H2), zero_us_in by eauto.
      destruct (listed g (u_name u) && negb (u_state u)); ring. }
    assert (HU1 : forall k, ~ In k (ucells (c_unks c)) -> du s0 k = du s k).
    { intros k Hk. subst s0. cbn [du]. rewrite sub_listed_out by exact Hk. now apply zero_us_out. }
    assert (HP0 : forall t, In t (pcells (c_params c)) -> dp s0 t = F0) by (intros; now apply zero_ps_in).
    assert (HP1 : forall t, ~ In t (pcells (c_params c)) -> dp s0 t = dp s t) by (intros; now apply zero_ps_out).
    assert (Hcol_out : forall k y, ~ In k (ucells (c_unks c)) -> col_of (flat_map (key_entries (raw c)) l) y (CU k) = F0).
    { intros k y Hk. apply col_none. intros e Hin E. apply in_flat_map in Hin. destruct Hin as [key [_ Hin]].
      apply key_in in Hin. destruct Hin as [_ Hin]. rewrite E in Hin. apply Hk. exact Hin. }
    assert (Hcol_outp : forall t y, ~ In t (pcells (c_params c)) -> col_of (flat_map (key_entries (raw c)) l) y (CP t) = F0).
    { intros k y Hk. apply col_none. intros e Hin E. apply in_flat_map in Hin. destruct Hin as [key [_ Hin]].
      apply key_in in Hin. destruct Hin as [_ Hin]. rewrite E in Hin. apply Hk. exact Hin. }
    unfold LinSpec.comp_mat. rewrite Hl.
    unfold do_apply. destruct (c_params c) as [|p0 ps] eqn:Eps.
    - exists s0. split; [reflexivity|]. rewrite (He eq_refl). cbn [flat_map app]. split; [|split; [|split; [|split; [|split]]]].
      + intros k Hk. destruct (owner u_off u_size (c_unks c) k Hk) as [u [H1 H2]]. now apply (HU0 u k).
      + exact HU1.
      + intros t [].
      + exact HP1.
      + reflexivity.
      + reflexivity.
    - destruct (c_fd c) eqn:Efd.
      + unfold LinModel.apply_jac. rewrite Hl. destruct (terms_rev c l s0 Hf) as [s1 [E1 [D1 [U1 P1]]]].
        assert (Hy : forall u i, In u (c_unks c) -> inr (u_off u) (u_size u) i = true -> dr s i = dr s i *! sc c (u_scale u)).
        { intros. unfold sc. rewrite Efd. ring. }
        exists s1. split; [exact E1|]. split; [|split; [|split; [|split; [|split]]]].
        * intros k Hk. destruct (owner u_off u_size (c_unks c) k Hk) as [u [H1 H2]].
          rewrite U1, (HU0 u k H1 H2), col_of_app. change (dr s0) with (dr s).
          rewrite !col_of_flat. rewrite (total_ext _ (fun a => col_of (key_entries (raw c) a) (dr s) (CU k)) (fun a => col_of (key_entries c a) (dr s) (CU k))).
          -- ring.
          -- intros key _. symmetry. now apply scaled_col_u.
        * intros k Hk. rewrite U1, Hcol_out by exact Hk. rewrite HU1 by exact Hk. ring.
        * intros t Ht. rewrite <- Eps in Ht. destruct (owner p_off p_size (c_params c) t Ht) as [q [H1 H2]].
          rewrite P1, HP0, col_of_app, minus_col_p by (rewrite Eps in Ht; exact Ht). change (dr s0) with (dr s).
          rewrite !col_of_flat. rewrite (total_ext _ (fun a => col_of (key_entries (raw c) a) (dr s) (CP t)) (fun a => col_of (key_entries c a) (dr s) (CP t))).
          -- ring.
          -- intros key _. rewrite (scaled_col_p c key (dr s) (dr s) q t); auto; [unfold sc; rewrite Efd; ring | rewrite Eps; exact Hp].
        * intros t Ht. rewrite P1, Hcol_outp, HP1 by exact Ht. ring.
        * intros k _. now rewrite D1.
        * intros _ k. now rewrite D1.
      + unfold LinModel.apply_jac. rewrite Hl. destruct (terms_rev c l (scale_derivs fmul c s0) Hf) as [s1 [E1 [D1 [U1 P1]]]].
        rewrite E1. cbn [bind].
        assert (Hy : forall u i, In u (c_unks c) -> inr (u_off u) (u_size u) i = true -> dr (scale_derivs fmul c s0) i = dr s i *! sc c (u_scale u)).
        { intros u i H1 H2. rewrite (scale_in c s0 u i Hu H1 H2). unfold sc. rewrite Efd. reflexivity. }
        eexists. split; [reflexivity|]. split; [|split; [|split; [|split; [|split]]]].
        * intros k Hk. destruct (owner u_off u_size (c_unks c) k Hk) as [u [H1 H2]].
          cbn [du unit_derivs]. rewrite U1, col_of_app. change (du (scale_derivs fmul c s0)) with (du s0). rewrite (HU0 u k H1 H2).
          rewrite !col_of_flat. rewrite (total_ext _ (fun a => col_of (key_entries c a) (dr s) (CU k)) (fun a => col_of (key_entries (raw c) a) (dr (scale_derivs fmul c s0)) (CU k))).
          -- ring.
          -- intros key _. now apply scaled_col_u.
        * intros k Hk. cbn [du unit_derivs]. rewrite U1, Hcol_out by exact Hk. change (du (scale_derivs fmul c s0)) with (du s0).
          rewrite HU1 by exact Hk. ring.
        * intros t Ht. rewrite <- Eps in Ht. destruct (owner p_off p_size (c_params c) t Ht) as [q [H1 H2]].
          rewrite (unit_in c s1 q t); auto; [|rewrite Eps; exact Hp].
          rewrite P1, col_of_app, minus_col_p. change (dp (scale_derivs fmul c s0)) with (dp s0). rewrite HP0 by (rewrite Eps in Ht; exact Ht).
          rewrite !col_of_flat. rewrite (total_ext _ (fun a => col_of (key_entries c a) (dr s) (CP t)) (fun a => col_of (key_entries (raw c) a) (dr (scale_derivs fmul c s0)) (CP t) *! sc c (p_unit q))).
          -- rewrite total_mul_r. unfold sc. rewrite Efd. ring.
          -- intros key _. apply scaled_col_p; auto. rewrite Eps; exact Hp.
        * intros t Ht. rewrite unit_out by (rewrite Eps; exact Ht). rewrite P1, Hcol_outp by exact Ht.
          change (dp (scale_derivs fmul c s0)) with (dp s0). rewrite HP1 by exact Ht. ring.
        * intros k Hk. cbn [dr unit_derivs]. rewrite D1. exact (scale_out c s0 k Hk).
        * intros [Hns|Hns] k; [congruence|]. cbn [dr unit_derivs]. rewrite D1.
          destruct (in_dec Nat.eq_dec k (ucells (c_unks c))) as [Hk|Hk]; [|exact (scale_out c s0 k Hk)].
          destruct (owner u_off u_size (c_unks c) k Hk) as [u [H1 H2]]. rewrite (scale_in c s0 u k Hu H1 H2).
          rewrite Forall_forall in Hns. rewrite (Hns u H1). cbn [factor]. change (dr s0) with (dr s). ring.
  Qed.

  Lemma comp_mat_in : forall g c e, In e (comp_mat g c) ->
      In (e_row e) (ucells (c_unks c)) /\
      match e_col e with CU j => In j (ucells (c_unks c)) | CP t => In t (pcells (c_params c)) end.
  Proof.
    intros g c e H. unfold LinSpec.comp_mat in H. apply in_app_iff in H. destruct H as [H|H].
    - apply in_flat_map in H. destruct H as [key [_ H]]. now apply key_in in H.
    - apply minus_in in H. destruct H as [H1 [H2 _]]. rewrite H2. split; auto.
  Qed.

  (** ** transfers *)
  Lemma set_eq : forall (v : nat -> F) k x i, set v k x i = if i =? k then x else v i.
  Proof. reflexivity. Qed.

  Lemma fold_set_out : forall A (tg : A -> nat) (val : A -> F) l (v : nat -> F) i, ~ In i (map tg l) ->
      fold_left (fun v a => set v (tg a) (val a)) l v i = v i.
  Proof.
    induction l as [|a l IH]; intros v i H; simpl; auto. simpl in H. rewrite IH by tauto.
    rewrite set_eq. destruct (i =? tg a) eqn:E; auto. apply Nat.eqb_eq in E. exfalso; apply H; now left.
  Qed.
  Lemma fold_set_in : forall A (tg : A -> nat) (val : A -> F) l (v : nat -> F) a, NoDup (map tg l) -> In a l ->
      fold_left (fun v a => set v (tg a) (val a)) l v (tg a) = val a.
  Proof.
    induction l as [|b l IH]; intros v a Hn Ha; [destruct Ha|]. simpl in Hn. apply NoDup_cons_iff in Hn. destruct Hn as [Hb Hn].
    simpl. destruct Ha as [->|Ha]; [|now apply IH].
    rewrite fold_set_out by exact Hb. rewrite set_eq, Nat.eqb_refl. reflexivity.
  Qed.

  Lemma xfer_fwd_at : forall ks (s : state) t, NoDup (map k_tgt ks) ->
      dp (xfer_fwd ks s) t = over (du s) (dp s) (source_of ks (CP t)).
  Proof.
    intros ks s t Hn. unfold xfer_fwd. cbn [dp source_of].
    destruct (find (fun k => k_tgt k =? t) ks) as [k|] eqn:E.
    - apply find_some in E. destruct E as [Hk E]. apply Nat.eqb_eq in E. rewrite <- E. cbn [over].
      exact (fold_set_in conn k_tgt (fun k => du s (k_src k)) ks (dp s) k Hn Hk).
    - cbn [over]. apply (fold_set_out conn k_tgt (fun k => du s (k_src k))).
      intro Hin. apply in_map_iff in Hin. destruct Hin as [k [E2 Hk]].
      pose proof (find_none _ _ E k Hk) as E3. simpl in E3. apply Nat.eqb_neq in E3. contradiction.
  Qed.
  Lemma xfer_fwd_out : forall ks (s : state) t, ~ In t (map k_tgt ks) -> dp (xfer_fwd ks s) t = dp s t.
  Proof. intros ks s t H. exact (fold_set_out conn k_tgt (fun k => du s (k_src k)) ks (dp s) t H). Qed.

  Definition into (ks : list conn) (p : nat -> F) (i : nat) : F := total (fun k => if k_src k =? i then p (k_tgt k) else F0) ks.
  Lemma xfer_rev_at : forall ks (s : state) i, du (xfer_rev fadd ks s) i = du s i +! into ks (dp s) i.
  Proof.
    intros ks s i. unfold xfer_rev. cbn [du]. generalize (du s) as v. unfold into.
    induction ks as [|k ks IH]; intro v; simpl; [ring|]. rewrite IH, set_eq.
    rewrite (Nat.eqb_sym i). destruct (k_src k =? i) eqn:E; [|ring]. apply Nat.eqb_eq in E. rewrite E. ring.
  Qed.

  (** ** induction on the tree *)
  Section Ind.
    Context (P : sys -> Prop) (Hc : forall c, P (Comp c)) (Hi : forall us, P (Indep us)) (Hf : forall ks c, P (FdGroup ks c))
            (Hg : forall ns sv ks subs, Forall P subs -> P (Group ns sv ks subs)).
    Fixpoint sys_ind' (s : sys) : P s :=
      match s with
      | Comp c => Hc c
      | Indep us => Hi us
      | FdGroup ks c => Hf ks c
      | Group ns sv ks subs =>
          Hg ns sv ks subs ((fix go (l : list sys) : Forall P l :=
                               match l with [] => Forall_nil P | s :: l' => Forall_cons s (sys_ind' s) (go l') end) subs)
      end.
  End Ind.

  Lemma fold_and : forall A (P : A -> Prop) l, fold_right (fun a Q => P a /\ Q) True l <-> Forall P l.
  Proof.
    induction l as [|a l IH]; simpl; [split; auto|]. rewrite IH, Forall_cons_iff. tauto.
  Qed.

  Lemma without_in : forall ks l t, In t (without ks l) <-> In t l /\ ~ In t (map k_tgt ks).
  Proof.
    intros. unfold without. rewrite filter_In. split; intros [H1 H2]; split; auto.
    - intro Hin. apply in_map_iff in Hin. destruct Hin as [k [E Hk]].
      apply Bool.negb_true_iff in H2. assert (existsb (fun k => k_tgt k =? t) ks = true).
      { apply existsb_exists. exists k. split; auto. now apply Nat.eqb_eq. } congruence.
    - apply Bool.negb_true_iff. destruct (existsb (fun k => k_tgt k =? t) ks) eqn:E; auto.
      exfalso. apply existsb_exists in E. destruct E as [k [Hk E]]. apply Nat.eqb_eq in E. apply H2. apply in_map_iff. eauto.
  Qed.

  Lemma reroute_in : forall ks (m : list (@entry F)) e, In e (reroute ks m) ->
      exists e', In e' m /\ e_row e = e_row e' /\ e_col e = source_of ks (e_col e').
  Proof. intros ks m e H. apply in_map_iff in H. destruct H as [e' [<- He]]. exists e'. repeat split; auto. Qed.

  Lemma source_cases : forall ks t,
      (exists k, In k ks /\ k_tgt k = t /\ source_of ks (CP t) = CU (k_src k)) \/
      (~ In t (map k_tgt ks) /\ source_of ks (CP t) = CP t).
  Proof.
    intros ks t. simpl. destruct (find (fun k => k_tgt k =? t) ks) as [k|] eqn:E.
    - left. apply find_some in E. destruct E as [Hk E]. apply Nat.eqb_eq in E. eauto.
    - right. split; auto. intro Hin. apply in_map_iff in Hin. destruct Hin as [k [E2 Hk]].
      pose proof (find_none _ _ E k Hk) as E3. simpl in E3. apply Nat.eqb_neq in E3. contradiction.
  Qed.

  (** the entries of a system lie in its own rows; columns are its unknowns and
      its outside parameters *)
  Definition own_entries (s : sys) (m : list (@entry F)) : Prop := forall e, In e m ->
      In (e_row e) (rows s) /\ match e_col e with CU j => In j (rows s) | CP t => In t (outside_params s) end.

  Lemma sys_mat_in : forall g s, wf s -> own_entries s (sys_mat g s).
  Proof.
    intro g. induction s as [c|us|ks c|ns sv ks subs IH] using sys_ind'; intros Hwf e He.
    - simpl in He. apply comp_mat_in in He. exact He.
    - simpl in He. apply minus_in in He. destruct He as [H1 [H2 _]]. rewrite H2. split; auto.
    - simpl in He. destruct Hwf as [_ [_ [_ Hsrc]]]. apply reroute_in in He. destruct He as [e' [He [-> ->]]].
      apply comp_mat_in in He. destruct He as [H1 H2]. simpl. split; auto.
      destruct (e_col e') as [j|t] eqn:Ec; [exact H2|].
      destruct (source_cases ks t) as [[k [Hk [Ht E]]]|[Ht E]]; rewrite E.
      + apply Hsrc. apply in_map_iff. eauto.
      + apply without_in. auto.
    - simpl in He. destruct Hwf as [_ [_ [_ [_ [Hsrc Hs]]]]]. apply fold_and in Hs.
      apply reroute_in in He. destruct He as [e' [He [-> ->]]].
      apply in_flat_map in He. destruct He as [s [Hin He]].
      rewrite Forall_forall in IH, Hs. specialize (IH s Hin (Hs s Hin) e' He). destruct IH as [H1 H2].
      simpl. split; [apply in_flat_map; eauto|].
      destruct (e_col e') as [j|t] eqn:Ec; [apply in_flat_map; eauto|].
      destruct (source_cases ks t) as [[k [Hk [Ht E]]]|[Ht E]]; rewrite E.
      + apply Hsrc. apply in_map_iff. eauto.
      + apply without_in. split; auto. apply in_flat_map; eauto.
  Qed.

  Lemma outside_all : forall s : sys, wf s -> incl (outside_params s) (all_params s).
  Proof.
    induction s as [c|us|ks c|ns sv ks subs IH] using sys_ind'; intros Hwf t Ht; simpl in *; auto.
    - apply without_in in Ht. tauto.
    - apply without_in in Ht. destruct Ht as [Ht _]. apply in_flat_map in Ht. destruct Ht as [s [Hs Ht]].
      destruct Hwf as [_ [_ [_ [_ [_ Hw]]]]]. apply fold_and in Hw. rewrite Forall_forall in IH, Hw.
      apply in_flat_map. exists s. split; auto. apply IH; auto.
  Qed.

  Lemma row_reroute : forall ks m x k, row_of (reroute ks m) x k = row_of m (fun c => x (source_of ks c)) k.
  Proof. intros. unfold LinSpec.row_of, reroute. rewrite total_map. reflexivity. Qed.

  Lemma col_reroute_u : forall ks m y k, NoDup (map k_tgt ks) ->
      col_of (reroute ks m) y (CU k) = col_of m y (CU k) +! into ks (fun t => col_of m y (CP t)) k.
  Proof.
    intros ks m y k Hn. unfold into, LinSpec.col_of at 1, reroute. rewrite total_map. cbn [e_row e_col fst snd].
    rewrite (total_ext _ (fun a => if k_src a =? k then col_of m y (CP (k_tgt a)) else F0)
               (fun a => total (fun e : entry => if k_src a =? k then if col_eqb (e_col e) (CP (k_tgt a)) then snd e *! y (e_row e) else F0 else F0) m)).
    2:{ intros a _. destruct (k_src a =? k); [reflexivity|]. symmetry; apply total_zero; auto. }
    rewrite total_swap. unfold LinSpec.col_of. rewrite <- total_add. apply total_ext. intros e _.
    change (snd (fst e)) with (e_col e).
    destruct (e_col e) as [j|t] eqn:Ec.
    - cbn [source_of]. rewrite total_zero; [ring|]. intros a _. destruct (k_src a =? k); reflexivity.
    - cbn [col_eqb]. replace (if false then snd e *! y (e_row e) else F0) with F0 by reflexivity.
      destruct (source_cases ks t) as [[a [Ha [Ht E]]]|[Ht E]]; rewrite E; cbn [col_eqb].
      + assert (Hone : total (fun a => if k_src a =? k then if t =? k_tgt a then snd e *! y (e_row e) else F0 else F0) ks =
                       if k_src a =? k then snd e *! y (e_row e) else F0).
        { clear E. revert Ha Hn. induction ks as [|b ks IH]; intros Ha Hn; [destruct Ha|].
          simpl in Hn. apply NoDup_cons_iff in Hn. destruct Hn as [Hb Hn]. simpl. destruct Ha as [->|Ha].
          - rewrite Ht, Nat.eqb_refl. rewrite total_zero; [destruct (k_src a =? k); ring|].
            intros b Hb2. destruct (t =? k_tgt b) eqn:E2; [|destruct (k_src b =? k); reflexivity].
            apply Nat.eqb_eq in E2. exfalso. apply Hb. rewrite Ht, E2. now apply in_map.
          - rewrite (IH Ha Hn). destruct (t =? k_tgt b) eqn:E2; [|destruct (k_src b =? k); ring].
            apply Nat.eqb_eq in E2. exfalso. apply Hb. rewrite <- E2, <- Ht. now apply in_map. }
        rewrite Hone. destruct (k_src a =? k); ring.
      + rewrite total_zero; [ring|]. intros a Ha. destruct (t =? k_tgt a) eqn:E2; [|destruct (k_src a =? k); reflexivity].
        apply Nat.eqb_eq in E2. exfalso. apply Ht. rewrite E2. now apply in_map.
  Qed.

  Lemma col_reroute_p : forall ks m y t, ~ In t (map k_tgt ks) -> col_of (reroute ks m) y (CP t) = col_of m y (CP t).
  Proof.
    intros ks m y t Ht. unfold LinSpec.col_of, reroute. rewrite total_map. cbn [e_row e_col fst snd]. apply total_ext. intros e _.
    fold (e_col e) (e_row e). change (snd (fst e)) with (e_col e). destruct (e_col e) as [j|t'] eqn:Ec; [reflexivity|].
    destruct (source_cases ks t') as [[a [Ha [Ht' E]]]|[_ E]]; rewrite E; [|reflexivity]. cbn [col_eqb].
    destruct (t' =? t) eqn:E2; [|reflexivity]. apply Nat.eqb_eq in E2. exfalso. apply Ht. rewrite <- E2, <- Ht'. now apply in_map.
  Qed.

  (** ** systems *)
  Definition list_fwd (g : option (list string)) : list sys -> state -> res state :=
    fix go (l : list sys) (st : state) : res state :=
    match l with [] => Ok st | s :: l' => let! st := sys_fwd g s st in go l' st end.
  Definition list_rev (g : option (list string)) : list sys -> state -> res state :=
    fix go (l : list sys) (st : state) : res state :=
    match l with [] => Ok st | s :: l' => let! st := sys_rev g s st in go l' st end.
  Lemma sys_fwd_group : forall g ns sv ks subs st, sys_fwd g (Group ns sv ks subs) st = list_fwd g subs (xfer_fwd ks st).
  Proof. reflexivity. Qed.
  Lemma sys_rev_group : forall g ns sv ks subs st,
      sys_rev g (Group ns sv ks subs) st = let! st := list_rev g subs st in Ok (xfer_rev fadd ks st).
  Proof. reflexivity. Qed.

  Definition fwd_result (rs ps : list nat) (m : list entry) (st st' : state) : Prop :=
    du st' = du st /\
    (forall k, In k rs -> dr st' k = row_of m (over (du st) (dp st)) k) /\
    (forall k, ~ In k rs -> dr st' k = dr st k) /\
    (forall t, ~ In t ps -> dp st' t = dp st t).
  (** parameters from outside stay zero *)
  Definition keeps_zero (outs : list nat) (st st' : state) : Prop := forall t, In t outs -> dp st t = F0 -> dp st' t = F0.

  Lemma list_fwd_spec : forall g l,
      Forall (fun s => wf s -> forall st, exists st', sys_fwd g s st = Ok st' /\ fwd_result (rows s) (all_params s) (sys_mat g s) st st' /\
                                                      keeps_zero (outside_params s) st st') l ->
      Forall wf l -> NoDup (flat_map rows l) -> NoDup (flat_map all_params l) ->
      forall st, exists st', list_fwd g l st = Ok st' /\
                             fwd_result (flat_map rows l) (flat_map all_params l) (flat_map (sys_mat g) l) st st' /\
                             keeps_zero (flat_map outside_params l) st st'.
  Proof.
    intros g l. induction l as [|s l IH]; intros HP Hwf Hr Hp st.
    - exists st. split; [reflexivity|]. split; [|intros t []]. repeat split; auto. intros k [].
    - apply Forall_cons_iff in HP. destruct HP as [HPs HP]. apply Forall_cons_iff in Hwf. destruct Hwf as [Hws Hwf].
      simpl in Hr, Hp. apply NoDup_app_split in Hr. destruct Hr as [Hr1 [Hr2 Hr3]].
      apply NoDup_app_split in Hp. destruct Hp as [Hp1 [Hp2 Hp3]].
      destruct (HPs Hws st) as [s1 [E1 [[U1 [R1 [O1 P1]]] Z1]]].
      destruct (IH HP Hwf Hr2 Hp2 s1) as [s2 [E2 [[U2 [R2 [O2 P2]]] Z2]]].
      exists s2. simpl. rewrite E1. cbn [bind]. split; [exact E2|].
      assert (Hin : forall s' e, In s' l -> In e (sys_mat g s') -> In (e_row e) (flat_map rows l) /\
                match e_col e with CU j => In j (flat_map rows l) | CP t => In t (flat_map all_params l) end).
      { intros s' e Hs' He. rewrite Forall_forall in Hwf. pose proof (Hwf s' Hs') as Hw.
        apply sys_mat_in in He; auto. destruct He as [A B]. split; [apply in_flat_map; eauto|].
        destruct (e_col e); apply in_flat_map; exists s'; split; auto. now apply outside_all. }
      split; [|].
      2:{ intros t Ht H0. apply in_app_iff in Ht. destruct Ht as [Ht|Ht].
          - rewrite P2 by (apply Hp3; now apply outside_all). now apply Z1.
          - apply Z2; auto. rewrite P1; auto. intro Hc. apply (Hp3 t Hc). apply in_flat_map in Ht. destruct Ht as [s' [Hs' Ht]].
            apply in_flat_map. exists s'. split; auto. rewrite Forall_forall in Hwf. apply outside_all; auto. }
      split; [congruence|]. split; [|split].
      + intros k Hk. rewrite row_of_app. apply in_app_iff in Hk. destruct Hk as [Hk|Hk].
        * rewrite O2 by (intro; eapply Hr3; eauto). rewrite R1 by exact Hk.
          rewrite (row_none (flat_map (sys_mat g) l)); [ring|].
          intros e He E. apply in_flat_map in He. destruct He as [s' [Hs' He]].
          destruct (Hin s' e Hs' He) as [A _]. rewrite E in A. exact (Hr3 k Hk A).
        * rewrite R2 by exact Hk. rewrite (row_none (sys_mat g s)).
          2:{ intros e He E. apply sys_mat_in in He; auto. destruct He as [A _]. rewrite E in A. exact (Hr3 k A Hk). }
          rewrite U1. rewrite (row_ext _ (over (du st) (dp s1)) (over (du st) (dp st))); [ring|].
          intros e He. apply in_flat_map in He. destruct He as [s' [Hs' He]]. destruct (Hin s' e Hs' He) as [_ B].
          destruct (e_col e) as [j|t]; cbn [over]; auto. apply P1. intro Hc. exact (Hp3 t Hc B).
      + intros k Hk. rewrite in_app_iff in Hk. rewrite O2, O1 by tauto. reflexivity.
      + intros t Ht. rewrite in_app_iff in Ht. rewrite P2, P1 by tauto. reflexivity.
  Qed.

  Lemma sys_fwd_spec : forall g s, wf s -> forall st,
      exists st', sys_fwd g s st = Ok st' /\ fwd_result (rows s) (all_params s) (sys_mat g s) st st' /\
                  keeps_zero (outside_params s) st st'.
  Proof.
    intro g. induction s as [c|us|ks c|ns sv ks subs IH] using sys_ind'; intros Hwf st.
    - destruct (comp_fwd_spec g c st Hwf) as [s' [E [U [R [O [P Z]]]]]]. exists s'. split; [exact E|].
      split; [split; [exact U|split; [exact R|split; [exact O|exact P]]]|]. intros t _. apply Z.
    - destruct Hwf as [Hn Hs]. eexists. split; [reflexivity|]. split; [|intros t []]. split; [reflexivity|]. cbn [dr dp indep_fwd du rows sys_mat all_params]. split; [|split].
      + intros k Hk. destruct (owner u_off u_size us k Hk) as [u [H1 H2]].
        rewrite (sub_listed_in g us _ _ u k Hn H1 H2), (minus_row g us _ u k Hn H1 H2), zero_us_in by assumption.
        cbn [over]. destruct (listed g (u_name u) && negb (u_state u)); ring.
      + intros k Hk. rewrite sub_listed_out, zero_us_out by exact Hk. reflexivity.
      + reflexivity.
    - destruct Hwf as [Hc [Hn [Ht Hsrc]]]. cbn [LinModel.sys_fwd].
      destruct (comp_fwd_spec g c (xfer_fwd ks st) Hc) as [s' [E [U [R [O [P Z]]]]]]. exists s'. split; [exact E|].
      split; [|intros t Hin H0; apply Z; apply without_in in Hin; rewrite xfer_fwd_out by tauto; exact H0].
      split; [exact U|]. cbn [rows sys_mat all_params]. split; [|split].
      + intros k Hk. rewrite R by exact Hk. rewrite row_reroute. apply row_ext. intros e _.
        destruct (e_col e) as [j|t]; [reflexivity|]. exact (xfer_fwd_at ks st t Hn).
      + intros k Hk. rewrite O by exact Hk. reflexivity.
      + intros t Hk. rewrite P by exact Hk. apply xfer_fwd_out. intro Hin. apply Hk. apply Ht. exact Hin.
    - destruct Hwf as [Hr [Hp [Hn [Ht [Hsrc Hw]]]]]. apply fold_and in Hw. rewrite sys_fwd_group.
      destruct (list_fwd_spec g subs IH Hw Hr Hp (xfer_fwd ks st)) as [s' [E [[U [R [O P]]] Z]]]. exists s'. split; [exact E|].
      split; [|intros t Hin H0; apply without_in in Hin; apply Z; [tauto|]; rewrite xfer_fwd_out by tauto; exact H0].
      split; [exact U|]. cbn [rows LinSpec.sys_mat all_params]. split; [|split].
      + intros k Hk. rewrite R by exact Hk. rewrite row_reroute. apply row_ext. intros e _.
        destruct (e_col e) as [j|t]; [reflexivity|]. exact (xfer_fwd_at ks st t Hn).
      + intros k Hk. rewrite O by exact Hk. reflexivity.
      + intros t Hk. rewrite P by exact Hk. apply xfer_fwd_out. intro Hin. apply Hk.
        apply Ht in Hin. apply in_flat_map in Hin. destruct Hin as [s0 [Hs0 Hin]]. apply in_flat_map. exists s0. split; auto.
        rewrite Forall_forall in Hw. apply outside_all; auto.
  Qed.

  Definition memb (k : nat) (l : list nat) : bool := existsb (Nat.eqb k) l.
  Lemma memb_spec : forall k l, memb k l = true <-> In k l.
  Proof.
    intros. unfold memb. rewrite existsb_exists. split.
    - intros [x [Hx E]]. apply Nat.eqb_eq in E. now subst.
    - intro H. exists k. split; auto. apply Nat.eqb_refl.
  Qed.
  Lemma memb_false : forall k l, memb k l = false <-> ~ In k l.
  Proof. intros. rewrite <- memb_spec. destruct (memb k l); split; congruence. Qed.

  (** what is in du beforehand survives at the positions of IndepVarComps *)
  Definition left_over (ind : list nat) (v : nat -> F) (k : nat) : F := if memb k ind then v k else F0.

  Definition rev_result (ind rs outs ps : list nat) (m : list entry) (st st' : state) : Prop :=
    (forall k, In k rs -> du st' k = left_over ind (du st) k +! col_of m (dr st) (CU k)) /\
    (forall k, ~ In k rs -> du st' k = du st k) /\
    (forall t, In t outs -> dp st' t = col_of m (dr st) (CP t)) /\
    (forall t, ~ In t ps -> dp st' t = dp st t) /\
    (forall k, ~ In k rs -> dr st' k = dr st k).

  Lemma indep_rows : forall s : sys, incl (indep_cells s) (rows s).
  Proof.
    induction s as [c|us|ks c|ns sv ks subs IH] using sys_ind'; intros k Hk; simpl in *; try tauto.
    apply in_flat_map in Hk. destruct Hk as [s [Hs Hk]]. rewrite Forall_forall in IH. apply in_flat_map. exists s. split; auto. now apply IH.
  Qed.

  Lemma list_rev_spec : forall g l,
      Forall (fun s => wf s -> forall st, exists st', sys_rev g s st = Ok st' /\
                rev_result (indep_cells s) (rows s) (outside_params s) (all_params s) (sys_mat g s) st st' /\
                (unscaled s -> forall k, dr st' k = dr st k)) l ->
      Forall wf l -> NoDup (flat_map rows l) -> NoDup (flat_map all_params l) ->
      forall st, exists st', list_rev g l st = Ok st' /\
         rev_result (flat_map indep_cells l) (flat_map rows l) (flat_map outside_params l) (flat_map all_params l)
                    (flat_map (sys_mat g) l) st st' /\
         (Forall unscaled l -> forall k, dr st' k = dr st k).
  Proof.
    intros g l. induction l as [|s l IH]; intros HP Hwf Hr Hp st.
    - exists st. split; [reflexivity|]. split; [|reflexivity]. repeat split; auto; intros k [].
    - apply Forall_cons_iff in HP. destruct HP as [HPs HP]. apply Forall_cons_iff in Hwf. destruct Hwf as [Hws Hwf].
      simpl in Hr, Hp. apply NoDup_app_split in Hr. destruct Hr as [Hr1 [Hr2 Hr3]].
      apply NoDup_app_split in Hp. destruct Hp as [Hp1 [Hp2 Hp3]].
      destruct (HPs Hws st) as [s1 [E1 [[R1 [O1 [P1 [Q1 D1]]]] S1]]].
      destruct (IH HP Hwf Hr2 Hp2 s1) as [s2 [E2 [[R2 [O2 [P2 [Q2 D2]]]] S2]]].
      exists s2. simpl. rewrite E1. cbn [bind]. split; [exact E2|].
      assert (Hin : forall s' e, In s' l -> In e (sys_mat g s') -> In (e_row e) (flat_map rows l) /\
                match e_col e with CU j => In j (flat_map rows l) | CP t => In t (flat_map all_params l) end).
      { intros s' e Hs' He. rewrite Forall_forall in Hwf. pose proof (Hwf s' Hs') as Hw.
        apply sys_mat_in in He; auto. destruct He as [A B]. split; [apply in_flat_map; eauto|].
        destruct (e_col e); apply in_flat_map; exists s'; split; auto. now apply outside_all. }
      assert (Hdr : forall c, col_of (flat_map (sys_mat g) l) (dr s1) c = col_of (flat_map (sys_mat g) l) (dr st) c).
      { intro c. apply col_ext. intros e He. apply in_flat_map in He. destruct He as [s' [Hs' He]].
        destruct (Hin s' e Hs' He) as [A _]. apply D1. intro Hc. exact (Hr3 _ Hc A). }
      split; [split; [|split; [|split; [|split]]]|].
      + intros k Hk. rewrite col_of_app. apply in_app_iff in Hk. destruct Hk as [Hk|Hk].
        * rewrite O2 by (intro; eapply Hr3; eauto). rewrite R1 by exact Hk.
          rewrite (col_none (flat_map (sys_mat g) l)).
          2:{ intros e He E. apply in_flat_map in He. destruct He as [s' [Hs' He]].
              destruct (Hin s' e Hs' He) as [_ B]. rewrite E in B. exact (Hr3 k Hk B). }
          unfold left_over. replace (memb k (indep_cells s ++ flat_map indep_cells l)) with (memb k (indep_cells s)); [ring|].
          destruct (memb k (indep_cells s)) eqn:E; symmetry.
          -- apply memb_spec in E. apply memb_spec. apply in_app_iff. now left.
          -- apply memb_false in E. apply memb_false. rewrite in_app_iff. intros [H|H]; [tauto|].
             apply in_flat_map in H. destruct H as [s' [Hs' H]]. apply indep_rows in H. apply (Hr3 k Hk). apply in_flat_map. eauto.
        * rewrite R2 by exact Hk. rewrite Hdr. rewrite (col_none (sys_mat g s)).
          2:{ intros e He E. apply sys_mat_in in He; auto. destruct He as [_ B]. rewrite E in B. exact (Hr3 k B Hk). }
          assert (Hks : ~ In k (rows s)) by (intro Hc; exact (Hr3 k Hc Hk)).
          unfold left_over. rewrite O1 by exact Hks.
          replace (memb k (indep_cells s ++ flat_map indep_cells l)) with (memb k (flat_map indep_cells l)); [ring|].
          destruct (memb k (flat_map indep_cells l)) eqn:E; symmetry.
          -- apply memb_spec in E. apply memb_spec. apply in_app_iff. now right.
          -- apply memb_false in E. apply memb_false. rewrite in_app_iff. intros [H|H]; [|tauto]. apply indep_rows in H. tauto.
      + intros k Hk. rewrite in_app_iff in Hk. rewrite O2, O1 by tauto. reflexivity.
      + intros t Ht. rewrite col_of_app. apply in_app_iff in Ht. destruct Ht as [Ht|Ht].
        * rewrite (col_none (flat_map (sys_mat g) l)).
          2:{ intros e He E. apply in_flat_map in He. destruct He as [s' [Hs' He]].
              destruct (Hin s' e Hs' He) as [_ B]. rewrite E in B. apply (Hp3 t); auto. now apply outside_all. }
          rewrite Q2 by (apply Hp3; now apply outside_all). rewrite P1 by exact Ht. ring.
        * rewrite P2 by exact Ht. rewrite Hdr. rewrite (col_none (sys_mat g s)); [ring|].
          intros e He E. apply sys_mat_in in He; auto. destruct He as [_ B]. rewrite E in B.
          apply (Hp3 t); [now apply outside_all|]. apply in_flat_map in Ht. destruct Ht as [s' [Hs' Ht]].
          apply in_flat_map. exists s'. split; auto. rewrite Forall_forall in Hwf. apply outside_all; auto.
      + intros t Ht. rewrite in_app_iff in Ht. rewrite Q2, Q1 by tauto. reflexivity.
      + intros t Ht. rewrite in_app_iff in Ht. rewrite D2, D1 by tauto. reflexivity.
      + intros Hus k. apply Forall_cons_iff in Hus. destruct Hus as [Hu1 Hu2]. rewrite S2, S1 by assumption. reflexivity.
  Qed.

  Lemma into_ext : forall ks (p p' : nat -> F) i, (forall k, In k ks -> p (k_tgt k) = p' (k_tgt k)) -> into ks p i = into ks p' i.
  Proof. intros. unfold into. apply total_ext. intros a Ha. now rewrite (H a Ha). Qed.
  Lemma into_none : forall ks (p : nat -> F) i, ~ In i (map k_src ks) -> into ks p i = F0.
  Proof.
    intros. unfold into. apply total_zero. intros a Ha. destruct (k_src a =? i) eqn:E; auto.
    apply Nat.eqb_eq in E. exfalso. apply H. rewrite <- E. now apply in_map.
  Qed.

  Lemma sys_rev_spec : forall g s, wf s -> forall st,
      exists st', sys_rev g s st = Ok st' /\
        rev_result (indep_cells s) (rows s) (outside_params s) (all_params s) (sys_mat g s) st st' /\
        (unscaled s -> forall k, dr st' k = dr st k).
  Proof.
    intro g. induction s as [c|us|ks c|ns sv ks subs IH] using sys_ind'; intros Hwf st.
    - destruct (comp_rev_spec g c st Hwf) as [s' [E [R [O [P [Q [D S]]]]]]]. exists s'. split; [exact E|].
      split; [|exact S]. split; [|split; [exact O|split; [exact P|split; [exact Q|exact D]]]].
      intros k Hk. cbn [indep_cells]. unfold left_over. simpl memb. rewrite R by exact Hk. cbn [LinSpec.sys_mat]. ring.
    - destruct Hwf as [Hn Hs]. eexists. split; [reflexivity|]. cbn [dr dp indep_rev du rows LinSpec.sys_mat all_params outside_params indep_cells].
      split; [|reflexivity]. unfold indep_rev. split; [|split; [|split; [|split]]]; cbn [du dr dp].
      + intros k Hk. destruct (owner u_off u_size us k Hk) as [u [H1 H2]].
        rewrite (sub_listed_in g us _ _ u k Hn H1 H2), (minus_col g us _ u k Hn H1 H2).
        unfold left_over. apply memb_spec in Hk. rewrite Hk.
        destruct (listed g (u_name u) && negb (u_state u)); ring.
      + intros k Hk. now rewrite sub_listed_out.
      + intros t [].
      + reflexivity.
      + reflexivity.
    - destruct Hwf as [Hc [Hn [Ht Hsrc]]]. cbn [LinModel.sys_rev].
      destruct (comp_rev_spec g c st Hc) as [s' [E [R [O [P [Q [D S]]]]]]]. rewrite E. cbn [bind].
      eexists. split; [reflexivity|]. split; [|exact S]. cbn [rows LinSpec.sys_mat all_params outside_params indep_cells].
      split; [|split; [|split; [|split; [exact Q|exact D]]]].
      + intros k Hk. rewrite xfer_rev_at, R by exact Hk. rewrite col_reroute_u by exact Hn. unfold left_over. simpl memb.
        rewrite (into_ext ks (dp s') (fun t => col_of (comp_mat g c) (dr st) (CP t))); [ring|].
        intros a Ha. apply P. apply Ht. now apply in_map.
      + intros k Hk. rewrite xfer_rev_at, O by exact Hk. rewrite into_none; [ring|]. intro H. apply Hk. now apply Hsrc.
      + intros t Hin. apply without_in in Hin. destruct Hin as [Hin Hnt]. rewrite col_reroute_p by exact Hnt. now apply P.
    - destruct Hwf as [Hr [Hp [Hn [Ht [Hsrc Hw]]]]]. apply fold_and in Hw. rewrite sys_rev_group.
      destruct (list_rev_spec g subs IH Hw Hr Hp st) as [s' [E [[R [O [P [Q D]]]] S]]]. rewrite E. cbn [bind].
      eexists. split; [reflexivity|]. cbn [rows LinSpec.sys_mat all_params outside_params indep_cells]. split.
      2:{ intros Hu k. cbn [xfer_rev dr]. apply S. apply fold_and. exact Hu. }
      split; [|split; [|split; [|split; [exact Q|exact D]]]].
      + intros k Hk. rewrite xfer_rev_at, R by exact Hk. rewrite col_reroute_u by exact Hn.
        rewrite (into_ext ks (dp s') (fun t => col_of (flat_map (sys_mat g) subs) (dr st) (CP t))); [ring|].
        intros a Ha. apply P. apply Ht. now apply in_map.
      + intros k Hk. rewrite xfer_rev_at, O by exact Hk. rewrite into_none; [ring|]. intro H. apply Hk. now apply Hsrc.
      + intros t Hin. apply without_in in Hin. destruct Hin as [Hin Hnt]. rewrite col_reroute_p by exact Hnt. now apply P.
  Qed.

  (** ** adjointness *)
  Lemma total_pick : forall A (eqb : A -> A -> bool) (Heq : forall a b, eqb a b = true <-> a = b) (f : A -> F) l a,
      NoDup l -> total (fun b => if eqb a b then f b else F0) l = if existsb (eqb a) l then f a else F0.
  Proof.
    intros A eqb Heq f l a Hn. induction l as [|b l IH]; simpl; auto.
    apply NoDup_cons_iff in Hn. destruct Hn as [Hb Hn]. rewrite (IH Hn).
    destruct (eqb a b) eqn:E; simpl; [|ring]. apply Heq in E. subst b.
    replace (existsb (eqb a) l) with false; [ring|]. symmetry. destruct (existsb (eqb a) l) eqn:E; auto.
    exfalso. apply existsb_exists in E. destruct E as [x [Hx E]]. apply Heq in E. subst. contradiction.
  Qed.

  Lemma exchange : forall m (x : col -> F) (y : nat -> F) R C, NoDup R -> NoDup C ->
      (forall e, In e m -> In (e_row e) R /\ In (e_col e) C) ->
      total (fun k => row_of m x k *! y k) R = total (fun c => x c *! col_of m y c) C.
  Proof.
    intros m x y R C HR HC Hm.
    rewrite (total_ext _ (fun k => row_of m x k *! y k)
               (fun k => total (fun e : entry => if e_row e =? k then snd e *! x (e_col e) *! y k else F0) m)).
    2:{ intros k _. unfold LinSpec.row_of. rewrite <- total_mul_r. apply total_ext. intros e _. destruct (e_row e =? k); ring. }
    rewrite total_swap.
    rewrite (total_ext _ (fun c => x c *! col_of m y c)
               (fun c => total (fun e : entry => if col_eqb (e_col e) c then snd e *! x c *! y (e_row e) else F0) m)).
    2:{ intros c _. unfold LinSpec.col_of. rewrite <- total_mul_l. apply total_ext. intros e _. destruct (col_eqb (e_col e) c); ring. }
    rewrite (total_swap _ _ (fun c (e : entry) => if col_eqb (e_col e) c then snd e *! x c *! y (e_row e) else F0)).
    apply total_ext. intros e He. destruct (Hm e He) as [H1 H2].
    rewrite (total_pick nat Nat.eqb Nat.eqb_eq (fun k => snd e *! x (e_col e) *! y k) R (e_row e) HR).
    rewrite (total_pick col col_eqb col_eqb_eq (fun c => snd e *! x c *! y (e_row e)) C (e_col e) HC).
    replace (existsb (Nat.eqb (e_row e)) R) with true; [replace (existsb (col_eqb (e_col e)) C) with true; [reflexivity|]|]; symmetry; apply existsb_exists.
    - exists (e_col e). split; auto. apply col_eqb_refl.
    - exists (e_row e). split; auto. apply Nat.eqb_refl.
  Qed.

  Lemma wf_nodup : forall s : sys, wf s -> NoDup (rows s) /\ NoDup (all_params s) /\ NoDup (outside_params s).
  Proof.
    assert (Hflat : forall l : list sys, Forall (fun s => wf s -> NoDup (outside_params s)) l -> Forall wf l ->
              NoDup (flat_map all_params l) -> NoDup (flat_map outside_params l)).
    { induction l as [|s l IH]; intros HP Hw Hn; simpl; [constructor|].
      apply Forall_cons_iff in HP. destruct HP as [HPs HP]. apply Forall_cons_iff in Hw. destruct Hw as [Hws Hw].
      simpl in Hn. apply NoDup_app_split in Hn. destruct Hn as [H1 [H2 H3]].
      specialize (IH HP Hw H2). specialize (HPs Hws).
      assert (Hd : forall t, In t (outside_params s) -> ~ In t (flat_map outside_params l)).
      { intros t Ht Hc. apply (H3 t); [now apply outside_all|]. apply in_flat_map in Hc. destruct Hc as [s' [Hs' Hc]].
        apply in_flat_map. exists s'. split; auto. rewrite Forall_forall in Hw. apply outside_all; auto. }
      revert HPs Hd. clear -IH. generalize (outside_params s) as a. induction a as [|x a IHa]; intros Ha Hd; simpl; auto.
      apply NoDup_cons_iff in Ha. destruct Ha as [Hx Ha]. constructor.
      - rewrite in_app_iff. intros [H|H]; [contradiction|]. apply (Hd x); [now left|exact H].
      - apply IHa; auto. intros t Ht. apply Hd. now right. }
    induction s as [c|us|ks c|ns sv ks subs IH] using sys_ind'; intros Hw; simpl in *.
    - destruct Hw as [H1 [H2 _]]. auto.
    - destruct Hw as [H1 _]. repeat split; auto; constructor.
    - destruct Hw as [[H1 [H2 _]] _]. repeat split; auto. unfold without. now apply NoDup_filter.
    - destruct Hw as [H1 [H2 [H3 [H4 [H5 H6]]]]]. apply fold_and in H6. repeat split; auto.
      unfold without. apply NoDup_filter. apply Hflat; auto.
      rewrite Forall_forall in *. intros s Hs Hws. now apply IH.
  Qed.

  Notation inner := (inner F0 fadd fmul).

  Lemma adjoint : forall g s, wf s -> forall st st2,
      (forall k, In k (indep_cells s) -> du st2 k = F0) ->
      exists st1 st3, sys_fwd g s st = Ok st1 /\ sys_rev g s st2 = Ok st3 /\
        inner (rows s) (dr st1) (dr st2) =
        inner (rows s) (du st) (du st3) +! inner (outside_params s) (dp st) (dp st3).
  Proof.
    intros g s Hw st st2 Hz.
    destruct (sys_fwd_spec g s Hw st) as [st1 [E1 [[U1 [R1 _]] _]]].
    destruct (sys_rev_spec g s Hw st2) as [st3 [E3 [[R3 [_ [P3 _]]] _]]].
    exists st1, st3. split; [exact E1|]. split; [exact E3|].
    destruct (wf_nodup s Hw) as [N1 [_ N2]]. unfold inner.
    rewrite (total_ext _ _ (fun k => row_of (sys_mat g s) (over (du st) (dp st)) k *! dr st2 k)).
    2:{ intros k Hk. now rewrite R1. }
    rewrite (exchange _ _ _ (rows s) (map CU (rows s) ++ map CP (outside_params s))).
    - rewrite total_app, !total_map. f_equal; apply total_ext; intros k Hk; cbn [over].
      + rewrite R3 by exact Hk. unfold left_over. destruct (memb k (indep_cells s)) eqn:E; [|ring].
        apply memb_spec in E. rewrite (Hz k E). ring.
      + now rewrite P3.
    - exact N1.
    - assert (Hmap : forall (f : nat -> col) l, (forall a b, f a = f b -> a = b) -> NoDup l -> NoDup (map f l)).
      { intros f l Hf. induction l as [|a l IH]; intro H; simpl; [constructor|]. apply NoDup_cons_iff in H. destruct H as [Ha H].
        constructor; auto. intro Hin. apply in_map_iff in Hin. destruct Hin as [b [Eb Hb]]. apply Hf in Eb. now subst. }
      assert (M1 : NoDup (map CU (rows s))) by (apply Hmap; congruence).
      assert (M2 : NoDup (map CP (outside_params s))) by (apply Hmap; congruence).
      revert M1. generalize (rows s) as r. induction r as [|x r IH]; intro M1; simpl; auto.
      simpl in M1. apply NoDup_cons_iff in M1. destruct M1 as [Hx M1]. constructor; auto.
      rewrite in_app_iff. intros [H|H]; [contradiction|]. apply in_map_iff in H. destruct H as [b [Eb _]]. discriminate.
    - intros e He. apply sys_mat_in in He; auto. destruct He as [A B]. split; auto.
      apply in_app_iff. destruct (e_col e); [left | right]; now apply in_map.
  Qed.

  (** the products given to iterative and direct solvers *)
  Lemma copy_at_spec : forall cells src (tgt : nat -> F) k, copy_at cells src tgt k = if memb k cells then src k else tgt k.
  Proof.
    induction cells as [|c cells IH]; intros src tgt k; simpl; auto. unfold copy_at in *. simpl. rewrite IH, set_eq.
    unfold memb. simpl. destruct (existsb (Nat.eqb k) cells) eqn:E; [now rewrite Bool.orb_true_r|]. rewrite Bool.orb_false_r.
    destruct (k =? c) eqn:E2; auto. apply Nat.eqb_eq in E2. now subst.
  Qed.
  Lemma zero_at_spec : forall cells (v : nat -> F) k, zero_at F0 cells v k = if memb k cells then F0 else v k.
  Proof. intros. exact (copy_at_spec cells (fun _ => F0) v k). Qed.

  Lemma clear_at : forall (s : sys) v t, clear_dparams F0 s v t = v t \/ clear_dparams F0 s v t = F0.
  Proof.
    assert (Hz : forall cells (v : nat -> F) t, zero_at F0 cells v t = v t \/ zero_at F0 cells v t = F0).
    { intros. rewrite zero_at_spec. destruct (memb t cells); auto. }
    induction s as [c|us|ks c|ns sv ks subs IH] using sys_ind'; intros v t; simpl; auto.
    assert (Hl : forall l (w : nat -> F), Forall (fun s => forall v t, clear_dparams F0 s v t = v t \/ clear_dparams F0 s v t = F0) l ->
              fold_left (fun v s => clear_dparams F0 s v) l w t = w t \/ fold_left (fun v s => clear_dparams F0 s v) l w t = F0).
    { clear. induction l as [|s l IH]; intros w H; simpl; auto. apply Forall_cons_iff in H. destruct H as [Hs H].
      destruct (IH (clear_dparams F0 s w) H) as [->| ->]; [apply Hs | now right]. }
    destruct (Hl subs (zero_at F0 (map k_tgt ks) v) IH) as [->| ->]; auto.
  Qed.

  Notation mult := (mult F0 fadd fmul fsub).

  (** with the outside parameters at zero, as every caller leaves them *)
  Lemma mult_spec : forall s, wf s -> forall arg st, (forall t, In t (outside_params s) -> dp st t = F0) ->
      (exists r st', mult true s arg st = Ok (r, st') /\
          forall k, In k (rows s) -> r k = row_of (sys_mat None s) (over arg (fun _ => F0)) k) /\
      (exists r st', mult false s arg st = Ok (r, st') /\
          forall k, In k (rows s) -> r k = col_of (sys_mat None s) arg (CU k)).
  Proof.
    intros s Hw arg st Hp. unfold LinModel.mult. split.
    - match goal with |- context [sys_fwd None s ?x] => destruct (sys_fwd_spec None s Hw x) as [st1 [E1 [[U1 [R1 _]] _]]] end.
      rewrite E1. cbn [bind]. eexists _, _. split; [reflexivity|]. intros k Hk. rewrite R1 by exact Hk. cbn [du dp].
      apply row_ext. intros e He. apply sys_mat_in in He; auto. destruct He as [_ B].
      destruct (e_col e) as [j|t]; cbn [over].
      + rewrite copy_at_spec. apply memb_spec in B. now rewrite B.
      + destruct (clear_at s (dp st) t) as [->| ->]; auto.
    - match goal with |- context [sys_rev None s ?x] => destruct (sys_rev_spec None s Hw x) as [st1 [E1 [[R1 _] _]]] end.
      rewrite E1. cbn [bind]. eexists _, _. split; [reflexivity|]. intros k Hk. rewrite R1 by exact Hk. cbn [du dr].
      rewrite (col_ext _ (copy_at (rows s) arg (dr st)) arg).
      + unfold left_over. rewrite zero_at_spec. pose proof Hk as Hk'. apply memb_spec in Hk'. rewrite Hk'. destruct (memb k (indep_cells s)); ring.
      + intros e He. apply sys_mat_in in He; auto. destruct He as [A _]. rewrite copy_at_spec. apply memb_spec in A. now rewrite A.
  Qed.

  Lemma mult_adjoint : forall s, wf s -> forall x y st st2,
      (forall t, In t (outside_params s) -> dp st t = F0) -> (forall t, In t (outside_params s) -> dp st2 t = F0) ->
      exists a st1 b st3, mult true s x st = Ok (a, st1) /\ mult false s y st2 = Ok (b, st3) /\
        inner (rows s) a y = inner (rows s) x b.
  Proof.
    intros s Hw x y st st2 Hp Hp2.
    destruct (proj1 (mult_spec s Hw x st Hp)) as [a [st1 [E1 R1]]].
    destruct (proj2 (mult_spec s Hw y st2 Hp2)) as [b [st3 [E3 R3]]].
    exists a, st1, b, st3. split; [exact E1|]. split; [exact E3|]. unfold inner.
    rewrite (total_ext _ _ (fun k => row_of (sys_mat None s) (over x (fun _ => F0)) k *! y k)) by (intros k Hk; now rewrite R1).
    rewrite (total_ext _ (fun k => x k *! b k) (fun k => over x (fun _ => F0) (CU k) *! col_of (sys_mat None s) y (CU k))) by (intros k Hk; now rewrite R3).
    destruct (wf_nodup s Hw) as [N1 [_ N2]].
    rewrite (exchange _ _ _ (rows s) (map CU (rows s) ++ map CP (outside_params s))).
    - rewrite total_app, !total_map. cbn [over]. rewrite (total_zero _ (fun a0 => F0 *! col_of (sys_mat None s) y (CP a0))); [ring | intros; ring].
    - exact N1.
    - assert (Hmap : forall (f : nat -> col) l, (forall a b, f a = f b -> a = b) -> NoDup l -> NoDup (map f l)).
      { intros f l Hf. induction l as [|c l IH]; intro H; simpl; [constructor|]. apply NoDup_cons_iff in H. destruct H as [Ha H].
        constructor; auto. intro Hin. apply in_map_iff in Hin. destruct Hin as [d [Eb Hb]]. apply Hf in Eb. now subst. }
      assert (M1 : NoDup (map CU (rows s))) by (apply Hmap; congruence).
      assert (M2 : NoDup (map CP (outside_params s))) by (apply Hmap; congruence).
      revert M1. generalize (rows s) as r. induction r as [|c r IH]; intro M1; simpl; auto.
      simpl in M1. apply NoDup_cons_iff in M1. destruct M1 as [Hx M1]. constructor; auto.
      rewrite in_app_iff. intros [H|H]; [contradiction|]. apply in_map_iff in H. destruct H as [d [Eb _]]. discriminate.
    - intros e He. apply sys_mat_in in He; auto. destruct He as [A B]. split; auto.
      apply in_app_iff. destruct (e_col e); [left | right]; now apply in_map.
  Qed.

  (** ** linear Gauss-Seidel *)
  Context (tiny : list F -> bool) (Htiny : forall v, tiny v = true -> Forall (fun x => x = F0) v).
  Notation sys_solve := (sys_solve F0 fadd fmul fsub fopp tiny).

  Lemma rhs_minus_spec : forall cells rhs (v : nat -> F) k,
      rhs_minus fadd fopp cells rhs v k = if memb k cells then fopp (v k) +! rhs k else v k.
  Proof. intros. exact (copy_at_spec cells (fun k => fopp (v k) +! rhs k) v k). Qed.
  Lemma neg_at_spec : forall cells src (v : nat -> F) k, neg_at fopp cells src v k = if memb k cells then fopp (src k) else v k.
  Proof. intros. exact (copy_at_spec cells (fun k => fopp (src k)) v k). Qed.

  Lemma row_g : forall g s, wf s -> forall x k, (forall j, In j (rows s) -> x (CU j) = F0) ->
      row_of (sys_mat g s) x k = row_of (sys_mat None s) x k.
  Proof.
    intro g. assert (Hmi : forall g' us x k, (forall j, In j (ucells us) -> x (CU j) = F0) -> row_of (minus_identity g' us) x k = F0).
    { intros g' us x k Hx. unfold LinSpec.row_of. apply total_zero. intros e He. apply minus_in in He. destruct He as [H1 [H2 _]].
      rewrite H2, Hx by exact H1. destruct (e_row e =? k); ring. }
    assert (Hcm : forall c x k, (forall j, In j (ucells (c_unks c)) -> x (CU j) = F0) -> row_of (comp_mat g c) x k = row_of (comp_mat None c) x k).
    { intros c x k Hx. unfold LinSpec.comp_mat. rewrite !row_of_app, !Hmi by exact Hx. reflexivity. }
    induction s as [c|us|ks c|ns sv ks subs IH] using sys_ind'; intros Hw x k Hx; cbn [LinSpec.sys_mat rows] in *.
    - now apply Hcm.
    - now rewrite !Hmi.
    - rewrite !row_reroute. now apply Hcm.
    - rewrite !row_reroute, !row_of_flat. apply total_ext. intros s Hs. destruct Hw as [_ [_ [_ [_ [_ Hw]]]]]. apply fold_and in Hw.
      rewrite Forall_forall in IH, Hw. apply IH; auto. intros j Hj. cbn [source_of]. apply Hx. apply in_flat_map. eauto.
  Qed.

  Lemma col_p_g : forall g s, wf s -> forall y t, In t (outside_params s) -> col_of (sys_mat g s) y (CP t) = col_of (sys_mat None s) y (CP t).
  Proof.
    intro g. assert (Hcm : forall c y t, col_of (comp_mat g c) y (CP t) = col_of (comp_mat None c) y (CP t)).
    { intros c x k. unfold LinSpec.comp_mat. rewrite !col_of_app, !minus_col_p. reflexivity. }
    induction s as [c|us|ks c|ns sv ks subs IH] using sys_ind'; intros Hw y t Ht; cbn [LinSpec.sys_mat outside_params] in *.
    - apply Hcm.
    - destruct Ht.
    - apply without_in in Ht. rewrite !col_reroute_p by tauto. apply Hcm.
    - apply without_in in Ht. rewrite !col_reroute_p by tauto. rewrite !col_of_flat. apply total_ext. intros s Hs.
      destruct Hw as [_ [_ [_ [_ [_ Hw]]]]]. apply fold_and in Hw. rewrite Forall_forall in IH, Hw.
      destruct (in_dec Nat.eq_dec t (outside_params s)) as [Hin|Hin]; [now apply IH; auto|].
      rewrite !col_none; auto; intros e He E; apply sys_mat_in in He; auto; destruct He as [_ B]; rewrite E in B; contradiction.
  Qed.

  (** an explicit component inverts its own block by a change of sign *)
  Lemma explicit_state : forall c n, explicit (F:=F) (c_unks c) -> state_of c n = None.
  Proof.
    intros c n H. unfold state_of. destruct (find _ _) as [x|] eqn:E; auto. apply find_some in E. destruct E as [Hx E].
    unfold explicit in H. rewrite Forall_forall in H. rewrite (H x Hx), Bool.andb_false_r in E. discriminate.
  Qed.
  Lemma explicit_key : forall c key e, explicit (c_unks c) -> In e (key_entries c key) -> exists t, e_col e = CP t.
  Proof.
    intros c [[un pn] J] e Hex He. unfold LinSpec.key_entries in He. destruct (unknown_of c un); [|destruct He].
    rewrite explicit_state in He by exact Hex. destruct (param_of c pn); [|destruct He].
    apply in_block in He. destruct He as [i [j [_ [_ ->]]]]. cbn. eauto.
  Qed.
  Lemma explicit_row : forall c x k, wf_comp c -> explicit (c_unks c) -> In k (ucells (c_unks c)) ->
      (forall e, In e (comp_mat None c) -> forall t, e_col e = CP t -> x (CP t) = F0) ->
      row_of (comp_mat None c) x k = fopp (x (CU k)).
  Proof.
    intros c x k [Hu _] Hex Hk Hx. unfold LinSpec.comp_mat in *. rewrite row_of_app.
    destruct (owner u_off u_size (c_unks c) k Hk) as [u [H1 H2]]. rewrite (minus_row None (c_unks c) x u k Hu H1 H2).
    unfold explicit in Hex. pose proof Hex as Hex'. rewrite Forall_forall in Hex'. rewrite (Hex' u H1). cbn [listed negb andb].
    replace (row_of (flat_map (key_entries c) _) x k) with F0; [ring|]. symmetry. apply total_zero. intros e He.
    assert (Hin : In e (flat_map (key_entries c) match c_jac c with Some l => l | None => [] end ++ minus_identity None (c_unks c)))
      by (apply in_app_iff; now left).
    apply in_flat_map in He. destruct He as [key [_ He]]. destruct (explicit_key c key e Hex He) as [t Et].
    rewrite Et, (Hx e Hin t Et). destruct (e_row e =? k); ring.
  Qed.
  Lemma explicit_col : forall c y k, wf_comp c -> explicit (c_unks c) -> In k (ucells (c_unks c)) ->
      col_of (comp_mat None c) y (CU k) = fopp (y k).
  Proof.
    intros c y k [Hu _] Hex Hk. unfold LinSpec.comp_mat. rewrite col_of_app.
    destruct (owner u_off u_size (c_unks c) k Hk) as [u [H1 H2]]. rewrite (minus_col None (c_unks c) y u k Hu H1 H2).
    pose proof Hex as Hex'. unfold explicit in Hex'. rewrite Forall_forall in Hex'. rewrite (Hex' u H1). cbn [listed negb andb].
    rewrite col_none; [ring|]. intros e He E. apply in_flat_map in He. destruct He as [key [_ He]].
    destruct (explicit_key c key e Hex He) as [t Et]. congruence.
  Qed.

  (** *** forward *)
  Definition solve_fwd_ok (s : sys) : Prop := wf s -> feed_forward F0 F1 fadd fmul fopp true s ->
      forall st, (forall t, In t (outside_params s) -> dp st t = F0) ->
      exists st', sys_solve true s st = Ok st' /\
        (forall k, In k (rows s) -> row_of (sys_mat None s) (over (du st') (fun _ => F0)) k = dr st k) /\
        (forall k, ~ In k (rows s) -> du st' k = du st k) /\
        (forall k, ~ In k (rows s) -> dr st' k = dr st k) /\
        (forall t, ~ In t (all_params s) -> dp st' t = dp st t) /\
        (forall t, In t (outside_params s) -> dp st' t = F0).

  Definition loop_fwd (ns : list string) (ks : list conn) (cells : list nat) (rhs : nat -> F) :=
    fix go (i : nat) (l : list sys) (st : state) : res state :=
      match l with
      | [] => Ok st
      | sub :: l' =>
          let st := xfer_fwd (filter (fun k => k_tsub k =? i) ks) st in
          let! st := sys_fwd (Some (gs_outputs ns sub)) sub st in
          let st := mkS (du st) (rhs_minus fadd fopp cells rhs (dr st)) (zero_at F0 (map k_tgt ks) (dp st)) in
          let! st := sys_solve true sub st in
          go (S i) l' st
      end.
  Definition loop_rev (ns : list string) (ks : list conn) (cells : list nat) (rhs : nat -> F) :=
    fix go (i : nat) (l : list sys) (st : state) : res state :=
      match l with
      | [] => Ok st
      | sub :: l' =>
          let! st := go (S i) l' st in
          let st := mkS (zero_at F0 cells (du st)) (dr st) (dp st) in
          let st := xfer_rev fadd (filter (fun k => k_ssub k =? i) ks) st in
          let st := mkS (rhs_minus fadd fopp cells rhs (du st)) (dr st) (dp st) in
          let! st := sys_solve false sub st in
          sys_rev (Some (gs_outputs ns sub)) sub st
      end.

  Lemma sys_solve_group : forall fwd ns ks subs st, sys_solve fwd (Group ns None ks subs) st =
      let s := Group ns None ks subs in
      let cells := rows s in
      let rhs := if fwd then dr st else du st in
      if tiny (map rhs cells) then
        Ok (if fwd then mkS (zero_at F0 cells (du st)) (dr st) (dp st) else mkS (du st) (zero_at F0 cells (dr st)) (dp st))
      else let st := mkS (zero_at F0 cells (du st)) (dr st) (clear_dparams F0 s (dp st)) in
           if fwd then loop_fwd ns ks cells rhs 0 subs st else loop_rev ns ks cells rhs 0 subs st.
  Proof. intros. destruct fwd; reflexivity. Qed.

  (** which subsystem a position belongs to *)
  Lemma nth_disjoint : forall A (f : A -> list nat) l i j a b k, NoDup (flat_map f l) ->
      nth_error l i = Some a -> nth_error l j = Some b -> In k (f a) -> In k (f b) -> i = j.
  Proof.
    induction l as [|c l IH]; intros i j a b k Hn Hi Hj Ha Hb; [destruct i; discriminate|].
    simpl in Hn. apply NoDup_app_split in Hn. destruct Hn as [_ [Hn Hd]].
    destruct i as [|i], j as [|j]; simpl in Hi, Hj; auto.
    - injection Hi as ->. exfalso. apply (Hd k Ha). apply in_flat_map. exists b. split; auto. now apply nth_error_In in Hj.
    - injection Hj as ->. exfalso. apply (Hd k Hb). apply in_flat_map. exists a. split; auto. now apply nth_error_In in Hi.
    - f_equal. eapply IH; eauto.
  Qed.

  (** columns of a subsystem after the group's connections, outside parameters zero *)
  Definition joined (ks : list conn) (u : nat -> F) (c : col) : F := over u (fun _ => F0) (source_of ks c).

  Lemma nodup_outside : forall l : list sys, Forall wf l -> NoDup (flat_map all_params l) -> NoDup (flat_map outside_params l).
  Proof.
    induction l as [|s l IH]; intros Hw Hn; simpl; [constructor|].
    apply Forall_cons_iff in Hw. destruct Hw as [Hws Hw]. simpl in Hn. apply NoDup_app_split in Hn. destruct Hn as [H1 [H2 H3]].
    specialize (IH Hw H2). destruct (wf_nodup s Hws) as [_ [_ HPs]].
    assert (Hd : forall t, In t (outside_params s) -> ~ In t (flat_map outside_params l)).
    { intros t Ht Hc. apply (H3 t); [now apply outside_all|]. apply in_flat_map in Hc. destruct Hc as [s' [Hs' Hc]].
      apply in_flat_map. exists s'. split; auto. rewrite Forall_forall in Hw. apply outside_all; auto. }
    revert HPs Hd. clear -IH. generalize (outside_params s) as a. induction a as [|x a IHa]; intros Ha Hd; simpl; auto.
    apply NoDup_cons_iff in Ha. destruct Ha as [Hx Ha]. constructor.
    - rewrite in_app_iff. intros [H|H]; [contradiction|]. apply (Hd x); [now left|exact H].
    - apply IHa; auto. intros t Ht. apply Hd. now right.
  Qed.

  Lemma filter_tgt_nodup : forall (f : conn -> bool) ks, NoDup (map k_tgt ks) -> NoDup (map k_tgt (filter f ks)).
  Proof.
    induction ks as [|k ks IH]; intro H; simpl; auto. simpl in H. apply NoDup_cons_iff in H. destruct H as [Hk H].
    destruct (f k); auto. simpl. constructor; auto. intro Hin. apply Hk. apply in_map_iff in Hin. destruct Hin as [a [E Ha]].
    apply filter_In in Ha. rewrite <- E. apply in_map. tauto.
  Qed.

  Lemma loop_fwd_spec : forall ns ks subs rhs, Forall solve_fwd_ok subs -> Forall wf subs ->
      Forall (feed_forward F0 F1 fadd fmul fopp true) subs -> Forall (forward_conn subs) ks ->
      NoDup (flat_map rows subs) -> NoDup (flat_map all_params subs) -> NoDup (map k_tgt ks) ->
      incl (map k_tgt ks) (flat_map outside_params subs) ->
      forall l pre, subs = (pre ++ l)%list -> forall st,
      (forall i s k, i < length pre -> nth_error subs i = Some s -> In k (rows s) ->
         row_of (sys_mat None s) (joined ks (du st)) k = rhs k) ->
      (forall k, In k (flat_map rows l) -> du st k = F0) ->
      (forall t, In t (flat_map outside_params subs) -> dp st t = F0) ->
      exists st', loop_fwd ns ks (flat_map rows subs) rhs (length pre) l st = Ok st' /\
        (forall s k, In s subs -> In k (rows s) -> row_of (sys_mat None s) (joined ks (du st')) k = rhs k) /\
        (forall k, ~ In k (flat_map rows subs) -> du st' k = du st k) /\
        (forall k, ~ In k (flat_map rows subs) -> dr st' k = dr st k) /\
        (forall t, ~ In t (flat_map all_params subs) -> dp st' t = dp st t) /\
        (forall t, In t (flat_map outside_params subs) -> dp st' t = F0).
  Proof.
    intros ns ks subs rhs Hok Hw Hff Hks Hr Hp Hn Ht. pose proof (nodup_outside subs Hw Hp) as Ho.
    induction l as [|sub l IH]; intros pre Hsubs st I1 I2 I3.
    - exists st. split; [reflexivity|]. split; [|repeat split; auto].
      intros s k Hs Hk. apply In_nth_error in Hs. destruct Hs as [i Hi]. apply (I1 i s k); auto.
      rewrite app_nil_r in Hsubs. subst pre. apply nth_error_Some. congruence.
    - set (i := length pre).
      assert (Hsub : nth_error subs i = Some sub).
      { subst subs i. rewrite nth_error_app2 by lia. now rewrite Nat.sub_diag. }
      assert (Hin : In sub subs) by (now apply nth_error_In in Hsub).
      rewrite Forall_forall in Hok, Hw, Hff, Hks.
      assert (Hnot : forall s j k, nth_error subs j = Some s -> j <> i -> In k (rows s) -> ~ In k (rows sub)).
      { intros s j k Hj Hne Hk Hc. apply Hne. exact (nth_disjoint _ rows subs j i s sub k Hr Hj Hsub Hk Hc). }
      assert (Hpnot : forall s j t, nth_error subs j = Some s -> j <> i -> In t (all_params s) -> ~ In t (all_params sub)).
      { intros s j t Hj Hne Hk Hc. apply Hne. exact (nth_disjoint _ all_params subs j i s sub t Hp Hj Hsub Hk Hc). }
      (* transfer *)
      set (st1 := xfer_fwd (filter (fun k => k_tsub k =? i) ks) st).
      assert (D1 : forall t, In t (outside_params sub) -> dp st1 t = joined ks (du st) (CP t)).
      { intros t Hto. unfold st1. rewrite xfer_fwd_at by (now apply filter_tgt_nodup). unfold joined.
        destruct (source_cases ks t) as [[k [Hk [Hkt E]]]|[Hnt E]]; rewrite E; cbn [over].
        - assert (Hf : In k (filter (fun k => k_tsub k =? i) ks)).
          { apply filter_In. split; auto. apply Nat.eqb_eq. destruct (Hks k Hk) as [_ [_ [s [Hs Hks']]]].
            rewrite Hkt in Hks'. exact (nth_disjoint _ outside_params subs _ _ s sub t Ho Hs Hsub Hks' Hto). }
          destruct (source_cases (filter (fun k => k_tsub k =? i) ks) t) as [[k' [Hk' [Hkt' E']]]|[Hnt E']]; rewrite E'; cbn [over].
          + apply filter_In in Hk'. destruct Hk' as [Hk' _]. assert (k' = k) as ->; auto.
            apply In_nth_error in Hk. destruct Hk as [a Ha]. apply In_nth_error in Hk'. destruct Hk' as [b Hb].
            assert (a = b).
            { apply (NoDup_nth_error (map k_tgt ks)); auto.
              - apply nth_error_Some. rewrite (map_nth_error k_tgt a ks Ha). discriminate.
              - rewrite (map_nth_error k_tgt a ks Ha), (map_nth_error k_tgt b ks Hb). congruence. }
            congruence.
          + exfalso. apply Hnt. rewrite <- Hkt. now apply in_map.
        - destruct (source_cases (filter (fun k => k_tsub k =? i) ks) t) as [[k' [Hk' [Hkt' E']]]|[_ E']]; rewrite E'; cbn [over].
          + exfalso. apply filter_In in Hk'. destruct Hk' as [Hk' _]. apply Hnt. rewrite <- Hkt'. now apply in_map.
          + apply I3. apply in_flat_map. eauto. }
      assert (D1o : forall t, ~ In t (map k_tgt ks) -> dp st1 t = dp st t).
      { intros t Hnt. apply xfer_fwd_out. intro Hc. apply Hnt. apply in_map_iff in Hc. destruct Hc as [k [E Hk]].
        apply filter_In in Hk. rewrite <- E. apply in_map. tauto. }
      (* apply *)
      destruct (sys_fwd_spec (Some (gs_outputs ns sub)) sub (Hw sub Hin) st1) as [st2 [E2 [[U2 [R2 [O2 P2]]] Z2]]].
      set (off := over (fun _ => F0) (fun t => joined ks (du st) (CP t))).
      assert (Hdu0 : forall j, In j (rows sub) -> du st j = F0) by (intros; apply I2; simpl; apply in_app_iff; now left).
      assert (R2' : forall k, In k (rows sub) -> dr st2 k = row_of (sys_mat None sub) off k).
      { intros k Hk. rewrite R2 by exact Hk. rewrite (row_g (Some (gs_outputs ns sub)) sub (Hw sub Hin)).
        - apply row_ext. intros e He. apply sys_mat_in in He; auto. destruct He as [_ B].
          destruct (e_col e) as [j|t]; unfold off; cbn [over]; [exact (Hdu0 j B) | exact (D1 t B)].
        - intros j Hj. cbn [over]. exact (Hdu0 j Hj). }
      set (st3 := mkS (du st2) (rhs_minus fadd fopp (flat_map rows subs) rhs (dr st2)) (zero_at F0 (map k_tgt ks) (dp st2))).
      assert (Hcells : forall k, In k (rows sub) -> memb k (flat_map rows subs) = true).
      { intros k Hk. apply memb_spec. apply in_flat_map. eauto. }
      assert (D3 : forall t, In t (flat_map outside_params subs) -> dp st3 t = F0).
      { intros t Hto. unfold st3. cbn [dp]. rewrite zero_at_spec. destruct (memb t (map k_tgt ks)) eqn:E; auto.
        apply memb_false in E. apply in_flat_map in Hto. destruct Hto as [s [Hs Hto]].
        pose proof (D1o t E) as Hd. rewrite I3 in Hd by (apply in_flat_map; eauto).
        destruct (in_dec Nat.eq_dec t (all_params sub)) as [Ha|Ha].
        - apply Z2; auto. apply In_nth_error in Hs. destruct Hs as [j Hj].
          assert (j = i) as ->.
          { apply (nth_disjoint _ all_params subs j i s sub t Hp Hj Hsub); auto. apply outside_all; auto. apply Hw. now apply nth_error_In in Hj. }
          congruence.
        - rewrite P2; auto. }
      (* solve *)
      destruct (Hok sub Hin (Hw sub Hin) (Hff sub Hin) st3) as [st4 [E4 [A4 [U4 [R4 [P4 Z4]]]]]].
      { intros t Hto. apply D3. apply in_flat_map. eauto. }
      assert (Hdu4 : forall k, ~ In k (rows sub) -> du st4 k = du st k).
      { intros k Hk. rewrite U4 by exact Hk. unfold st3. cbn [du]. rewrite U2. reflexivity. }
      assert (Hearly : forall k s j, In k ks -> nth_error subs j = Some s -> In (k_tgt k) (outside_params s) -> j <= i -> du st4 (k_src k) = du st (k_src k)).
      { intros k s j Hk Hj Hto Hle. destruct (Hks k Hk) as [Hlt [[s1 [Hs1 Hsrc]] [s2 [Hs2 Htgt]]]].
        assert (j = k_tsub k) by (exact (nth_disjoint _ outside_params subs _ _ s s2 (k_tgt k) Ho Hj Hs2 Hto Htgt)).
        apply Hdu4. apply (Hnot s1 (k_ssub k)); auto. lia. }
      assert (Hsame : forall j s c, nth_error subs j = Some s -> j < i ->
                match c with CU q => In q (rows s) | CP t => In t (outside_params s) end -> joined ks (du st4) c = joined ks (du st) c).
      { intros j s c Hj Hlt Hc. unfold joined. destruct c as [q|t].
        - cbn [source_of over]. apply Hdu4. apply (Hnot s j); auto. lia.
        - destruct (source_cases ks t) as [[k [Hk [Hkt E]]]|[Hnt E]]; rewrite E; cbn [over]; [|reflexivity].
          apply (Hearly k s j); auto; [rewrite Hkt; exact Hc | lia]. }
      subst i.
      destruct (IH (pre ++ [sub])%list) with (st := st4) as [st' [E' [A' [U' [R' [P' Z']]]]]].
      + rewrite <- app_assoc. exact Hsubs.
      + rewrite app_length. simpl. intros j s k Hj Hs Hk.
        destruct (Nat.eq_dec j (length pre)) as [->|Hne].
        * assert (s = sub) as -> by congruence.
          rewrite (row_ext _ (joined ks (du st4)) (fun c => over (du st4) (fun _ => F0) c +! off c)).
          -- rewrite row_add, A4 by exact Hk. unfold st3. cbn [dr]. rewrite rhs_minus_spec, (Hcells k Hk), (R2' k Hk). ring.
          -- intros e He. apply sys_mat_in in He; auto. destruct He as [_ B].
             destruct (e_col e) as [q|t]; unfold off, joined; cbn [over source_of].
             ++ ring.
             ++ change (match find (fun k => k_tgt k =? t) ks with Some k => CU (k_src k) | None => CP t end) with (source_of ks (CP t)).
                destruct (source_cases ks t) as [[k' [Hk' [Hkt E]]]|[Hnt E]]; rewrite E; cbn [over]; [|ring].
                rewrite (Hearly k' sub (length pre)); auto; [ring | rewrite Hkt; exact B].
        * rewrite <- (I1 j s k) by (auto; lia). apply row_ext. intros e He.
          apply sys_mat_in in He; [|apply Hw; now apply nth_error_In in Hs]. destruct He as [_ B].
          apply (Hsame j s); auto. lia.
      + intros k Hk. rewrite Hdu4.
        * apply I2. simpl. apply in_app_iff. now right.
        * intro Hc. apply in_flat_map in Hk. destruct Hk as [s [Hs Hk]]. apply In_nth_error in Hs. destruct Hs as [j Hj].
          apply (Hnot s (length pre + S j) k); auto; [|lia].
          subst subs. rewrite nth_error_app2 by lia. replace (length pre + S j - length pre) with (S j) by lia. exact Hj.
      + intros t Hto. destruct (in_dec Nat.eq_dec t (all_params sub)) as [Ha|Ha]; [|rewrite P4 by exact Ha; now apply D3].
        apply Z4. apply in_flat_map in Hto. destruct Hto as [s [Hs Hto]]. apply In_nth_error in Hs. destruct Hs as [j Hj].
        assert (j = length pre) as ->.
        { apply (nth_disjoint _ all_params subs j _ s sub t Hp Hj Hsub); auto. apply outside_all; auto. apply Hw. now apply nth_error_In in Hj. }
        congruence.
      + exists st'. split.
        { simpl. fold st1. rewrite E2. cbn [bind]. fold st3. rewrite E4. cbn [bind].
          rewrite app_length in E'. simpl in E'. rewrite Nat.add_1_r in E'. exact E'. }
        split; [exact A'|]. split; [|split; [|split; [|exact Z']]].
        * intros k Hk. rewrite U' by exact Hk. apply Hdu4. intro Hc. apply Hk. apply in_flat_map. eauto.
        * intros k Hk. rewrite R' by exact Hk. assert (Hc : ~ In k (rows sub)) by (intro Hc; apply Hk; apply in_flat_map; eauto).
          rewrite R4 by exact Hc. unfold st3. cbn [dr]. rewrite rhs_minus_spec.
          apply memb_false in Hk. rewrite Hk. rewrite O2 by exact Hc. reflexivity.
        * intros t Hk. rewrite P' by exact Hk. assert (Hc : ~ In t (all_params sub)) by (intro Hc; apply Hk; apply in_flat_map; eauto).
          rewrite P4 by exact Hc. unfold st3. cbn [dp]. rewrite zero_at_spec.
          assert (Hnt : ~ In t (map k_tgt ks)).
          { intro Hc2. apply Ht in Hc2. apply Hk. apply in_flat_map in Hc2. destruct Hc2 as [s [Hs Hc2]].
            apply in_flat_map. exists s. split; auto. apply outside_all; auto. }
          pose proof Hnt as Hnt'. apply memb_false in Hnt'. rewrite Hnt', P2 by exact Hc. apply D1o. exact Hnt.
  Qed.

  Lemma clear_zero : forall (s : sys) v t, v t = F0 -> clear_dparams F0 s v t = F0.
  Proof. intros s v t H. destruct (clear_at s v t) as [->| ->]; auto. Qed.
  Lemma clear_out : forall s : sys, wf s -> forall v t, ~ In t (all_params s) -> clear_dparams F0 s v t = v t.
  Proof.
    induction s as [c|us|ks c|ns sv ks subs IH] using sys_ind'; intros Hw v t Ht; simpl in *; auto.
    - rewrite zero_at_spec. replace (memb t (map k_tgt ks)) with false; auto. symmetry. apply memb_false.
      intro Hc. apply Ht. destruct Hw as [_ [_ [Hi _]]]. now apply Hi.
    - destruct Hw as [_ [_ [_ [Hi [_ Hw]]]]]. apply fold_and in Hw.
      assert (Hz : zero_at F0 (map k_tgt ks) v t = v t).
      { rewrite zero_at_spec. replace (memb t (map k_tgt ks)) with false; auto. symmetry. apply memb_false.
        intro Hc. apply Hi in Hc. apply Ht. apply in_flat_map in Hc. destruct Hc as [s [Hs Hc]]. apply in_flat_map. exists s. split; auto.
        rewrite Forall_forall in Hw. apply outside_all; auto. }
      rewrite <- Hz. generalize (zero_at F0 (map k_tgt ks) v) as w. clear Hz Hi.
      induction subs as [|s subs IHl]; intro w; simpl; auto. simpl in Ht. rewrite in_app_iff in Ht.
      apply Forall_cons_iff in IH. destruct IH as [IHs IH]. apply Forall_cons_iff in Hw. destruct Hw as [Hws Hw].
      rewrite IHl by tauto. apply IHs; tauto.
  Qed.
  Lemma clear_targets : forall ns sv ks (subs : list sys) v t, In t (map k_tgt ks) -> clear_dparams F0 (Group ns sv ks subs) v t = F0.
  Proof.
    intros ns sv ks subs v t Ht. simpl. assert (Hz : zero_at F0 (map k_tgt ks) v t = F0).
    { rewrite zero_at_spec. apply memb_spec in Ht. now rewrite Ht. }
    revert Hz. generalize (zero_at F0 (map k_tgt ks) v) as w. induction subs as [|s subs IH]; intros w Hz; simpl; auto.
    apply IH. now apply clear_zero.
  Qed.

  Lemma row_flat_one : forall g l s x k, Forall wf l -> NoDup (flat_map rows l) -> In s l -> In k (rows s) ->
      row_of (flat_map (sys_mat g) l) x k = row_of (sys_mat g s) x k.
  Proof.
    intros g l s x k Hw Hn Hs Hk. rewrite row_of_flat. revert Hw Hn Hs. induction l as [|a l IH]; intros Hw Hn Hs; [destruct Hs|].
    apply Forall_cons_iff in Hw. destruct Hw as [Hwa Hw]. simpl in Hn. apply NoDup_app_split in Hn. destruct Hn as [_ [Hn Hd]]. simpl.
    destruct Hs as [->|Hs].
    - rewrite total_zero; [ring|]. intros b Hb. apply row_none. intros e He E. rewrite Forall_forall in Hw.
      apply sys_mat_in in He; auto. destruct He as [A _]. rewrite E in A. apply (Hd k Hk). apply in_flat_map. eauto.
    - rewrite (IH Hw Hn Hs). rewrite row_none; [ring|]. intros e He E. apply sys_mat_in in He; auto. destruct He as [A _]. rewrite E in A.
      apply (Hd k A). apply in_flat_map. eauto.
  Qed.

  Lemma solve_fwd : forall s, solve_fwd_ok s.
  Proof.
    assert (Htz : forall cells (v : nat -> F) k, tiny (map v cells) = true -> In k cells -> v k = F0).
    { intros cells v k H Hk. apply Htiny in H. rewrite Forall_map, Forall_forall in H. now apply H. }
    induction s as [c|us|ks c|ns sv ks subs IH] using sys_ind'; intros Hw Hff st Hp0.
    - cbn [LinModel.sys_solve]. cbn [feed_forward] in Hff. destruct (c_solve c) as [f|] eqn:Ef.
      + eexists. split; [reflexivity|]. cbn [comp_solve du dr dp]. repeat split; auto.
        * intros k Hk. apply Hff; auto. intros j Hj. rewrite copy_at_spec. apply memb_spec in Hj. now rewrite Hj.
        * intros k Hk. rewrite copy_at_spec. apply memb_false in Hk. now rewrite Hk.
      + eexists. split; [reflexivity|]. cbn [comp_solve du dr dp]. repeat split; auto.
        * intros k Hk. cbn [LinSpec.sys_mat]. rewrite explicit_row; auto. cbn [over]. rewrite neg_at_spec.
          apply memb_spec in Hk. rewrite Hk. ring.
        * intros k Hk. rewrite neg_at_spec. apply memb_false in Hk. now rewrite Hk.
    - cbn [LinModel.sys_solve]. eexists. split; [reflexivity|]. cbn [comp_solve du dr dp]. destruct Hw as [Hn Hs]. repeat split; auto.
      + intros k Hk. cbn [LinSpec.sys_mat]. destruct (owner u_off u_size us k Hk) as [u [H1 H2]].
        rewrite (minus_row None us _ u k Hn H1 H2). rewrite Forall_forall in Hs. rewrite (Hs u H1). cbn [listed negb andb over].
        rewrite neg_at_spec. apply memb_spec in Hk. rewrite Hk. ring.
      + intros k Hk. rewrite neg_at_spec. apply memb_false in Hk. now rewrite Hk.
    - cbn [LinModel.sys_solve]. eexists. split; [reflexivity|]. cbn [comp_solve du dr dp]. destruct Hw as [Hc [Hn [Ht Hs]]].
      destruct Hff as [Hex Hint]. repeat split; auto.
      + intros k Hk. cbn [LinSpec.sys_mat]. rewrite row_reroute. rewrite explicit_row; auto.
        * cbn [source_of over]. rewrite neg_at_spec. apply memb_spec in Hk. rewrite Hk. ring.
        * intros e He t Et. destruct (source_cases ks t) as [[k' [Hk' [Hkt E]]]|[_ E]]; rewrite E; [|reflexivity].
          exfalso. apply (Hint e He). rewrite Et, <- Hkt. apply in_map_iff. eauto.
      + intros k Hk. rewrite neg_at_spec. apply memb_false in Hk. now rewrite Hk.
    - destruct sv as [f|].
      + cbn [LinModel.sys_solve]. cbn [feed_forward] in Hff. destruct (tiny _) eqn:Et.
        * eexists. split; [reflexivity|]. cbn [du dr dp]. repeat split; auto.
          -- intros k Hk. rewrite (Htz _ _ k Et Hk). apply total_zero. intros e He. apply sys_mat_in in He; auto. destruct He as [_ B].
             destruct (e_col e) as [j|t]; cbn [over]; [|destruct (e_row e =? k); ring].
             rewrite zero_at_spec. apply memb_spec in B. rewrite B. destruct (e_row e =? k); ring.
          -- intros k Hk. rewrite zero_at_spec. apply memb_false in Hk. now rewrite Hk.
        * eexists. split; [reflexivity|]. cbn [comp_solve du dr dp]. repeat split; auto.
          -- intros k Hk. apply Hff; auto. intros j Hj. rewrite copy_at_spec. apply memb_spec in Hj. now rewrite Hj.
          -- intros k Hk. rewrite copy_at_spec. apply memb_false in Hk. now rewrite Hk.
      + rewrite sys_solve_group. cbv zeta. cbn iota. destruct (tiny _) eqn:Et.
        * eexists. split; [reflexivity|]. cbn [du dr dp]. repeat split; auto.
          -- intros k Hk. rewrite (Htz _ _ k Et Hk). apply total_zero. intros e He. apply sys_mat_in in He; auto. destruct He as [_ B].
             destruct (e_col e) as [j|t]; cbn [over]; [|destruct (e_row e =? k); ring].
             rewrite zero_at_spec. apply memb_spec in B. rewrite B. destruct (e_row e =? k); ring.
          -- intros k Hk. rewrite zero_at_spec. apply memb_false in Hk. now rewrite Hk.
        * pose proof Hw as Hwf. cbn [feed_forward] in Hff. destruct Hff as [Hks Hff]. apply fold_and in Hff.
          destruct Hw as [Hr [Hp [Hn [Ht [Hsrc Hw]]]]]. apply fold_and in Hw.
          set (st0 := mkS (zero_at F0 (rows (Group ns None ks subs)) (du st)) (dr st) (clear_dparams F0 (Group ns None ks subs) (dp st))).
          destruct (loop_fwd_spec ns ks subs (dr st) IH Hw Hff Hks Hr Hp Hn Ht subs [] eq_refl st0) as [st' [E [A [U [R [P Z]]]]]].
          -- intros i s k Hi. simpl in Hi. lia.
          -- intros k Hk. unfold st0. cbn [du]. rewrite zero_at_spec. cbn [rows]. apply memb_spec in Hk. now rewrite Hk.
          -- intros t Hto. unfold st0. cbn [dp]. destruct (in_dec Nat.eq_dec t (map k_tgt ks)) as [Hin|Hin].
             ++ now apply clear_targets.
             ++ apply clear_zero. apply Hp0. cbn [outside_params]. apply without_in. auto.
          -- exists st'. split; [exact E|]. split; [|split; [|split; [|split]]].
             ++ intros k Hk. cbn [LinSpec.sys_mat rows] in *. rewrite row_reroute. apply in_flat_map in Hk. destruct Hk as [s [Hs Hk]].
                rewrite (row_flat_one None subs s _ k Hw Hr Hs Hk). exact (A s k Hs Hk).
             ++ intros k Hk. rewrite U by exact Hk. unfold st0. cbn [du]. rewrite zero_at_spec. apply memb_false in Hk. now rewrite Hk.
             ++ intros k Hk. rewrite R by exact Hk. reflexivity.
             ++ intros t Hk. rewrite P by exact Hk. unfold st0. cbn [dp]. now apply clear_out.
             ++ intros t Hk. apply Z. cbn [outside_params] in Hk. apply without_in in Hk. tauto.
  Qed.

  (** *** reverse *)
  Definition solve_rev_ok (s : sys) : Prop := wf s -> feed_forward F0 F1 fadd fmul fopp false s -> unscaled s ->
      forall st, exists st', sys_solve false s st = Ok st' /\
        (forall k, In k (rows s) -> col_of (sys_mat None s) (dr st') (CU k) = du st k) /\
        (forall k, ~ In k (rows s) -> du st' k = du st k) /\
        (forall k, ~ In k (rows s) -> dr st' k = dr st k) /\
        (forall t, ~ In t (all_params s) -> dp st' t = dp st t).

  Lemma loop_rev_cons : forall ns ks cells rhs i sub l st, loop_rev ns ks cells rhs i (sub :: l) st =
      let! st := loop_rev ns ks cells rhs (S i) l st in
      let st := mkS (zero_at F0 cells (du st)) (dr st) (dp st) in
      let st := xfer_rev fadd (filter (fun k => k_ssub k =? i) ks) st in
      let st := mkS (rhs_minus fadd fopp cells rhs (du st)) (dr st) (dp st) in
      let! st := sys_solve false sub st in
      sys_rev (Some (gs_outputs ns sub)) sub st.
  Proof. reflexivity. Qed.

  Lemma loop_rev_spec : forall ns ks subs rhs, Forall solve_rev_ok subs -> Forall wf subs ->
      Forall (feed_forward F0 F1 fadd fmul fopp false) subs -> Forall unscaled subs -> Forall (forward_conn subs) ks ->
      NoDup (flat_map rows subs) -> NoDup (flat_map all_params subs) ->
      incl (map k_src ks) (flat_map rows subs) ->
      forall l pre, subs = (pre ++ l)%list -> forall st,
      exists st', loop_rev ns ks (flat_map rows subs) rhs (length pre) l st = Ok st' /\
        (forall i s k, length pre <= i -> nth_error subs i = Some s -> In k (rows s) ->
           col_of (sys_mat None s) (dr st') (CU k) +! into ks (dp st') k = rhs k) /\
        (forall i s t, length pre <= i -> nth_error subs i = Some s -> In t (outside_params s) ->
           dp st' t = col_of (sys_mat None s) (dr st') (CP t)) /\
        (forall k, ~ In k (flat_map rows subs) -> du st' k = du st k) /\
        (forall k, ~ In k (flat_map rows subs) -> dr st' k = dr st k) /\
        (forall t, ~ In t (flat_map all_params subs) -> dp st' t = dp st t).
  Proof.
    intros ns ks subs rhs Hok Hw Hff Hun Hks Hr Hp Hsrc. pose proof (nodup_outside subs Hw Hp) as Ho.
    induction l as [|sub l IH]; intros pre Hsubs st.
    - exists st. split; [reflexivity|]. rewrite app_nil_r in Hsubs. subst pre.
      split; [|split; [|repeat split; auto]]; intros i s k Hi Hs; exfalso;
        (assert (i < length subs) by (apply nth_error_Some; congruence)); lia.
    - set (i := length pre).
      assert (Hsub : nth_error subs i = Some sub).
      { subst subs i. rewrite nth_error_app2 by lia. now rewrite Nat.sub_diag. }
      assert (Hin : In sub subs) by (now apply nth_error_In in Hsub).
      destruct (IH (pre ++ [sub])%list) with (st := st) as [st1 [E1 [J1 [J2 [U1 [R1 P1]]]]]].
      { rewrite <- app_assoc. exact Hsubs. }
      rewrite app_length in E1, J1, J2. simpl in E1, J1, J2. rewrite Nat.add_1_r in E1, J1, J2. fold i in E1, J1, J2.
      rewrite Forall_forall in Hok, Hw, Hff, Hks, Hun.
      assert (Hnot : forall s j k, nth_error subs j = Some s -> j <> i -> In k (rows s) -> ~ In k (rows sub)).
      { intros s j k Hj Hne Hk Hc. apply Hne. exact (nth_disjoint _ rows subs j i s sub k Hr Hj Hsub Hk Hc). }
      assert (Hpnot : forall s j t, nth_error subs j = Some s -> j <> i -> In t (all_params s) -> ~ In t (all_params sub)).
      { intros s j t Hj Hne Hk Hc. apply Hne. exact (nth_disjoint _ all_params subs j i s sub t Hp Hj Hsub Hk Hc). }
      set (cells := flat_map rows subs) in *.
      set (fs := filter (fun k => k_ssub k =? i) ks).
      set (st2 := xfer_rev fadd fs (mkS (zero_at F0 cells (du st1)) (dr st1) (dp st1))).
      set (st3 := mkS (rhs_minus fadd fopp cells rhs (du st2)) (dr st2) (dp st2)).
      assert (Hinto : forall p k, In k (rows sub) -> into fs p k = into ks p k).
      { intros p k Hk. unfold into, fs. clear -Hks Hk Hsub Hr Fth. induction ks as [|a l IH]; simpl; auto.
        assert (Hl : forall x, In x l -> forward_conn subs x) by (intros x Hx; apply Hks; now right).
        destruct (k_ssub a =? i) eqn:E; simpl; rewrite (IH Hl); [reflexivity|].
        destruct (k_src a =? k) eqn:E2; [|ring]. exfalso. apply Nat.eqb_neq in E. apply Nat.eqb_eq in E2. apply E.
        destruct (Hks a (or_introl eq_refl)) as [_ [[s1 [Hs1 Ha]] _]]. rewrite E2 in Ha.
        exact (nth_disjoint _ rows subs _ _ s1 sub k Hr Hs1 Hsub Ha Hk). }
      assert (Hcells : forall k, In k (rows sub) -> memb k cells = true).
      { intros k Hk. apply memb_spec. apply in_flat_map. eauto. }
      destruct (Hok sub Hin (Hw sub Hin) (Hff sub Hin) (Hun sub Hin) st3) as [st4 [E4 [A4 [U4 [R4 P4]]]]].
      destruct (sys_rev_spec (Some (gs_outputs ns sub)) sub (Hw sub Hin) st4) as [st5 [E5 [[_ [U5 [D5 [P5 _]]]] S5]]].
      specialize (S5 (Hun sub Hin)).
      assert (Hdr : forall k, ~ In k (rows sub) -> dr st5 k = dr st1 k).
      { intros k Hk. rewrite S5, R4 by exact Hk. reflexivity. }
      assert (Hdp : forall t, ~ In t (all_params sub) -> dp st5 t = dp st1 t).
      { intros t Hk. rewrite P5, P4 by exact Hk. reflexivity. }
      assert (Hlate : forall k, In k ks -> forall j s, nth_error subs j = Some s -> In (k_src k) (rows s) -> i <= j -> dp st5 (k_tgt k) = dp st1 (k_tgt k)).
      { intros k Hk j s Hj Hs Hle. destruct (Hks k Hk) as [Hlt [[s1 [Hs1 Ha]] [s2 [Hs2 Ht]]]].
        assert (j = k_ssub k) by (exact (nth_disjoint _ rows subs _ _ s s1 (k_src k) Hr Hj Hs1 Hs Ha)).
        apply Hdp. apply (Hpnot s2 (k_tsub k)); auto; [lia|]. apply outside_all; auto. apply Hw. now apply nth_error_In in Hs2. }
      assert (Hi2 : forall k j s, nth_error subs j = Some s -> In k (rows s) -> i <= j -> into ks (dp st5) k = into ks (dp st1) k).
      { intros k j s Hj Hs Hle. apply total_ext. intros a Ha. destruct (k_src a =? k) eqn:E; [|reflexivity].
        apply Nat.eqb_eq in E. apply (Hlate a Ha j s); auto. now rewrite E. }
      assert (Hcol : forall j s c, nth_error subs j = Some s -> j <> i -> col_of (sys_mat None s) (dr st5) c = col_of (sys_mat None s) (dr st1) c).
      { intros j s c Hj Hne. apply col_ext. intros e He. apply sys_mat_in in He; [|apply Hw; now apply nth_error_In in Hj].
        apply Hdr. apply (Hnot s j); tauto. }
      exists st5. split.
      { rewrite loop_rev_cons. rewrite E1. cbn [bind]. fold fs. fold st2. fold st3. rewrite E4. cbn [bind]. exact E5. }
      split; [|split; [|split; [|split]]].
      + intros j s k Hj Hs Hk. rewrite (Hi2 k j s Hs Hk Hj). destruct (Nat.eq_dec j i) as [->|Hne].
        * assert (s = sub) as -> by congruence.
          rewrite (col_ext _ (dr st5) (dr st4)) by (intros; apply S5). rewrite A4 by exact Hk.
          unfold st3. cbn [du]. rewrite rhs_minus_spec, (Hcells k Hk). unfold st2. rewrite xfer_rev_at. cbn [du dp].
          rewrite zero_at_spec, (Hcells k Hk), Hinto by exact Hk. ring.
        * rewrite (Hcol j s (CU k) Hs Hne). apply (J1 j s k); auto. lia.
      + intros j s t Hj Hs Ht. destruct (Nat.eq_dec j i) as [->|Hne].
        * assert (s = sub) as -> by congruence. rewrite D5 by exact Ht. rewrite (col_p_g _ sub (Hw sub Hin)) by exact Ht.
          apply col_ext. intros e _. symmetry. apply S5.
        * assert (Hws : wf s) by (apply Hw; now apply nth_error_In in Hs).
          rewrite (Hcol j s (CP t) Hs Hne), Hdp. 2:{ apply (Hpnot s j); auto. now apply outside_all. }
          apply (J2 j s t); auto. lia.
      + intros k Hk. assert (Hc : ~ In k (rows sub)) by (intro Hc; apply Hk; apply in_flat_map; eauto).
        rewrite U5, U4 by exact Hc. unfold st3. cbn [du]. rewrite rhs_minus_spec. pose proof Hk as Hk'. apply memb_false in Hk'. rewrite Hk'.
        unfold st2. rewrite xfer_rev_at. cbn [du]. rewrite zero_at_spec, Hk', U1 by exact Hk. rewrite into_none; [ring|].
        intro H. apply in_map_iff in H. destruct H as [a [Ea Ha]]. unfold fs in Ha. apply filter_In in Ha. apply Hk. apply Hsrc.
        rewrite <- Ea. apply in_map. tauto.
      + intros k Hk. rewrite Hdr by (intro Hc; apply Hk; apply in_flat_map; eauto). now apply R1.
      + intros t Hk. rewrite Hdp by (intro Hc; apply Hk; apply in_flat_map; eauto). now apply P1.
  Qed.

  Lemma col_flat_u : forall g l s y k, Forall wf l -> NoDup (flat_map rows l) -> In s l -> In k (rows s) ->
      col_of (flat_map (sys_mat g) l) y (CU k) = col_of (sys_mat g s) y (CU k).
  Proof.
    intros g l s x k Hw Hn Hs Hk. rewrite col_of_flat. revert Hw Hn Hs. induction l as [|a l IH]; intros Hw Hn Hs; [destruct Hs|].
    apply Forall_cons_iff in Hw. destruct Hw as [Hwa Hw]. simpl in Hn. apply NoDup_app_split in Hn. destruct Hn as [_ [Hn Hd]]. simpl.
    destruct Hs as [->|Hs].
    - rewrite total_zero; [ring|]. intros b Hb. apply col_none. intros e He E. rewrite Forall_forall in Hw.
      apply sys_mat_in in He; auto. destruct He as [_ A]. rewrite E in A. apply (Hd k Hk). apply in_flat_map. eauto.
    - rewrite (IH Hw Hn Hs). rewrite col_none; [ring|]. intros e He E. apply sys_mat_in in He; auto. destruct He as [_ A]. rewrite E in A.
      apply (Hd k A). apply in_flat_map. eauto.
  Qed.
  Lemma col_flat_p : forall g l s y t, Forall wf l -> NoDup (flat_map outside_params l) -> In s l -> In t (outside_params s) ->
      col_of (flat_map (sys_mat g) l) y (CP t) = col_of (sys_mat g s) y (CP t).
  Proof.
    intros g l s x k Hw Hn Hs Hk. rewrite col_of_flat. revert Hw Hn Hs. induction l as [|a l IH]; intros Hw Hn Hs; [destruct Hs|].
    apply Forall_cons_iff in Hw. destruct Hw as [Hwa Hw]. simpl in Hn. apply NoDup_app_split in Hn. destruct Hn as [_ [Hn Hd]]. simpl.
    destruct Hs as [->|Hs].
    - rewrite total_zero; [ring|]. intros b Hb. apply col_none. intros e He E. rewrite Forall_forall in Hw.
      apply sys_mat_in in He; auto. destruct He as [_ A]. rewrite E in A. apply (Hd k Hk). apply in_flat_map. eauto.
    - rewrite (IH Hw Hn Hs). rewrite col_none; [ring|]. intros e He E. apply sys_mat_in in He; auto. destruct He as [_ A]. rewrite E in A.
      apply (Hd k A). apply in_flat_map. eauto.
  Qed.

  Lemma solve_rev : forall s, solve_rev_ok s.
  Proof.
    assert (Htz : forall cells (v : nat -> F) k, tiny (map v cells) = true -> In k cells -> v k = F0).
    { intros cells v k H Hk. apply Htiny in H. rewrite Forall_map, Forall_forall in H. now apply H. }
    assert (Hzero : forall s (v : nat -> F) c, wf s -> col_of (sys_mat None s) (zero_at F0 (rows s) v) c = F0).
    { intros s v c Hw. apply total_zero. intros e He. apply sys_mat_in in He; auto. destruct He as [A _].
      rewrite zero_at_spec. apply memb_spec in A. rewrite A. destruct (col_eqb (e_col e) c); ring. }
    induction s as [c|us|ks c|ns sv ks subs IH] using sys_ind'; intros Hw Hff Hun st.
    - cbn [LinModel.sys_solve]. cbn [feed_forward] in Hff. destruct (c_solve c) as [f|] eqn:Ef.
      + eexists. split; [reflexivity|]. cbn [comp_solve du dr dp]. repeat split; auto.
        * intros k Hk. apply Hff; auto. intros j Hj. rewrite copy_at_spec. apply memb_spec in Hj. now rewrite Hj.
        * intros k Hk. rewrite copy_at_spec. apply memb_false in Hk. now rewrite Hk.
      + eexists. split; [reflexivity|]. cbn [comp_solve du dr dp]. repeat split; auto.
        * intros k Hk. cbn [LinSpec.sys_mat]. rewrite explicit_col; auto. rewrite neg_at_spec.
          apply memb_spec in Hk. rewrite Hk. ring.
        * intros k Hk. rewrite neg_at_spec. apply memb_false in Hk. now rewrite Hk.
    - cbn [LinModel.sys_solve]. eexists. split; [reflexivity|]. cbn [comp_solve du dr dp]. destruct Hw as [Hn Hs]. repeat split; auto.
      + intros k Hk. cbn [LinSpec.sys_mat]. destruct (owner u_off u_size us k Hk) as [u [H1 H2]].
        rewrite (minus_col None us _ u k Hn H1 H2). rewrite Forall_forall in Hs. rewrite (Hs u H1). cbn [listed negb andb].
        rewrite neg_at_spec. apply memb_spec in Hk. rewrite Hk. ring.
      + intros k Hk. rewrite neg_at_spec. apply memb_false in Hk. now rewrite Hk.
    - cbn [LinModel.sys_solve]. eexists. split; [reflexivity|]. cbn [comp_solve du dr dp]. destruct Hw as [Hc [Hn [Ht Hs]]].
      destruct Hff as [Hex Hint]. repeat split; auto.
      + intros k Hk. cbn [LinSpec.sys_mat]. rewrite col_reroute_u, explicit_col by auto.
        replace (into ks _ k) with F0.
        * rewrite neg_at_spec. apply memb_spec in Hk. rewrite Hk. ring.
        * symmetry. apply total_zero. intros a Ha. destruct (k_src a =? k); auto. apply col_none. intros e He E.
          apply (Hint e He). rewrite E. apply in_map_iff. eauto.
      + intros k Hk. rewrite neg_at_spec. apply memb_false in Hk. now rewrite Hk.
    - destruct sv as [f|].
      + cbn [LinModel.sys_solve]. cbn [feed_forward] in Hff. destruct (tiny _) eqn:Et.
        * eexists. split; [reflexivity|]. cbn [du dr dp]. repeat split; auto.
          -- intros k Hk. rewrite (Htz _ _ k Et Hk). now apply Hzero.
          -- intros k Hk. rewrite zero_at_spec. apply memb_false in Hk. now rewrite Hk.
        * eexists. split; [reflexivity|]. cbn [comp_solve du dr dp]. repeat split; auto.
          -- intros k Hk. apply Hff; auto. intros j Hj. rewrite copy_at_spec. apply memb_spec in Hj. now rewrite Hj.
          -- intros k Hk. rewrite copy_at_spec. apply memb_false in Hk. now rewrite Hk.
      + rewrite sys_solve_group. cbv zeta. cbn iota. destruct (tiny _) eqn:Et.
        * eexists. split; [reflexivity|]. cbn [du dr dp]. repeat split; auto.
          -- intros k Hk. rewrite (Htz _ _ k Et Hk). now apply Hzero.
          -- intros k Hk. rewrite zero_at_spec. apply memb_false in Hk. now rewrite Hk.
        * pose proof Hw as Hwf. cbn [feed_forward] in Hff. destruct Hff as [Hks Hff]. apply fold_and in Hff.
          cbn [unscaled] in Hun. apply fold_and in Hun.
          destruct Hw as [Hr [Hp [Hn [Ht [Hsrc Hw]]]]]. apply fold_and in Hw.
          pose proof (nodup_outside subs Hw Hp) as Ho.
          set (st0 := mkS (zero_at F0 (rows (Group ns None ks subs)) (du st)) (dr st) (clear_dparams F0 (Group ns None ks subs) (dp st))).
          destruct (loop_rev_spec ns ks subs (du st) IH Hw Hff Hun Hks Hr Hp Hsrc subs [] eq_refl st0) as [st' [E [A [B [U [R P]]]]]].
          exists st'. split; [exact E|]. split; [|split; [|split]].
          -- intros k Hk. cbn [LinSpec.sys_mat rows] in *. rewrite col_reroute_u by exact Hn.
             apply in_flat_map in Hk. destruct Hk as [s [Hs Hk]]. rewrite (col_flat_u None subs s _ k Hw Hr Hs Hk).
             rewrite (into_ext ks _ (dp st')).
             ++ pose proof Hs as Hs'. apply In_nth_error in Hs'. destruct Hs' as [i Hi]. apply (A i s k); auto. simpl. lia.
             ++ intros a Ha. assert (Hin : In (k_tgt a) (flat_map outside_params subs)) by (apply Ht; now apply in_map).
                apply in_flat_map in Hin. destruct Hin as [s2 [Hs2 Hin]]. rewrite (col_flat_p None subs s2 _ _ Hw Ho Hs2 Hin).
                apply In_nth_error in Hs2. destruct Hs2 as [i Hi]. symmetry. apply (B i s2); auto. simpl. lia.
          -- intros k Hk. rewrite U by exact Hk. unfold st0. cbn [du]. rewrite zero_at_spec. apply memb_false in Hk. now rewrite Hk.
          -- intros k Hk. rewrite R by exact Hk. reflexivity.
          -- intros t Hk. rewrite P by exact Hk. unfold st0. cbn [dp]. now apply clear_out.
  Qed.

  (** ** iterated sweeps *)
  Lemma sweep_loops : forall fwd ns ks subs rhs st, sweep F0 fadd fmul fsub fopp tiny fwd ns ks subs rhs st =
      if fwd then loop_fwd ns ks (flat_map rows subs) rhs 0 subs st else loop_rev ns ks (flat_map rows subs) rhs 0 subs st.
  Proof. intros. destruct fwd; reflexivity. Qed.

  Lemma sweep_fwd : forall ns ks subs rhs st, wf (Group ns None ks subs) -> feed_forward F0 F1 fadd fmul fopp true (Group ns None ks subs) ->
      (forall k, In k (flat_map rows subs) -> du st k = F0) -> (forall t, In t (flat_map outside_params subs) -> dp st t = F0) ->
      exists st', sweep F0 fadd fmul fsub fopp tiny true ns ks subs rhs st = Ok st' /\
        is_solution F0 F1 fadd fmul fopp true (Group ns None ks subs) rhs st'.
  Proof.
    intros ns ks subs rhs st Hw Hff Hu Hp0. rewrite sweep_loops. cbn [feed_forward] in Hff. destruct Hff as [Hks Hff]. apply fold_and in Hff.
    destruct Hw as [Hr [Hp [Hn [Ht [Hsrc Hw]]]]]. apply fold_and in Hw.
    assert (Hok : Forall solve_fwd_ok subs) by (apply Forall_forall; intros s _; apply solve_fwd).
    destruct (loop_fwd_spec ns ks subs rhs Hok Hw Hff Hks Hr Hp Hn Ht subs [] eq_refl st) as [st' [E [A _]]]; auto.
    { intros i s k Hi. simpl in Hi. lia. }
    exists st'. split; [exact E|]. intros k Hk. cbn [LinSpec.sys_mat rows] in *. rewrite row_reroute. apply in_flat_map in Hk. destruct Hk as [s [Hs Hk]].
    rewrite (row_flat_one None subs s _ k Hw Hr Hs Hk). exact (A s k Hs Hk).
  Qed.
  Lemma sweep_rev : forall ns ks subs rhs st, wf (Group ns None ks subs) -> feed_forward F0 F1 fadd fmul fopp false (Group ns None ks subs) ->
      unscaled (Group ns None ks subs) ->
      exists st', sweep F0 fadd fmul fsub fopp tiny false ns ks subs rhs st = Ok st' /\
        is_solution F0 F1 fadd fmul fopp false (Group ns None ks subs) rhs st'.
  Proof.
    intros ns ks subs rhs st Hw Hff Hun. rewrite sweep_loops. cbn [feed_forward] in Hff. destruct Hff as [Hks Hff]. apply fold_and in Hff.
    cbn [unscaled] in Hun. apply fold_and in Hun.
    destruct Hw as [Hr [Hp [Hn [Ht [Hsrc Hw]]]]]. apply fold_and in Hw. pose proof (nodup_outside subs Hw Hp) as Ho.
    assert (Hok : Forall solve_rev_ok subs) by (apply Forall_forall; intros s _; apply solve_rev).
    destruct (loop_rev_spec ns ks subs rhs Hok Hw Hff Hun Hks Hr Hp Hsrc subs [] eq_refl st) as [st' [E [A [B _]]]].
    exists st'. split; [exact E|]. intros k Hk. cbn [LinSpec.sys_mat rows] in *. rewrite col_reroute_u by exact Hn.
    apply in_flat_map in Hk. destruct Hk as [s [Hs Hk]]. rewrite (col_flat_u None subs s _ k Hw Hr Hs Hk).
    rewrite (into_ext ks _ (dp st')).
    - pose proof Hs as Hs'. apply In_nth_error in Hs'. destruct Hs' as [i Hi]. apply (A i s k); auto. simpl. lia.
    - intros a Ha. assert (Hin : In (k_tgt a) (flat_map outside_params subs)) by (apply Ht; now apply in_map).
      apply in_flat_map in Hin. destruct Hin as [s2 [Hs2 Hin]]. rewrite (col_flat_p None subs s2 _ _ Hw Ho Hs2 Hin).
      apply In_nth_error in Hs2. destruct Hs2 as [i Hi]. symmetry. apply (B i s2); auto. simpl. lia.
  Qed.

  Lemma explicit_ok : forall s, explicit_comp s -> feed_forward F0 F1 fadd fmul fopp true s.
  Proof. intros [c|us|ks c|ns sv ks subs] H; cbn in *; try contradiction; auto. destruct H as [-> H]. exact H. Qed.

  (** an explicit component's own unknowns do not enter its off-diagonal terms *)
  Lemma row_own : forall g s, wf s -> explicit_comp s -> (forall n, In n (names s) -> listed (Some g) n = false) ->
      forall x k, row_of (sys_mat (Some g) s) x k = row_of (sys_mat None s) (fun c => match c with CU _ => F0 | _ => x c end) k.
  Proof.
    intros g s Hw He Hg x k.
    assert (Hm : forall us x k, (forall u, In u us -> listed (Some g) (u_name u) = false) -> row_of (minus_identity (Some g) us) x k = F0).
    { intros us y j Hu. apply total_zero. intros e Hin. apply in_flat_map in Hin. destruct Hin as [u [Hin He']].
      specialize (Hu u Hin). cbn [listed] in Hu. rewrite Hu in He'. destruct (u_state u); destruct He'. }
    assert (Hn : forall us x k, row_of (minus_identity None us) (fun c => match c with CU _ => F0 | _ => x c end) k = F0).
    { intros us y j. apply total_zero. intros e Hin. apply minus_in in Hin. destruct Hin as [_ [E _]]. rewrite E.
      destruct (e_row e =? j); ring. }
    destruct s as [c|us|ks c|ns sv ks subs]; cbn in He; try contradiction.
    - cbn [LinSpec.sys_mat]. unfold LinSpec.comp_mat. rewrite !row_of_app, Hm, Hn.
      2:{ intros u Hu. apply Hg. cbn. now apply in_map. }
      f_equal. apply row_ext. intros e He'. apply in_flat_map in He'. destruct He' as [key [_ He']].
      destruct (explicit_key c key e (proj2 He) He') as [t ->]. reflexivity.
    - cbn [LinSpec.sys_mat]. rewrite Hm, Hn; auto. intros u Hu. apply Hg. cbn. now apply in_map.
  Qed.

  Lemma gs_not_own : forall ns s n, In n (names s) -> listed (Some (gs_outputs (F:=F) ns s)) n = false.
  Proof.
    intros ns s n Hn. cbn [listed]. destruct (existsb _ _) eqn:E; auto. apply existsb_exists in E. destruct E as [m [Hm E]].
    apply String.eqb_eq in E. subst m. unfold gs_outputs in Hm. apply filter_In in Hm. destruct Hm as [_ Hm].
    apply Bool.negb_true_iff in Hm. rewrite <- Hm. symmetry. apply existsb_exists. exists n. split; auto. apply String.eqb_refl.
  Qed.

  Lemma loop_fwd_fixed : forall ns ks subs rhs, Forall explicit_comp subs -> Forall wf subs ->
      Forall (located subs) ks ->
      NoDup (flat_map rows subs) -> NoDup (flat_map all_params subs) -> NoDup (map k_tgt ks) ->
      forall l pre, subs = (pre ++ l)%list -> forall st st',
      (forall t, In t (flat_map outside_params subs) -> dp st t = F0) ->
      loop_fwd ns ks (flat_map rows subs) rhs (length pre) l st = Ok st' ->
      (forall k, ~ In k (flat_map rows l) -> du st' k = du st k) /\
      ((forall k, In k (flat_map rows l) -> du st' k = du st k) ->
       forall s k, In s l -> In k (rows s) -> row_of (sys_mat None s) (joined ks (du st')) k = rhs k).
  Proof.
    intros ns ks subs rhs Hex Hw Hks Hr Hp Hn. pose proof (nodup_outside subs Hw Hp) as Ho.
    rewrite Forall_forall in Hex, Hw, Hks.
    induction l as [|sub l IH]; intros pre Hsubs st st' I3 E.
    - injection E as <-. split; [reflexivity|]. intros _ s k [].
    - set (i := length pre).
      assert (Hsub : nth_error subs i = Some sub).
      { subst subs i. rewrite nth_error_app2 by lia. now rewrite Nat.sub_diag. }
      assert (Hin : In sub subs) by (now apply nth_error_In in Hsub).
      set (st1 := xfer_fwd (filter (fun k => k_tsub k =? i) ks) st).
      assert (D1 : forall t, In t (outside_params sub) -> dp st1 t = joined ks (du st) (CP t)).
      { intros t Hto. unfold st1. rewrite xfer_fwd_at by (now apply filter_tgt_nodup). unfold joined.
        destruct (source_cases ks t) as [[k [Hk [Hkt E']]]|[Hnt E']]; rewrite E'; cbn [over].
        - assert (Hf : In k (filter (fun k => k_tsub k =? i) ks)).
          { apply filter_In. split; auto. apply Nat.eqb_eq. destruct (Hks k Hk) as [_ [_ [s [Hs Hks']]]].
            rewrite Hkt in Hks'. exact (nth_disjoint _ outside_params subs _ _ s sub t Ho Hs Hsub Hks' Hto). }
          destruct (source_cases (filter (fun k => k_tsub k =? i) ks) t) as [[k' [Hk' [Hkt' E2]]]|[Hnt E2]]; rewrite E2; cbn [over].
          + apply filter_In in Hk'. destruct Hk' as [Hk' _]. assert (k' = k) as ->; auto.
            apply In_nth_error in Hk. destruct Hk as [a Ha]. apply In_nth_error in Hk'. destruct Hk' as [b Hb].
            assert (a = b).
            { apply (NoDup_nth_error (map k_tgt ks)); auto.
              - apply nth_error_Some. rewrite (map_nth_error k_tgt a ks Ha). discriminate.
              - rewrite (map_nth_error k_tgt a ks Ha), (map_nth_error k_tgt b ks Hb). congruence. }
            congruence.
          + exfalso. apply Hnt. rewrite <- Hkt. now apply in_map.
        - destruct (source_cases (filter (fun k => k_tsub k =? i) ks) t) as [[k' [Hk' [Hkt' E2]]]|[_ E2]]; rewrite E2; cbn [over].
          + exfalso. apply filter_In in Hk'. destruct Hk' as [Hk' _]. apply Hnt. rewrite <- Hkt'. now apply in_map.
          + apply I3. apply in_flat_map. eauto. }
      assert (D1o : forall t, ~ In t (map k_tgt ks) -> dp st1 t = dp st t).
      { intros t Hnt. apply xfer_fwd_out. intro Hc. apply Hnt. apply in_map_iff in Hc. destruct Hc as [k [E' Hk]].
        apply filter_In in Hk. rewrite <- E'. apply in_map. tauto. }
      destruct (sys_fwd_spec (Some (gs_outputs ns sub)) sub (Hw sub Hin) st1) as [st2 [E2 [[U2 [R2 [O2 P2]]] Z2]]].
      set (st3 := mkS (du st2) (rhs_minus fadd fopp (flat_map rows subs) rhs (dr st2)) (zero_at F0 (map k_tgt ks) (dp st2))).
      assert (D3 : forall t, In t (flat_map outside_params subs) -> dp st3 t = F0).
      { intros t Hto. unfold st3. cbn [dp]. rewrite zero_at_spec. destruct (memb t (map k_tgt ks)) eqn:E'; auto.
        apply memb_false in E'. apply in_flat_map in Hto. destruct Hto as [s [Hs Hto]].
        pose proof (D1o t E') as Hd. rewrite I3 in Hd by (apply in_flat_map; eauto).
        destruct (in_dec Nat.eq_dec t (all_params sub)) as [Ha|Ha].
        - apply Z2; auto. apply In_nth_error in Hs. destruct Hs as [j Hj].
          assert (j = i) as ->.
          { apply (nth_disjoint _ all_params subs j i s sub t Hp Hj Hsub); auto. apply outside_all; auto. apply Hw. now apply nth_error_In in Hj. }
          congruence.
        - rewrite P2; auto. }
      destruct (solve_fwd sub (Hw sub Hin) (explicit_ok sub (Hex sub Hin)) st3) as [st4 [E4 [A4 [U4 [R4 [P4 Z4]]]]]].
      { intros t Hto. apply D3. apply in_flat_map. eauto. }
      assert (Hdu4 : forall k, ~ In k (rows sub) -> du st4 k = du st k).
      { intros k Hk. rewrite U4 by exact Hk. unfold st3. cbn [du]. rewrite U2. reflexivity. }
      assert (E5 : loop_fwd ns ks (flat_map rows subs) rhs (S i) l st4 = Ok st').
      { rewrite <- E. change (loop_fwd ns ks (flat_map rows subs) rhs (length pre) (sub :: l) st) with
          (let! st := sys_fwd (Some (gs_outputs ns sub)) sub st1 in
           let st := mkS (du st) (rhs_minus fadd fopp (flat_map rows subs) rhs (dr st)) (zero_at F0 (map k_tgt ks) (dp st)) in
           let! st := sys_solve true sub st in loop_fwd ns ks (flat_map rows subs) rhs (S i) l st).
        rewrite E2. cbn [bind]. fold st3. rewrite E4. reflexivity. }
      destruct (IH (pre ++ [sub])%list) with (st := st4) (st' := st') as [F5 S5].
      + rewrite <- app_assoc. exact Hsubs.
      + intros t Hto. destruct (in_dec Nat.eq_dec t (all_params sub)) as [Ha|Ha]; [|rewrite P4 by exact Ha; now apply D3].
        apply Z4. apply in_flat_map in Hto. destruct Hto as [s [Hs Hto]]. apply In_nth_error in Hs. destruct Hs as [j Hj].
        assert (j = i) as ->.
        { apply (nth_disjoint _ all_params subs j _ s sub t Hp Hj Hsub); auto. apply outside_all; auto. apply Hw. now apply nth_error_In in Hj. }
        congruence.
      + rewrite app_length. simpl. rewrite Nat.add_1_r. exact E5.
      + assert (Hdis : forall k, In k (rows sub) -> ~ In k (flat_map rows l)).
        { intros k Hk Hc. rewrite Hsubs, flat_map_app in Hr. simpl in Hr. apply NoDup_app_split in Hr. destruct Hr as [_ [Hr _]].
          apply NoDup_app_split in Hr. destruct Hr as [_ [_ Hr]]. exact (Hr k Hk Hc). }
        split.
        * intros k Hk. simpl in Hk. rewrite in_app_iff in Hk. rewrite F5, Hdu4 by tauto. reflexivity.
        * intros Hfix. assert (H4 : forall k, du st4 k = du st k).
          { intro k. destruct (in_dec Nat.eq_dec k (rows sub)) as [Hk|Hk]; [|now apply Hdu4].
            rewrite <- (F5 k) by (now apply Hdis). apply Hfix. simpl. apply in_app_iff. now left. }
          assert (H5 : forall k, du st' k = du st k).
          { intro k. destruct (in_dec Nat.eq_dec k (flat_map rows l)) as [Hk|Hk]; [|rewrite F5 by exact Hk; apply H4].
            apply Hfix. simpl. apply in_app_iff. now right. }
          intros s k [<-|Hs] Hk.
          -- specialize (A4 k Hk).
             assert (Hdr : dr st3 k = fopp (row_of (sys_mat None sub) (fun c => match c with CU _ => F0 | _ => over (du st1) (dp st1) c end) k) +! rhs k).
             { unfold st3. cbn [dr]. rewrite rhs_minus_spec. replace (memb k (flat_map rows subs)) with true.
               - rewrite R2 by exact Hk. rewrite row_own; auto. apply gs_not_own.
               - symmetry. apply memb_spec. apply in_flat_map. eauto. }
             rewrite Hdr in A4.
             rewrite (row_ext _ (joined ks (du st'))
                        (fun c => over (du st4) (fun _ => F0) c +! match c with CU _ => F0 | _ => over (du st1) (dp st1) c end)).
             ++ rewrite row_add, A4. ring.
             ++ intros e He. apply sys_mat_in in He; auto. destruct He as [_ B]. destruct (e_col e) as [q|t].
                ** unfold joined. cbn [source_of over]. rewrite H5, H4. ring.
                ** cbn [over]. rewrite D1 by exact B. unfold joined.
                   destruct (source_cases ks t) as [[k' [Hk' [Hkt E']]]|[Hnt E']]; rewrite E'; cbn [over]; [rewrite H5|]; ring.
          -- apply S5; auto. intros j Hj. rewrite H4. apply Hfix. simpl. apply in_app_iff. now right.
  Qed.

  Lemma fixed_fwd : forall ns ks subs rhs st st', wf (Group ns None ks subs) -> Forall explicit_comp subs -> Forall (located subs) ks ->
      (forall t, In t (flat_map outside_params subs) -> dp st t = F0) ->
      sweep F0 fadd fmul fsub fopp tiny true ns ks subs rhs st = Ok st' ->
      (forall k, In k (flat_map rows subs) -> du st' k = du st k) ->
      is_solution F0 F1 fadd fmul fopp true (Group ns None ks subs) rhs st'.
  Proof.
    intros ns ks subs rhs st st' Hw Hex Hks Hd E Hfix k Hk. destruct Hw as [Hr [Hp [Hn [Ht [Hsrc Hw]]]]]. apply fold_and in Hw.
    rewrite sweep_loops in E. destruct (loop_fwd_fixed ns ks subs rhs Hex Hw Hks Hr Hp Hn subs [] eq_refl st st' Hd E) as [_ H].
    specialize (H Hfix). cbn [LinSpec.sys_mat rows] in *. rewrite row_reroute. apply in_flat_map in Hk. destruct Hk as [s [Hs Hk]].
    rewrite (row_flat_one None subs s _ k Hw Hr Hs Hk). exact (H s k Hs Hk).
  Qed.

  Lemma loop_rev_fixed : forall ns ks subs rhs, Forall wf subs ->
      Forall (feed_forward F0 F1 fadd fmul fopp false) subs -> Forall unscaled subs -> Forall (located subs) ks ->
      NoDup (flat_map rows subs) -> NoDup (flat_map all_params subs) ->
      forall l pre, subs = (pre ++ l)%list -> forall st st',
      loop_rev ns ks (flat_map rows subs) rhs (length pre) l st = Ok st' ->
      (forall k, ~ In k (flat_map rows l) -> dr st' k = dr st k) /\
      ((forall s t, In s subs -> In t (outside_params s) -> dp st t = col_of (sys_mat None s) (dr st) (CP t)) ->
       (forall k, In k (flat_map rows l) -> dr st' k = dr st k) ->
       (forall s t, In s subs -> In t (outside_params s) -> dp st' t = col_of (sys_mat None s) (dr st') (CP t)) /\
       (forall s k, In s l -> In k (rows s) -> col_of (sys_mat None s) (dr st') (CU k) +! into ks (dp st') k = rhs k)).
  Proof.
    intros ns ks subs rhs Hw Hff Hun Hks Hr Hp. pose proof (nodup_outside subs Hw Hp) as Ho.
    rewrite Forall_forall in Hff, Hw, Hks, Hun.
    induction l as [|sub l IH]; intros pre Hsubs st st' E.
    - injection E as <-. split; [reflexivity|]. intros H _. split; auto. intros s k [].
    - set (i := length pre) in *.
      assert (Hsub : nth_error subs i = Some sub).
      { subst subs i. rewrite nth_error_app2 by lia. now rewrite Nat.sub_diag. }
      assert (Hin : In sub subs) by (now apply nth_error_In in Hsub).
      rewrite loop_rev_cons in E. destruct (loop_rev ns ks (flat_map rows subs) rhs (S i) l st) as [st1|e] eqn:E1; [|discriminate E].
      cbn [bind] in E.
      destruct (IH (pre ++ [sub])%list) with (st := st) (st' := st1) as [F1' S1].
      { rewrite <- app_assoc. exact Hsubs. }
      { rewrite app_length. simpl. rewrite Nat.add_1_r. exact E1. }
      set (cells := flat_map rows subs) in *.
      set (fs := filter (fun k => k_ssub k =? i) ks) in *.
      set (st2 := xfer_rev fadd fs (mkS (zero_at F0 cells (du st1)) (dr st1) (dp st1))) in *.
      set (st3 := mkS (rhs_minus fadd fopp cells rhs (du st2)) (dr st2) (dp st2)) in *.
      assert (Hinto : forall p k, In k (rows sub) -> into fs p k = into ks p k).
      { intros p k Hk. unfold into, fs. clear -Hks Hk Hsub Hr Fth. induction ks as [|a l IH]; simpl; auto.
        assert (Hl : forall x, In x l -> located subs x) by (intros x Hx; apply Hks; now right).
        destruct (k_ssub a =? i) eqn:E; simpl; rewrite (IH Hl); [reflexivity|].
        destruct (k_src a =? k) eqn:E2; [|ring]. exfalso. apply Nat.eqb_neq in E. apply Nat.eqb_eq in E2. apply E.
        destruct (Hks a (or_introl eq_refl)) as [_ [[s1 [Hs1 Ha]] _]]. rewrite E2 in Ha.
        exact (nth_disjoint _ rows subs _ _ s1 sub k Hr Hs1 Hsub Ha Hk). }
      assert (Hcells : forall k, In k (rows sub) -> memb k cells = true).
      { intros k Hk. apply memb_spec. apply in_flat_map. eauto. }
      destruct (solve_rev sub (Hw sub Hin) (Hff sub Hin) (Hun sub Hin) st3) as [st4 [E4 [A4 [U4 [R4 P4]]]]].
      rewrite E4 in E. cbn [bind] in E.
      destruct (sys_rev_spec (Some (gs_outputs ns sub)) sub (Hw sub Hin) st4) as [st5 [E5 [[_ [U5 [D5 [P5 _]]]] S5]]].
      specialize (S5 (Hun sub Hin)). assert (st' = st5) as -> by congruence.
      assert (Hdr : forall k, ~ In k (rows sub) -> dr st5 k = dr st1 k).
      { intros k Hk. rewrite S5, R4 by exact Hk. reflexivity. }
      assert (Hdp : forall t, ~ In t (all_params sub) -> dp st5 t = dp st1 t).
      { intros t Hk. rewrite P5, P4 by exact Hk. reflexivity. }
      assert (Hdis : forall k, In k (rows sub) -> ~ In k (flat_map rows l)).
      { intros k Hk Hc. unfold cells in Hr. rewrite Hsubs, flat_map_app in Hr. simpl in Hr. apply NoDup_app_split in Hr. destruct Hr as [_ [Hr _]].
        apply NoDup_app_split in Hr. destruct Hr as [_ [_ Hr]]. exact (Hr k Hk Hc). }
      split.
      + intros k Hk. simpl in Hk. rewrite in_app_iff in Hk. rewrite Hdr, F1' by tauto. reflexivity.
      + intros Hc Hfix.
        assert (Hfix1 : forall k, dr st1 k = dr st k).
        { intro k. destruct (in_dec Nat.eq_dec k (flat_map rows l)) as [Hk|Hk]; [|now apply F1'].
          rewrite <- (Hdr k) by (intro Hc'; exact (Hdis k Hc' Hk)). apply Hfix. simpl. apply in_app_iff. now right. }
        assert (Hfix5 : forall k, dr st5 k = dr st1 k).
        { intro k. destruct (in_dec Nat.eq_dec k (rows sub)) as [Hk|Hk]; [|now apply Hdr].
          rewrite Hfix1. apply Hfix. simpl. apply in_app_iff. now left. }
        destruct (S1 Hc (fun k _ => Hfix1 k)) as [C1 B1].
        assert (Hdp5 : forall s t, In s subs -> In t (outside_params s) -> dp st5 t = dp st1 t).
        { intros s t Hs Ht. destruct (in_dec Nat.eq_dec t (all_params sub)) as [Ha|Ha]; [|now apply Hdp].
          assert (Hts : In t (outside_params sub)).
          { pose proof Hs as Hs2. apply In_nth_error in Hs2. destruct Hs2 as [j Hj].
            assert (j = i) as ->.
            { apply (nth_disjoint _ all_params subs j i s sub t Hp Hj Hsub); auto. apply outside_all; auto. }
            congruence. }
          rewrite D5 by exact Hts. rewrite (col_p_g _ sub (Hw sub Hin)) by exact Hts. rewrite (C1 sub t Hin Hts).
          apply col_ext. intros e _. rewrite <- S5. apply Hfix5. }
        assert (Hi5 : forall k, into ks (dp st5) k = into ks (dp st1) k).
        { intro k. apply into_ext. intros a Ha. destruct (Hks a Ha) as [_ [_ [s2 [Hs2 Ht]]]]. apply (Hdp5 s2); auto.
          now apply nth_error_In in Hs2. }
        split.
        * intros s t Hs Ht. rewrite (Hdp5 s t Hs Ht), (C1 s t Hs Ht). apply col_ext. intros e _. symmetry. apply Hfix5.
        * intros s k [<-|Hs] Hk; rewrite Hi5.
          -- rewrite (col_ext _ (dr st5) (dr st4)) by (intros; apply S5). rewrite A4 by exact Hk.
             unfold st3. cbn [du]. rewrite rhs_minus_spec, (Hcells k Hk). unfold st2. rewrite xfer_rev_at. cbn [du dp].
             rewrite zero_at_spec, (Hcells k Hk), Hinto by exact Hk. ring.
          -- rewrite (col_ext _ (dr st5) (dr st1)) by (intros; apply Hfix5). now apply B1.
  Qed.

  Lemma fixed_rev : forall ns ks subs rhs st st', wf (Group ns None ks subs) ->
      Forall (feed_forward F0 F1 fadd fmul fopp false) subs -> Forall unscaled subs -> Forall (located subs) ks ->
      (forall s t, In s subs -> In t (outside_params s) -> dp st t = col_of (sys_mat None s) (dr st) (CP t)) ->
      sweep F0 fadd fmul fsub fopp tiny false ns ks subs rhs st = Ok st' ->
      (forall k, In k (flat_map rows subs) -> dr st' k = dr st k) ->
      is_solution F0 F1 fadd fmul fopp false (Group ns None ks subs) rhs st'.
  Proof.
    intros ns ks subs rhs st st' Hw Hff Hun Hks Hc E Hfix k Hk. destruct Hw as [Hr [Hp [Hn [Ht [Hsrc Hw]]]]]. apply fold_and in Hw.
    pose proof (nodup_outside subs Hw Hp) as Ho.
    rewrite sweep_loops in E. destruct (loop_rev_fixed ns ks subs rhs Hw Hff Hun Hks Hr Hp subs [] eq_refl st st' E) as [_ H].
    specialize (H Hc Hfix). destruct H as [B A]. cbn [LinSpec.sys_mat rows] in *. rewrite col_reroute_u by exact Hn.
    apply in_flat_map in Hk. destruct Hk as [s [Hs Hk]]. rewrite (col_flat_u None subs s _ k Hw Hr Hs Hk).
    rewrite (into_ext ks _ (dp st')); [now apply A|].
    intros a Ha. assert (Hin : In (k_tgt a) (flat_map outside_params subs)) by (apply Ht; now apply in_map).
    apply in_flat_map in Hin. destruct Hin as [s2 [Hs2 Hin]]. rewrite (col_flat_p None subs s2 _ _ Hw Ho Hs2 Hin).
    symmetry. now apply B.
  Qed.
End P.

(** Proofs for RedProps.v: the matrix of a reduced system, and the solutions of a part of
    the equations. *)
From Verif Require Import Base LinModel LinSpec LinProofs CheckSpec DetProofs GradModel GradSpec GradProofs RedModel RedSpec.
From Coq Require Import Ring.
Local Open Scope nat_scope.
Local Open Scope list_scope.

Lemma find_filter : forall A (nm : A -> string) (g : A -> bool) n l, NoDup (map nm l) ->
  find (fun a => String.eqb (nm a) n) (filter g l) =
  match find (fun a => String.eqb (nm a) n) l with Some a => if g a then Some a else None | None => None end.
Proof.
  intros A nm g n l. induction l as [|a l IH]; intros H; cbn [filter find]; auto. inversion H as [|? ? Hn Hd]; subst.
  destruct (String.eqb_spec (nm a) n) as [E|E].
  - destruct (g a) eqn:G; cbn [find].
    + subst. rewrite String.eqb_refl. reflexivity.
    + rewrite IH by exact Hd. destruct (find (fun a => String.eqb (nm a) n) l) eqn:Ef; auto.
      exfalso. apply find_some in Ef. destruct Ef as [H1 H2]. apply String.eqb_eq in H2. apply Hn. rewrite E, <- H2. apply in_map. exact H1.
  - destruct (g a); cbn [find]; [destruct (String.eqb_spec (nm a) n); [contradiction|]|]; apply IH; exact Hd.
Qed.
Lemma find_filter2 : forall A (nm : A -> string) (h g : A -> bool) n l, NoDup (map nm l) ->
  find (fun a => String.eqb (nm a) n && h a) (filter g l) =
  match find (fun a => String.eqb (nm a) n && h a) l with Some a => if g a then Some a else None | None => None end.
Proof.
  intros A nm h g n l. induction l as [|a l IH]; intros H; cbn [filter find]; auto. inversion H as [|? ? Hn Hd]; subst.
  destruct (String.eqb_spec (nm a) n) as [E|E]; cbn [andb].
  - assert (Z : forall l', incl l' l -> find (fun a => String.eqb (nm a) n && h a) l' = None).
    { intros l' Hi. destruct (find _ l') eqn:Ef; auto. exfalso. apply find_some in Ef. destruct Ef as [H1 H2]. apply andb_true_iff in H2.
      destruct H2 as [H2 _]. apply String.eqb_eq in H2. apply Hn. rewrite E, <- H2. apply in_map. apply Hi. exact H1. }
    destruct (h a) eqn:Ha.
    + destruct (g a) eqn:G; cbn [find].
      * rewrite Ha. subst. rewrite String.eqb_refl. reflexivity.
      * apply Z. intros x Hx. apply filter_In in Hx. apply Hx.
    + rewrite (Z l) by apply incl_refl. destruct (g a); cbn [find]; [rewrite Ha, andb_false_r|]; apply Z; intros x Hx; apply filter_In in Hx; apply Hx.
  - destruct (g a); cbn [find]; [destruct (String.eqb_spec (nm a) n); [contradiction|cbn [andb]]|]; apply IH; exact Hd.
Qed.

Lemma filter_flat_map : forall A B (f : A -> list B) g l, filter g (flat_map f l) = flat_map (fun a => filter g (f a)) l.
Proof. intros. induction l as [|a l IH]; cbn [flat_map]; auto. rewrite filter_app, IH. reflexivity. Qed.
Lemma flat_map_filter : forall A B (f : A -> list B) g l, flat_map f (filter g l) = flat_map (fun a => if g a then f a else []) l.
Proof. intros. induction l as [|a l IH]; cbn [filter flat_map]; auto. destruct (g a); cbn [flat_map app]; rewrite IH; reflexivity. Qed.
Lemma filter_all : forall A (g : A -> bool) l, (forall a, In a l -> g a = true) -> filter g l = l.
Proof. intros A g l. induction l as [|a l IH]; intros H; cbn [filter]; auto. rewrite (H a (or_introl eq_refl)), IH; auto. intros b Hb. apply H. right. exact Hb. Qed.
Lemma filter_none : forall A (g : A -> bool) l, (forall a, In a l -> g a = false) -> filter g l = [].
Proof. intros A g l. induction l as [|a l IH]; intros H; cbn [filter]; auto. rewrite (H a (or_introl eq_refl)), IH; auto. intros b Hb. apply H. right. exact Hb. Qed.
Lemma flat_map_ext_in : forall A B (f g : A -> list B) l, (forall a, In a l -> f a = g a) -> flat_map f l = flat_map g l.
Proof. intros A B f g l. induction l as [|a l IH]; intros H; cbn [flat_map]; auto. rewrite (H a (or_introl eq_refl)), IH; auto. intros b Hb. apply H. right. exact Hb. Qed.
Lemma flat_map_map : forall A B C (f : B -> list C) (h : A -> B) l, flat_map f (map h l) = flat_map (fun a => f (h a)) l.
Proof. intros. induction l as [|a l IH]; cbn [map flat_map]; auto. rewrite IH. reflexivity. Qed.

Section Reduced.
  Context {F : Type} (F0 F1 : F) (fadd fmul fsub : F -> F -> F) (fopp : F -> F) (Fth : ring_theory F0 F1 fadd fmul fsub fopp eq).
  Add Ring Fr : Fth.
  Infix "+!" := fadd (at level 50, left associativity).
  Infix "*!" := fmul (at level 40, left associativity).
  Infix "-!" := fsub (at level 50, left associativity).
  Notation entry := (entry (F:=F)).
  Notation sys := (sys (F:=F)).
  Notation total := (total F0 fadd).
  Notation row_of := (row_of F0 fadd fmul).
  Notation col_of := (col_of F0 fadd fmul).
  Notation sys_mat := (sys_mat F1 fmul fopp).
  Notation comp_mat := (comp_mat F1 fmul fopp).
  Notation coef := (coef F0 fadd).

  Section Keep.
    Variables ku kp : nat -> bool.
    Definition kept_col (c : col) : bool := match c with CU k => ku k | CP t => kp t end.
    Definition kept (e : entry) : bool := ku (e_row e) && kept_col (e_col e).

    (** ** keys that are left out are skipped anyway *)
    Lemma find_u_view : forall (c : comp (F:=F)) n, NoDup (map u_name (c_unks c)) ->
      find_u (view ku kp c) n = match find_u c n with Some u => if ku (u_off u) then Some u else None | None => None end.
    Proof. intros c n H. apply (find_filter uvar u_name (fun u => ku (u_off u))). exact H. Qed.
    Lemma find_p_view : forall (c : comp (F:=F)) n, NoDup (map p_name (c_params c)) ->
      find_p (view ku kp c) n = match find_p c n with Some p => if kp (p_off p) then Some p else None | None => None end.
    Proof. intros c n H. apply (find_filter pvar p_name (fun p => kp (p_off p))). exact H. Qed.
    Lemma find_s_view : forall (c : comp (F:=F)) n, NoDup (map u_name (c_unks c)) ->
      find (fun v => String.eqb (u_name v) n && u_state v) (c_unks (view ku kp c)) =
      match find (fun v => String.eqb (u_name v) n && u_state v) (c_unks c) with Some u => if ku (u_off u) then Some u else None | None => None end.
    Proof. intros c n H. apply (find_filter2 uvar u_name u_state (fun u => ku (u_off u))). exact H. Qed.
    Lemma state_no_param : forall (c : comp (F:=F)) n x, whole_comp ku kp c -> find (fun v => String.eqb (u_name v) n && u_state v) (c_unks c) = Some x -> find_p c n = None.
    Proof.
      intros c n x (_ & _ & H & _) E. destruct (find_p c n) eqn:Ep; auto. exfalso.
      apply find_some in E. apply find_some in Ep. destruct E as [E1 E2], Ep as [E3 E4]. apply andb_true_iff in E2. destruct E2 as [E2 _].
      apply String.eqb_eq in E2, E4. apply (H _ _ E1 E3). congruence.
    Qed.
    Lemma skip_term : forall fwd c s key, whole_comp ku kp c -> kept_key ku kp c key = false ->
      jac_term F0 fadd fmul fwd (view ku kp c) s (fst (fst key)) (snd (fst key)) (snd key) = Ok s.
    Proof.
      intros fwd c s [[un pn] J] W K. cbn [fst snd]. unfold jac_term. unfold kept_key in K.
      rewrite find_u_view by apply W. destruct (find_u c un) as [u|]; auto. destruct (ku (u_off u)); auto. cbn [andb] in K.
      rewrite find_s_view by apply W. destruct (find (fun v => String.eqb (u_name v) pn && u_state v) (c_unks c)) as [x|] eqn:Ex.
      - rewrite K. rewrite find_p_view by apply W. rewrite (state_no_param c pn x W Ex). reflexivity.
      - rewrite find_p_view by apply W. destruct (find_p c pn) as [p|]; auto. rewrite K. reflexivity.
    Qed.
    Lemma reduced_terms : forall fwd c l s, whole_comp ku kp c ->
      jac_terms F0 fadd fmul fwd (view ku kp c) l s = jac_terms F0 fadd fmul fwd (view ku kp c) (filter (kept_key ku kp c) l) s.
    Proof.
      intros fwd c l. induction l as [|[[un pn] J] l IH]; intros s W; cbn [filter]; auto.
      destruct (kept_key ku kp c (un, pn, J)) eqn:K; cbn [jac_terms].
      - destruct (jac_term _ _ _ _ _ _ _ _ _); cbn [bind]; auto.
      - pose proof (skip_term fwd c s (un, pn, J) W K) as E. cbn [fst snd] in E. rewrite E. cbn [bind]. apply IH. exact W.
    Qed.
    Lemma jac_terms_same : forall fwd c c' l s, c_params c = c_params c' -> c_unks c = c_unks c' ->
      jac_terms F0 fadd fmul fwd c l s = jac_terms F0 fadd fmul fwd c' l s.
    Proof.
      intros fwd c c' l s Hp Hu. revert s. induction l as [|[[un pn] J] l IH]; intros s; cbn [jac_terms]; auto.
      replace (jac_term F0 fadd fmul fwd c s un pn J) with (jac_term F0 fadd fmul fwd c' s un pn J); [destruct (jac_term _ _ _ _ _ _ _ _ _); cbn [bind]; auto|].
      unfold jac_term, find_u, find_p. rewrite Hp, Hu. reflexivity.
    Qed.
    Lemma reduced_jac : forall fwd c s, whole_comp ku kp c ->
      apply_jac F0 fadd fmul fwd (view ku kp c) s = apply_jac F0 fadd fmul fwd (reduce_comp ku kp c) s.
    Proof.
      intros fwd c s W. unfold apply_jac. cbn [view reduce_comp c_jac]. destruct (c_jac c) as [l|]; cbn [option_map]; auto.
      transitivity (jac_terms F0 fadd fmul fwd (view ku kp c) (filter (kept_key ku kp c) l) s); [apply (reduced_terms fwd c l s W)|].
      apply jac_terms_same; reflexivity.
    Qed.

    (** ** the matrix of the reduced system *)
    Lemma block_in : forall cc ro co nr nc f (e : entry), In e (block cc ro co nr nc f) -> exists i j, i < nr /\ j < nc /\ e_row e = ro + i /\ e_col e = cc (co + j).
    Proof.
      intros cc ro co nr nc f e H. apply in_flat_map in H. destruct H as [i [Hi H]]. apply in_map_iff in H. destruct H as [j [<- Hj]].
      apply in_seq in Hi, Hj. exists i, j. repeat split; lia.
    Qed.
    Lemma key_entries_reduce : forall c key, whole_comp ku kp c ->
      (if kept_key ku kp c key then key_entries F1 fmul (reduce_comp ku kp c) key else []) = filter kept (key_entries F1 fmul c key).
    Proof.
      intros c [[un pn] J] W. destruct W as (N1 & N2 & N3 & WU & WP). unfold key_entries, kept_key, unknown_of, state_of, param_of, find_u, find_p.
      destruct (find (fun u => String.eqb (u_name u) un) (c_unks c)) as [u|] eqn:Eu; [|reflexivity].
      cbn [reduce_comp c_unks c_params c_fd].
      rewrite (find_filter uvar u_name (fun u => ku (u_off u))), (find_filter2 uvar u_name u_state (fun u => ku (u_off u))), (find_filter pvar p_name (fun p => kp (p_off p))) by assumption.
      rewrite Eu. pose proof (find_some _ _ Eu) as [Iu _].
      destruct (find (fun v => String.eqb (u_name v) pn && u_state v) (c_unks c)) as [x|] eqn:Ex.
      - pose proof (find_some _ _ Ex) as [Ix _].
        assert (K : forall f (e : entry), In e (block CU (u_off u) (u_off x) (u_size u) (u_size x) f) -> kept e = ku (u_off u) && ku (u_off x)).
        { intros f e He. apply block_in in He. destruct He as (i & j & Hi & Hj & E1 & E2). unfold kept. rewrite E1, E2. cbn [kept_col]. rewrite (WU u i Iu Hi), (WU x j Ix Hj). reflexivity. }
        destruct (ku (u_off u)) eqn:Ku; cbn [andb] in *; [destruct (ku (u_off x)) eqn:Kx|].
        + symmetry. apply filter_all. intros e He. apply (K _ e He).
        + symmetry. apply filter_none. intros e He. apply (K _ e He).
        + symmetry. apply filter_none. intros e He. apply (K _ e He).
      - destruct (find (fun p => String.eqb (p_name p) pn) (c_params c)) as [p|] eqn:Ep; [|destruct (ku (u_off u)); reflexivity].
        pose proof (find_some _ _ Ep) as [Ip _].
        assert (K : forall f (e : entry), In e (block CP (u_off u) (p_off p) (u_size u) (p_size p) f) -> kept e = ku (u_off u) && kp (p_off p)).
        { intros f e He. apply block_in in He. destruct He as (i & j & Hi & Hj & E1 & E2). unfold kept. rewrite E1, E2. cbn [kept_col]. rewrite (WU u i Iu Hi), (WP p j Ip Hj). reflexivity. }
        destruct (ku (u_off u)) eqn:Ku; cbn [andb] in *; [destruct (kp (p_off p)) eqn:Kx|].
        + symmetry. apply filter_all. intros e He. apply (K _ e He).
        + symmetry. apply filter_none. intros e He. apply (K _ e He).
        + symmetry. apply filter_none. intros e He. apply (K _ e He).
    Qed.
    Lemma minus_reduce : forall us, whole_us ku us ->
      minus_identity F1 fopp None (filter (fun u => ku (u_off u)) us) = filter kept (minus_identity F1 fopp None us).
    Proof.
      intros us W. unfold minus_identity. rewrite filter_flat_map, flat_map_filter. apply flat_map_ext_in. intros u Hu.
      destruct (u_state u); [destruct (ku (u_off u)); reflexivity|].
      assert (K : forall e : entry, In e (map (fun k => (k, CU k, fopp F1)) (seq (u_off u) (u_size u))) -> kept e = ku (u_off u)).
      { intros e He. apply in_map_iff in He. destruct He as [k [<- Hk]]. apply in_seq in Hk. unfold kept. cbn [e_row e_col fst snd kept_col].
        replace k with (u_off u + (k - u_off u)) by lia. rewrite (W u) by (auto; lia). destruct (ku (u_off u)); reflexivity. }
      destruct (ku (u_off u)) eqn:Ku.
      - symmetry. apply filter_all. exact K.
      - symmetry. apply filter_none. exact K.
    Qed.
    Lemma comp_mat_reduce : forall c, whole_comp ku kp c -> comp_mat None (reduce_comp ku kp c) = filter kept (comp_mat None c).
    Proof.
      intros c W. unfold LinSpec.comp_mat. rewrite filter_app. f_equal.
      - cbn [reduce_comp c_jac]. destruct (c_jac c) as [l|]; cbn [option_map]; auto. rewrite filter_flat_map, flat_map_filter. apply flat_map_ext_in.
        intros key _. apply key_entries_reduce. exact W.
      - cbn [reduce_comp c_unks]. apply minus_reduce. apply W.
    Qed.
    Lemma find_conn : forall ks t, NoDup (map k_tgt ks) ->
      find (fun k => k_tgt k =? t) (reduce_conns ku kp ks) = match find (fun k => k_tgt k =? t) ks with Some k => if ku (k_src k) && kp (k_tgt k) then Some k else None | None => None end.
    Proof.
      intros ks t. unfold reduce_conns. induction ks as [|k ks IH]; intros H; cbn [filter find]; auto. inversion H as [|? ? Hn Hd]; subst.
      destruct (Nat.eqb_spec (k_tgt k) t) as [E|E].
      - destruct (ku (k_src k) && kp (k_tgt k)) eqn:G; cbn [find].
        + subst. rewrite Nat.eqb_refl. reflexivity.
        + rewrite IH by exact Hd. destruct (find (fun k => k_tgt k =? t) ks) eqn:Ef; auto.
          exfalso. apply find_some in Ef. destruct Ef as [H1 H2]. apply Nat.eqb_eq in H2. apply Hn. rewrite E, <- H2. apply in_map. exact H1.
      - destruct (ku (k_src k) && kp (k_tgt k)); cbn [find]; [destruct (Nat.eqb_spec (k_tgt k) t); [contradiction|]|]; apply IH; exact Hd.
    Qed.
    Lemma reroute_reduce : forall ks m, NoDup (map k_tgt ks) -> kept_conns ku kp ks m ->
      reroute (reduce_conns ku kp ks) (filter kept m) = filter kept (reroute ks m).
    Proof.
      intros ks m N H. unfold reroute. induction m as [|e m IH]; cbn [filter map]; auto.
      assert (IHm : map (fun e : entry => (e_row e, source_of (reduce_conns ku kp ks) (e_col e), snd e)) (filter kept m) =
                    filter kept (map (fun e : entry => (e_row e, source_of ks (e_col e), snd e)) m)).
      { apply IH. intros k Hk. split; [apply (H k Hk)|]. intros e' He'. apply (proj2 (H k Hk) e'). right. exact He'. }
      assert (E : (kept e = kept (e_row e, source_of ks (e_col e), snd e)) /\ (kept e = true -> source_of (reduce_conns ku kp ks) (e_col e) = source_of ks (e_col e))).
      { unfold kept. cbn [e_row e_col fst snd]. destruct (e_col e) as [k|t] eqn:Ec; cbn [source_of kept_col]; [auto|].
        rewrite find_conn by exact N. destruct (find (fun k => k_tgt k =? t) ks) as [k|] eqn:Ef; cbn [kept_col]; auto.
        apply find_some in Ef. destruct Ef as [Ik Et]. apply Nat.eqb_eq in Et. subst t. destruct (H k Ik) as [H1 H2].
        assert (H3 := H2 e (or_introl eq_refl) Ec). unfold e_row in *.
        destruct (ku (fst (fst e))); cbn [andb]; [|split; [reflexivity|discriminate]].
        destruct (kp (k_tgt k)); [rewrite H1 by reflexivity; auto|]. destruct (ku (k_src k)); [exfalso; discriminate (H3 eq_refl eq_refl)|]. split; auto; discriminate. }
      destruct E as [E1 E2]. rewrite <- E1. destruct (kept e) eqn:K; cbn [map]; rewrite IHm; [rewrite E2 by reflexivity|]; reflexivity.
    Qed.
    Lemma mat_reduce : forall s : sys, wf s -> whole F1 fmul fopp ku kp s -> sys_mat None (reduce ku kp s) = filter kept (sys_mat None s).
    Proof.
      induction s as [c|us|ks c|ns sv ks subs IH] using sys_ind'; intros W H; cbn [reduce LinSpec.sys_mat].
      - apply comp_mat_reduce. exact H.
      - apply minus_reduce. exact H.
      - destruct H as [H1 H2]. rewrite comp_mat_reduce by exact H1. apply reroute_reduce; [apply W|exact H2].
      - destruct H as [H1 H2]. destruct W as (_ & _ & W3 & _ & _ & W6). rewrite flat_map_map.
        replace (flat_map (fun a => sys_mat None (reduce ku kp a)) subs) with (filter kept (flat_map (sys_mat None) subs)); [apply reroute_reduce; assumption|].
        rewrite filter_flat_map. apply flat_map_ext_in. intros s Hs. symmetry. rewrite Forall_forall in IH. apply IH; auto.
        + clear -W6 Hs. induction subs as [|a l IHl]; [destruct Hs|]. destruct Hs as [<-|Hs]; [apply W6|apply IHl; [apply W6|exact Hs]].
        + clear -H1 Hs. induction subs as [|a l IHl]; [destruct Hs|]. destruct Hs as [<-|Hs]; [apply H1|apply IHl; [apply H1|exact Hs]].
    Qed.
    Lemma ucells_reduce : forall us : list (uvar (F:=F)), whole_us ku us -> ucells (filter (fun u => ku (u_off u)) us) = filter ku (ucells us).
    Proof.
      intros us W. unfold ucells. rewrite filter_flat_map, flat_map_filter. apply flat_map_ext_in. intros u Hu.
      assert (K : forall k, In k (seq (u_off u) (u_size u)) -> ku k = ku (u_off u)).
      { intros k Hk. apply in_seq in Hk. replace k with (u_off u + (k - u_off u)) by lia. apply W; auto; lia. }
      destruct (ku (u_off u)) eqn:Ku; symmetry; [apply filter_all|apply filter_none]; exact K.
    Qed.
    Lemma rows_reduce : forall s : sys, whole F1 fmul fopp ku kp s -> rows (reduce ku kp s) = filter ku (rows s).
    Proof.
      induction s as [c|us|ks c|ns sv ks subs IH] using sys_ind'; intros H; cbn [reduce rows].
      - apply ucells_reduce. apply H.
      - apply ucells_reduce. exact H.
      - apply ucells_reduce. apply H.
      - destruct H as [H1 _]. rewrite flat_map_map, filter_flat_map. apply flat_map_ext_in. intros s Hs. rewrite Forall_forall in IH. apply IH; auto.
        clear -H1 Hs. induction subs as [|a l IHl]; [destruct Hs|]. destruct Hs as [<-|Hs]; [apply H1|apply IHl; [apply H1|exact Hs]].
    Qed.
  End Keep.

  (** ** square systems *)
  Notation tapp := (total_app _ _ _ _ _ _ Fth).
  Definition onto (a : nat -> nat -> F) (l : list nat) : Prop :=
    forall b : nat -> F, exists x : nat -> F, forall r, In r l -> total (fun c => a r c *! x c) l = b r.
  Lemma combo_total : forall (a : nat -> nat -> F) x l r, combo F0 fadd fmul (map (fun c => (x c, fun r => a r c)) l) r = total (fun c => a r c *! x c) l.
  Proof. intros. unfold combo. induction l as [|c l IH]; cbn [map fold_right LinSpec.total fst snd]; auto. unfold LinSpec.total in IH. rewrite IH. unfold LinSpec.total. f_equal. ring. Qed.
  Lemma sq_unique : forall a l, NoDup l -> onto a l -> forall x, (forall r, In r l -> total (fun c => a r c *! x c) l = F0) -> forall j, In j l -> x j = F0.
  Proof.
    intros a l N O x Hx j Hj. apply (onto_unique F0 F1 fadd fmul fsub fopp Fth (fun c r => a r c) l N).
    - intros b. destruct (O b) as [y Hy]. exists y. intros r Hr. rewrite (combo_total a). apply Hy. exact Hr.
    - intros r Hr. rewrite (combo_total a). apply Hx. exact Hr.
    - exact Hj.
  Qed.
  Lemma total_filter : forall (f : nat -> F) g l, total f l = total f (filter g l) +! total f (filter (fun k => negb (g k)) l).
  Proof.
    intros f g l. induction l as [|k l IH]; cbn [filter]; [cbn; ring|]. change (total f (k :: l)) with (f k +! total f l). rewrite IH.
    destruct (g k); cbn [negb]; [change (total f (k :: filter g l)) with (f k +! total f (filter g l))|change (total f (k :: filter (fun k => negb (g k)) l)) with (f k +! total f (filter (fun k => negb (g k)) l))]; ring.
  Qed.
  Lemma off_zero : forall a l (D : nat -> bool), NoDup l -> onto a l ->
    (forall r c, In r l -> In c l -> D c = true -> D r = false -> a r c = F0) ->
    forall x, (forall r, In r l -> D r = false -> total (fun c => a r c *! x c) l = F0) -> forall c, In c l -> D c = false -> x c = F0.
  Proof.
    intros a l D N O C x Hx c Hc Dc.
    assert (P : forall r y, In r l -> D r = false -> total (fun c => a r c *! y c) (filter (fun k => negb (D k)) l) = total (fun c => a r c *! y c) l).
    { intros r y Hr Dr. rewrite (total_filter _ D l). rewrite (total_zero _ _ _ _ _ _ Fth _ _ (filter D l)); [ring|].
      intros k Hk. apply filter_In in Hk. rewrite (C r k) by tauto. ring. }
    apply (sq_unique a (filter (fun k => negb (D k)) l)).
    - apply NoDup_filter. exact N.
    - intros b. destruct (O b) as [y Hy]. exists y. intros r Hr. apply filter_In in Hr. destruct Hr as [Hr Dr]. apply negb_true_iff in Dr. rewrite P by assumption. apply Hy. exact Hr.
    - intros r Hr. apply filter_In in Hr. destruct Hr as [Hr Dr]. apply negb_true_iff in Dr. rewrite P by assumption. apply Hx; assumption.
    - apply filter_In. rewrite Dc. auto.
  Qed.
  Lemma part_agree : forall a l (D K : nat -> bool) b x y, NoDup l -> onto a l -> onto a (filter K l) ->
    (forall r c, In r l -> In c l -> D c = true -> D r = false -> a r c = F0) ->
    (forall k, In k l -> K k = true -> D k = true) ->
    (forall r c, In r l -> In c l -> K r = true -> D c = true -> K c = false -> a r c = F0) ->
    (forall r, In r l -> D r = false -> b r = F0) ->
    (forall r, In r l -> total (fun c => a r c *! x c) l = b r) ->
    (forall r, In r (filter K l) -> total (fun c => a r c *! y c) (filter K l) = b r) ->
    forall c, In c (filter K l) -> y c = x c.
  Proof.
    intros a l D K b x y N O OK C KD CK B Hx Hy c Hc.
    assert (Z : forall c, In c l -> D c = false -> x c = F0).
    { apply (off_zero a l D N O C). intros r Hr Dr. rewrite Hx by exact Hr. apply B; assumption. }
    assert (E : y c -! x c = F0).
    { apply (sq_unique a (filter K l) (NoDup_filter _ N) OK (fun c => y c -! x c)); [|exact Hc].
      intros r Hr. transitivity (total (fun c => a r c *! y c) (filter K l) -! total (fun c => a r c *! x c) (filter K l)).
      { clear -Fth. induction (filter K l) as [|k m IH]; [cbn; ring|].
        change (a r k *! (y k -! x k) +! total (fun c => a r c *! (y c -! x c)) m = (a r k *! y k +! total (fun c => a r c *! y c) m) -! (a r k *! x k +! total (fun c => a r c *! x c) m)). rewrite IH. ring. }
      rewrite Hy by exact Hr. apply filter_In in Hr. destruct Hr as [Hr Kr].
      transitivity (b r -! total (fun c => a r c *! x c) l); [|rewrite Hx by exact Hr; ring].
      rewrite (total_filter _ K l). rewrite (total_zero _ _ _ _ _ _ Fth _ _ (filter (fun k => negb (K k)) l)); [ring|].
      intros k Hk. apply filter_In in Hk. destruct Hk as [Hk Kk]. apply negb_true_iff in Kk.
      destruct (D k) eqn:Dk; [rewrite CK by assumption|rewrite Z by assumption]; ring. }
    transitivity (y c -! x c +! x c); [ring|rewrite E; ring].
  Qed.

  (** ** products as sums over positions *)
  Lemma row_coef : forall (m : list entry) l, NoDup l -> (forall e c, In e m -> e_col e = CU c -> In c l) ->
    forall x r, row_of m (over x (fun _ => F0)) r = total (fun c => coef m r (CU c) *! x c) l.
  Proof.
    intros m l N H x r. induction m as [|e m IH]; [cbn; symmetry; apply (total_zero _ _ _ _ _ _ Fth); intros; unfold CheckSpec.coef; cbn; ring|].
    transitivity ((if e_row e =? r then snd e *! over x (fun _ => F0) (e_col e) else F0) +! row_of m (over x (fun _ => F0)) r); [reflexivity|].
    rewrite IH by (intros e' c He'; apply H; right; exact He').
    assert (E : (if e_row e =? r then snd e *! over x (fun _ => F0) (e_col e) else F0) =
                total (fun c => (if (e_row e =? r) && col_eqb (e_col e) (CU c) then snd e else F0) *! x c) l).
    { destruct (e_row e =? r); cbn [andb]; [|symmetry; apply (total_zero _ _ _ _ _ _ Fth); intros; ring].
      destruct (e_col e) as [k|t] eqn:Ec; cbn [over col_eqb].
      - transitivity (total (fun c => if k =? c then snd e *! x c else F0) l).
        + rewrite (total_pick _ _ _ _ _ _ Fth nat Nat.eqb Nat.eqb_eq (fun c => snd e *! x c) l k N).
          replace (existsb (Nat.eqb k) l) with true; [reflexivity|]. symmetry. apply existsb_exists. exists k. split; [apply (H e k (or_introl eq_refl) Ec)|apply Nat.eqb_refl].
        + apply total_ext. intros c _. destruct (k =? c); ring.
      - transitivity F0; [ring|]. symmetry. apply (total_zero _ _ _ _ _ _ Fth). intros. ring. }
    rewrite E, <- (total_add _ _ _ _ _ _ Fth). apply total_ext. intros c _.
    change (coef (e :: m) r (CU c)) with ((if (e_row e =? r) && col_eqb (e_col e) (CU c) then snd e else F0) +! coef m r (CU c)). ring.
  Qed.
  Lemma col_coef : forall (m : list entry) l, NoDup l -> (forall e, In e m -> In (e_row e) l) ->
    forall y c, col_of m y (CU c) = total (fun r => coef m r (CU c) *! y r) l.
  Proof.
    intros m l N H y c. induction m as [|e m IH]; [cbn; symmetry; apply (total_zero _ _ _ _ _ _ Fth); intros; unfold CheckSpec.coef; cbn; ring|].
    transitivity ((if col_eqb (e_col e) (CU c) then snd e *! y (e_row e) else F0) +! col_of m y (CU c)); [reflexivity|].
    rewrite IH by (intros e' He'; apply H; right; exact He').
    assert (E : (if col_eqb (e_col e) (CU c) then snd e *! y (e_row e) else F0) =
                total (fun r => (if (e_row e =? r) && col_eqb (e_col e) (CU c) then snd e else F0) *! y r) l).
    { destruct (col_eqb (e_col e) (CU c)); [|symmetry; apply (total_zero _ _ _ _ _ _ Fth); intros; rewrite andb_false_r; ring].
      transitivity (total (fun r => if e_row e =? r then snd e *! y r else F0) l).
      + rewrite (total_pick _ _ _ _ _ _ Fth nat Nat.eqb Nat.eqb_eq (fun r => snd e *! y r) l (e_row e) N).
        replace (existsb (Nat.eqb (e_row e)) l) with true; [reflexivity|]. symmetry. apply existsb_exists. exists (e_row e). split; [apply (H e (or_introl eq_refl))|apply Nat.eqb_refl].
      + apply total_ext. intros r _. rewrite andb_true_r. destruct (e_row e =? r); ring. }
    rewrite E, <- (total_add _ _ _ _ _ _ Fth). apply total_ext. intros r _.
    change (coef (e :: m) r (CU c)) with ((if (e_row e =? r) && col_eqb (e_col e) (CU c) then snd e else F0) +! coef m r (CU c)). ring.
  Qed.
  Lemma coef_none : forall (m : list entry) r c, (forall e, In e m -> e_row e = r -> e_col e = CU c -> False) -> coef m r (CU c) = F0.
  Proof.
    intros m r c H. unfold CheckSpec.coef. apply (total_zero _ _ _ _ _ _ Fth). intros e He.
    destruct (Nat.eqb_spec (e_row e) r); cbn [andb]; auto. destruct (col_eqb (e_col e) (CU c)) eqn:E; auto. apply col_eqb_eq in E. exfalso. apply (H e); auto.
  Qed.
  Lemma coef_kept : forall ku kp (m : list entry) r c, ku r = true -> ku c = true -> coef (filter (kept ku kp) m) r (CU c) = coef m r (CU c).
  Proof.
    intros ku kp m r c Hr Hc. unfold CheckSpec.coef. induction m as [|e m IH]; cbn [filter]; auto.
    change (LinSpec.total F0 fadd (fun e : entry => if (e_row e =? r) && col_eqb (e_col e) (CU c) then snd e else F0) (e :: m)) with
      ((if (e_row e =? r) && col_eqb (e_col e) (CU c) then snd e else F0) +! LinSpec.total F0 fadd (fun e : entry => if (e_row e =? r) && col_eqb (e_col e) (CU c) then snd e else F0) m).
    rewrite <- IH. destruct (kept ku kp e) eqn:K; [reflexivity|].
    destruct (Nat.eqb_spec (e_row e) r) as [E1|]; cbn [andb]; [|ring]. destruct (col_eqb (e_col e) (CU c)) eqn:E; [|ring]. apply col_eqb_eq in E.
    exfalso. unfold kept in K. rewrite E, E1 in K. cbn [kept_col] in K. rewrite Hr, Hc in K. discriminate.
  Qed.

  (** ** the solver of a variable of interest finds the total derivatives *)
  Definition amat (fwd : bool) (m : list entry) (r c : nat) : F := if fwd then coef m r (CU c) else coef m c (CU r).
  Lemma prod_coef : forall (m : list entry) l, NoDup l -> (forall e, In e m -> In (e_row e) l /\ forall c, e_col e = CU c -> In c l) ->
    forall (fwd : bool) x r, (if fwd then row_of m (over x (fun _ => F0)) r else col_of m x (CU r)) = total (fun c => amat fwd m r c *! x c) l.
  Proof.
    intros m l N H fwd x r. unfold amat. destruct fwd.
    - apply (row_coef m l N). intros e c He Ec. exact (proj2 (H e He) c Ec).
    - apply (col_coef m l N). intros e He. exact (proj1 (H e He)).
  Qed.
  Lemma exact_onto : forall (p : prob (F:=F)) key s fwd, wf s -> exact_for F0 F1 fadd fmul fopp p key s fwd -> onto (amat fwd (sys_mat None s)) (rows s).
  Proof.
    intros p key s fwd W E b. exists (p_solve p fwd key b). intros r Hr. rewrite <- (E b r Hr).
    destruct (wf_nodup s W) as [N _]. rewrite <- (prod_coef (sys_mat None s) (rows s) N).
    - destruct fwd; reflexivity.
    - intros e He. destruct (sys_mat_in F1 fmul fopp None s W e He) as [A B]. split; auto. intros c Ec. rewrite Ec in B. exact B.
  Qed.
  Lemma keyed_solution : forall (p : prob (F:=F)) (s : sys) fwd n q ku kp froms asked, wf s -> exact_for F0 F1 fadd fmul fopp p None s fwd ->
    whole F1 fmul fopp ku kp s -> relevant F1 fmul fopp ku fwd s froms asked -> exact_for F0 F1 fadd fmul fopp p (Some n) (reduce ku kp s) fwd ->
    In q froms -> In q (rows s) ->
    forall k, In k asked -> In k (rows s) ->
      if ku k then p_solve p fwd (Some n) (minus_unit F0 F1 fopp q) k = p_solve p fwd None (minus_unit F0 F1 fopp q) k
      else p_solve p fwd None (minus_unit F0 F1 fopp q) k = F0.
  Proof.
    intros p s fwd n q ku kp froms asked W E HW (reach & R1 & R2 & R3 & R4 & R5) EK Hq Iq k Hk Ik.
    destruct (wf_nodup s W) as [N _]. pose proof (exact_onto p None s fwd W E) as O.
    set (M := sys_mat None s) in *. set (l := rows s) in *.
    assert (HM : forall e, In e M -> In (e_row e) l /\ forall c, e_col e = CU c -> In c l).
    { intros e He. destruct (sys_mat_in F1 fmul fopp None s W e He) as [A B]. split; auto. intros c Ec. rewrite Ec in B. exact B. }
    assert (C : forall r c, In r l -> In c l -> reach c = true -> reach r = false -> amat fwd M r c = F0).
    { intros r c _ _ Hc Hr. unfold amat. destruct fwd; apply coef_none; intros e He E1 E2.
      - assert (T := R2 r c (ex_intro _ e (conj He (conj E1 E2)))). cbn in T. rewrite T in Hr by exact Hc. discriminate.
      - assert (T := R2 c r (ex_intro _ e (conj He (conj E1 E2)))). cbn in T. rewrite T in Hr by exact Hc. discriminate. }
    assert (B : forall r, In r l -> reach r = false -> minus_unit F0 F1 fopp q r = F0).
    { intros r _ Hr. unfold minus_unit. destruct (Nat.eqb_spec r q); auto. subst. rewrite (R1 q Hq) in Hr. discriminate. }
    assert (X : forall r, In r l -> total (fun c => amat fwd M r c *! p_solve p fwd None (minus_unit F0 F1 fopp q) c) l = minus_unit F0 F1 fopp q r).
    { intros r Hr. rewrite <- (prod_coef M l N HM). transitivity (if fwd then row_of M (over (p_solve p true None (minus_unit F0 F1 fopp q)) (fun _ => F0)) r else col_of M (p_solve p false None (minus_unit F0 F1 fopp q)) (CU r)); [destruct fwd; reflexivity|].
      exact (E (minus_unit F0 F1 fopp q) r Hr). }
    destruct (ku k) eqn:Kk.
    - unfold exact_for in EK. rewrite (rows_reduce ku kp s HW), (mat_reduce ku kp s W HW) in EK. fold M l in EK.
      assert (HM' : forall e, In e (filter (kept ku kp) M) -> In (e_row e) (filter ku l) /\ forall c, e_col e = CU c -> In c (filter ku l)).
      { intros e He. apply filter_In in He. destruct He as [He K]. apply andb_true_iff in K. destruct K as [K1 K2]. destruct (HM e He) as [A1 A2].
        split; [apply filter_In; auto|]. intros c Ec. apply filter_In. split; [auto|]. rewrite Ec in K2. exact K2. }
      assert (Y : forall b r, In r (filter ku l) -> total (fun c => amat fwd M r c *! p_solve p fwd (Some n) b c) (filter ku l) = b r).
      { intros b r Hr. rewrite <- (EK b r Hr).
        transitivity (total (fun c => amat fwd (filter (kept ku kp) M) r c *! p_solve p fwd (Some n) b c) (filter ku l)).
        - apply total_ext. intros c Hc. apply filter_In in Hc, Hr. unfold amat. destruct fwd; rewrite coef_kept; tauto.
        - rewrite <- (prod_coef (filter (kept ku kp) M) (filter ku l) (NoDup_filter _ N) HM'). destruct fwd; reflexivity. }
      apply (part_agree (amat fwd M) l reach ku (minus_unit F0 F1 fopp q)); auto.
      + intros b. exists (p_solve p fwd (Some n) b). apply Y.
      + intros r c _ _ Kr Dc Kc. unfold amat. destruct fwd; apply coef_none; intros e He E1 E2.
        * assert (T := R4 r c (ex_intro _ e (conj He (conj E1 E2)))). cbn in T. rewrite T in Kc by assumption. discriminate.
        * assert (T := R4 c r (ex_intro _ e (conj He (conj E1 E2)))). cbn in T. rewrite T in Kc by assumption. discriminate.
      + apply filter_In. auto.
    - apply (off_zero (amat fwd M) l reach N O C); auto.
      + intros r Hr Dr. rewrite X by exact Hr. apply B; assumption.
      + destruct (reach k) eqn:Rk; auto. rewrite (R5 k Hk Rk) in Kk. discriminate.
  Qed.

  Lemma reduced_finds : forall p (s : sys) indep unknown, wf s -> inside p s (p_poi p) indep -> inside p s (p_qoi p) unknown ->
      (forall u, p_rel p None u = true) ->
      exact F0 F1 fadd fmul fopp p s true -> exact F0 F1 fadd fmul fopp p s false ->
      let X := fun k q => p_solve p true None (minus_unit F0 F1 fopp q) k in
      total_derivatives F0 F1 fadd fmul fopp s X /\
      forall fwd, reduced F0 F1 fadd fmul fopp p s fwd indep unknown -> finds F0 F1 fopp p fwd indep unknown X.
  Proof.
    intros p s indep unknown Hw Hi Ho Hp Hf Hr X. split.
    - intros q k Hq Hk. exact (Hf (minus_unit F0 F1 fopp q) k Hk).
    - intros fwd HR v q u k key Hv Hq Hu Hk.
      assert (A : p_solve p false None (minus_unit F0 F1 fopp k) q = X k q).
      { apply (modes_agree _ _ _ _ _ _ Fth s (fun j => X j q) (p_solve p false None (minus_unit F0 F1 fopp k)) q k Hw (Hi v q Hv Hq) (Ho u k Hu Hk)).
        - intros j Hj. exact (Hf (minus_unit F0 F1 fopp q) j Hj).
        - intros j Hj. exact (Hr (minus_unit F0 F1 fopp k) j Hj). }
      intros [->|[-> Hk']]; [rewrite Hp; destruct fwd; [reflexivity|exact A]|].
      assert (In (if fwd then v else u) (if fwd then indep else unknown)) as Hn by (destruct fwd; assumption).
      destruct (HR _ Hn Hk') as (ku & kp & W & Rl & Pr & EK). destruct fwd.
      + rewrite (Pr u k Hu Hk).
        pose proof (keyed_solution p s true v q ku kp _ _ Hw (fun rhs j Hj => Hf rhs j Hj) W Rl EK Hq (Hi v q Hv Hq) k) as T.
        specialize (T ltac:(apply in_flat_map; eauto) (Ho u k Hu Hk)). exact T.
      + rewrite (Pr v q Hv Hq).
        pose proof (keyed_solution p s false u k ku kp _ _ Hw (fun rhs j Hj => Hr rhs j Hj) W Rl EK Hk (Ho u k Hu Hk) q) as T.
        specialize (T ltac:(apply in_flat_map; eauto) (Hi v q Hv Hq)). destruct (ku q); [rewrite T|rewrite <- A]; [exact A|exact T].
  Qed.

  Lemma swept_for_exact : forall tiny, (forall v, tiny v = true -> Forall (fun x => x = F0) v) ->
      forall (p : prob (F:=F)) key ns ks (subs : list sys) fwd, wf (Group ns None ks subs) ->
      feed_forward F0 F1 fadd fmul fopp fwd (Group ns None ks subs) -> unscaled (Group ns None ks subs) ->
      swept_for F0 fadd fmul fopp fsub tiny p key fwd ns ks subs -> exact_for F0 F1 fadd fmul fopp p key (Group ns None ks subs) fwd.
  Proof.
    intros tiny Ht p key ns ks subs fwd Hw Hff Hun Hs rhs k Hk.
    destruct (Hs rhs) as [st [st' [Hu [Hp [E Hsol]]]]].
    assert (A : is_solution F0 F1 fadd fmul fopp fwd (Group ns None ks subs) rhs st').
    { destruct fwd.
      - destruct (sweep_fwd _ _ _ _ _ _ Fth tiny Ht ns ks subs rhs st Hw Hff Hu Hp) as [st2 [E2 A]]. rewrite E in E2. inversion E2; subst st2. exact A.
      - destruct (sweep_rev _ _ _ _ _ _ Fth tiny Ht ns ks subs rhs st Hw Hff Hun) as [st2 [E2 A]]. rewrite E in E2. inversion E2; subst st2. exact A. }
    rewrite <- (A k Hk). pose proof (sys_mat_in F1 fmul fopp None _ Hw) as Hin.
    destruct fwd.
    - apply row_ext. intros e He. destruct (Hin e He) as [_ B]. destruct (e_col e); cbn [over]; auto.
    - apply col_ext. intros e He. destruct (Hin e He) as [B _]. auto.
  Qed.
End Reduced.

(** Lemmas about the transfer of variables passed by object. *)
From Verif Require Import Base BaseFacts PboModel PboSpec.
Local Open Scope string_scope.
Local Open Scope nat_scope.
Local Open Scope list_scope.

(** ** networks: the order of the processes does not matter *)
Section Net.
  Context {V M : Type}.
  Notation net := (@net V M).

  Lemma same_refl : forall a : net, same a a.
  Proof. intros a. repeat split; reflexivity. Qed.
  Lemma same_sym : forall a b : net, same a b -> same b a.
  Proof. intros a b (S & P & C). split; [auto|]. split; [intros i L; symmetry; apply P; lia|]. intros. symmetry. apply C. Qed.
  Lemma same_trans : forall a b c : net, same a b -> same b c -> same a c.
  Proof. intros a b c (S & P & C) (S' & P' & C'). split; [congruence|]. split; [intros i L; rewrite P, P' by lia; reflexivity|]. intros. rewrite C, C'. reflexivity. Qed.
  Lemma put_chan_same : forall (c c' : nat -> nat -> nat -> list V) s d t q, (forall x y z, c x y z = c' x y z) -> forall x y z, put_chan c s d t q x y z = put_chan c' s d t q x y z.
  Proof. intros c c' s d t q H x y z. unfold put_chan. destruct (_ && _); auto. Qed.

  Lemma fire_same : forall (a b : net) i a', same a b -> i < size a -> fire i a = Some a' -> exists b', fire i b = Some b' /\ same a' b'.
  Proof.
    intros a b i a' (S & P & C) L F. unfold fire in *. rewrite <- (P i L). destruct (prog (procs a i)) as [|x p]; [discriminate|].
    assert (G : forall m ch ch', (forall x y z, ch x y z = ch' x y z) -> same (mkNet (size a) (put_proc (procs a) i (mkProc p m)) ch) (mkNet (size b) (put_proc (procs b) i (mkProc p m)) ch')).
    { intros m ch ch' H. split; [exact S|]. split; [|exact H]. cbn [size procs]. intros j Lj. unfold put_proc. destruct (j =? i); [reflexivity|apply P; exact Lj]. }
    destruct x as [d t f|q t g| |g].
    - inversion F; subst. eexists. split; [reflexivity|]. rewrite <- C. apply G. apply put_chan_same. exact C.
    - rewrite <- C. destruct (chan a q i t) as [|v r]; [discriminate|]. inversion F; subst. eexists. split; [reflexivity|]. apply G. apply put_chan_same. exact C.
    - discriminate.
    - inversion F; subst. eexists. split; [reflexivity|]. apply G. exact C.
  Qed.
  Lemma sync_same : forall (a b a' : net), same a b -> sync a = Some a' -> exists b', sync b = Some b' /\ same a' b'.
  Proof.
    intros a b a' (S & P & C) F. unfold sync in *. destruct (0 <? size a) eqn:Z; [|discriminate]. cbn [andb] in F.
    destruct (forallb _ (seq 0 (size a))) eqn:E; [|discriminate]. inversion F; subst. rewrite <- S, Z. cbn [andb].
    replace (forallb (fun i => at_barrier (procs b i)) (seq 0 (size a))) with true.
    - eexists. split; [reflexivity|]. split; [reflexivity|]. split; [|exact C]. cbn [size procs]. intros i L. rewrite (P i L). reflexivity.
    - symmetry. apply forallb_forall. intros i I. rewrite forallb_forall in E. rewrite <- P; [apply E; exact I|]. apply in_seq in I. lia.
  Qed.
  Lemma step_same : forall a b a' : net, same a b -> step a a' -> exists b', step b b' /\ same a' b'.
  Proof.
    intros a b a' Sm [(i & L & F)|F].
    - destruct (fire_same a b i a' Sm L F) as (b' & F' & Sm'). exists b'. split; [|exact Sm']. left. exists i. split; [|exact F']. destruct Sm as (E & _). lia.
    - destruct (sync_same a b a' Sm F) as (b' & F' & Sm'). exists b'. split; [|exact Sm']. right. exact F'.
  Qed.
  Lemma steps_same_l : forall k (a b c : net), steps k a c -> same a b -> steps k b c.
  Proof.
    intros k a b c H. revert b. induction H as [a c Sm|k a m c St H IH]; intros b E.
    - constructor. apply same_trans with a; [apply same_sym; exact E|exact Sm].
    - destruct (step_same a b m E St) as (m' & St' & E'). apply (steps_S k b m' c St'). apply IH. exact E'.
  Qed.
  Lemma steps_same_r : forall k (a b c : net), steps k a b -> same b c -> steps k a c.
  Proof. intros k a b c H E. induction H as [a b Sm|k a m b St H IH]; [constructor; apply same_trans with b; assumption|]. apply (steps_S k a m c St). auto. Qed.
  Lemma steps_app : forall j k (a b c : net), steps j a b -> steps k b c -> steps (j + k) a c.
  Proof.
    intros j k a b c H K. induction H as [a b Sm|j a m b St H IH]; [apply steps_same_l with b; [exact K|apply same_sym; exact Sm]|]. apply (steps_S (j + k) a m c St). auto.
  Qed.

  Lemma fire_size : forall i (a b : net), fire i a = Some b -> size b = size a.
  Proof. intros i a b F. unfold fire in F. destruct (prog (procs a i)) as [|x p]; [discriminate|]. destruct x as [d t f|q t g| |g]; [inversion F; reflexivity| |discriminate|inversion F; reflexivity]. destruct (chan a q i t); [discriminate|]. inversion F; reflexivity. Qed.
  Lemma step_size : forall a b : net, step a b -> size b = size a.
  Proof. intros a b [(i & _ & F)|F]; [exact (fire_size i a b F)|]. unfold sync in F. destruct (_ && _); [|discriminate]. inversion F. reflexivity. Qed.
  Lemma steps_size : forall k (a b : net), steps k a b -> size b = size a.
  Proof. intros k a b H. induction H as [a b (E & _)|k a m b St H IH]; [auto|]. rewrite IH. apply step_size. exact St. Qed.

  (** what one process does leaves alone what another can do *)
  Definition effect (i : nat) (x : @act V M) (m : M) (ch : nat -> nat -> nat -> list V) : option (M * (nat -> nat -> nat -> list V)) :=
    match x with
    | Local g => Some (g m, ch)
    | Send d t f => Some (m, put_chan ch i d t (ch i d t ++ [f m]))
    | Recv q t g => match ch q i t with [] => None | v :: r => Some (g v m, put_chan ch q i t r) end
    | Barrier => None
    end.
  Lemma fire_effect : forall i (s : net), fire i s = match prog (procs s i) with [] => None | x :: p => match effect i x (mem (procs s i)) (chan s) with Some (m', ch') => Some (mkNet (size s) (put_proc (procs s) i (mkProc p m')) ch') | None => None end end.
  Proof. intros i s. unfold fire, effect. destruct (prog (procs s i)) as [|x p]; [reflexivity|]. destruct x as [d t f|q t g| |g]; try reflexivity. destruct (chan s q i t); reflexivity. Qed.
  Lemma put_eq : forall (ch : nat -> nat -> nat -> list V) s d t q, put_chan ch s d t q s d t = q.
  Proof. intros. unfold put_chan. rewrite !Nat.eqb_refl. reflexivity. Qed.
  Lemma put_neq : forall (ch : nat -> nat -> nat -> list V) s d t q x y z, x <> s \/ y <> d \/ z <> t -> put_chan ch s d t q x y z = ch x y z.
  Proof. intros ch s d t q x y z H. unfold put_chan. destruct (Nat.eqb_spec x s), (Nat.eqb_spec y d), (Nat.eqb_spec z t); cbn [andb]; try reflexivity. exfalso. tauto. Qed.
  Lemma put_swap : forall (ch : nat -> nat -> nat -> list V) s d t q s' d' t' q', s <> s' \/ d <> d' \/ t <> t' -> forall x y z, put_chan (put_chan ch s d t q) s' d' t' q' x y z = put_chan (put_chan ch s' d' t' q') s d t q x y z.
  Proof.
    intros ch s d t q s' d' t' q' N x y z. unfold put_chan. destruct (Nat.eqb_spec x s), (Nat.eqb_spec y d), (Nat.eqb_spec z t), (Nat.eqb_spec x s'), (Nat.eqb_spec y d'), (Nat.eqb_spec z t'); cbn [andb]; try reflexivity. exfalso. subst. tauto.
  Qed.
  Lemma put_put : forall (ch : nat -> nat -> nat -> list V) s d t q q' x y z, put_chan (put_chan ch s d t q) s d t q' x y z = put_chan ch s d t q' x y z.
  Proof. intros. unfold put_chan. destruct (_ && _); reflexivity. Qed.
  Lemma send_recv : forall i j d t f m q t' g m2 (ch c2 : nat -> nat -> nat -> list V) m2', i <> j -> effect j (Recv q t' g) m2 ch = Some (m2', c2) ->
      exists c1' c2', effect j (Recv q t' g) m2 (put_chan ch i d t (ch i d t ++ [f m])) = Some (m2', c1') /\ effect i (Send d t f) m c2 = Some (m, c2') /\ forall x y z, c1' x y z = c2' x y z.
  Proof.
    intros i j d t f m q t' g m2 ch c2 m2' N H. cbn [effect] in *. destruct (ch q j t') as [|v r] eqn:E; [discriminate|]. inversion H; subst; clear H.
    destruct (Nat.eq_dec q i) as [->|Nq]; [destruct (Nat.eq_dec j d) as [<-|Nd]; [destruct (Nat.eq_dec t' t) as [->|Nt]|]|].
    - rewrite put_eq, E. eexists _, _. split; [reflexivity|]. split; [reflexivity|]. intros x y z. rewrite put_eq. cbn [app]. rewrite !put_put. reflexivity.
    - rewrite put_neq, E by auto. eexists _, _. split; [reflexivity|]. split; [reflexivity|]. intros x y z. rewrite (put_neq ch i j t' r i j t) by auto. apply put_swap. auto.
    - rewrite put_neq, E by auto. eexists _, _. split; [reflexivity|]. split; [reflexivity|]. intros x y z. rewrite (put_neq ch i j t' r i d t) by auto. apply put_swap. auto.
    - rewrite put_neq, E by auto. eexists _, _. split; [reflexivity|]. split; [reflexivity|]. intros x y z. rewrite (put_neq ch q j t' r i d t) by auto. apply put_swap. auto.
  Qed.
  Lemma effect_comm : forall i j x y m1 m2 (ch c1 c2 : nat -> nat -> nat -> list V) m1' m2', i <> j -> effect i x m1 ch = Some (m1', c1) -> effect j y m2 ch = Some (m2', c2) ->
      exists c1' c2', effect j y m2 c1 = Some (m2', c1') /\ effect i x m1 c2 = Some (m1', c2') /\ forall u v w, c1' u v w = c2' u v w.
  Proof.
    intros i j x y m1 m2 ch c1 c2 m1' m2' N Hx Hy.
    assert (LL : forall i x m (c : nat -> nat -> nat -> list V) m' g, effect i (Local g) m c = Some (m', x) -> x = c /\ m' = g m) by (intros ? ? ? ? ? ? H; cbn in H; inversion H; auto).
    destruct x as [d t f|q t g| |g]; [| |discriminate|].
    - destruct y as [d' t' f'|q' t' g'| |g']; [| |discriminate|].
      + cbn [effect] in *. inversion Hx; inversion Hy; subst. eexists _, _. split; [reflexivity|]. split; [reflexivity|]. intros u v w. rewrite (put_neq ch i d t _ j d' t'), (put_neq ch j d' t' _ i d t) by auto. apply put_swap. auto.
      + cbn [effect] in Hx. inversion Hx; subst. apply send_recv; assumption.
      + apply LL in Hy. destruct Hy as [-> ->]. exists c1, c1. split; [reflexivity|]. split; [exact Hx|reflexivity].
    - destruct y as [d' t' f'|q' t' g'| |g']; [| |discriminate|].
      + cbn [effect] in Hy. inversion Hy; subst. destruct (send_recv j i d' t' f' m2' q t g m1 ch c1 m1' ltac:(auto) Hx) as (a & b & A & B & C). exists b, a. split; [exact B|]. split; [exact A|]. intros. symmetry. apply C.
      + cbn [effect] in *. destruct (ch q i t) as [|v r] eqn:E; [discriminate|]. destruct (ch q' j t') as [|v' r'] eqn:E'; [discriminate|]. inversion Hx; inversion Hy; subst. rewrite (put_neq ch q i t _ q' j t'), (put_neq ch q' j t' _ q i t), E, E' by auto. eexists _, _. split; [reflexivity|]. split; [reflexivity|]. apply put_swap. auto.
      + apply LL in Hy. destruct Hy as [-> ->]. exists c1, c1. split; [reflexivity|]. split; [exact Hx|reflexivity].
    - apply LL in Hx. destruct Hx as [-> ->]. exists c2, c2. split; [exact Hy|]. split; reflexivity.
  Qed.
  Lemma fire_comm : forall i j (s a b : net), i <> j -> fire i s = Some a -> fire j s = Some b -> exists a' b', fire j a = Some a' /\ fire i b = Some b' /\ same a' b'.
  Proof.
    intros i j s a b N Fa Fb. rewrite fire_effect in Fa, Fb.
    destruct (prog (procs s i)) as [|x p] eqn:Ei; [discriminate|]. destruct (prog (procs s j)) as [|y q] eqn:Ej; [discriminate|].
    destruct (effect i x _ _) as [[m1 c1]|] eqn:H1; [|discriminate]. destruct (effect j y _ _) as [[m2 c2]|] eqn:H2; [|discriminate]. inversion Fa; inversion Fb; subst; clear Fa Fb.
    destruct (effect_comm i j x y _ _ _ _ _ _ _ N H1 H2) as (c1' & c2' & A & B & C).
    assert (Oi : forall X, put_proc (procs s) i X j = procs s j). { intros X. unfold put_proc. destruct (Nat.eqb_spec j i); [exfalso; auto|reflexivity]. }
    assert (Oj : forall X, put_proc (procs s) j X i = procs s i). { intros X. unfold put_proc. destruct (Nat.eqb_spec i j); [exfalso; auto|reflexivity]. }
    rewrite !fire_effect. cbn [procs chan size]. rewrite Oi, Oj, Ei, Ej, A, B. eexists _, _. split; [reflexivity|]. split; [reflexivity|]. split; [reflexivity|]. split; [|exact C].
    cbn [procs size]. intros k _. unfold put_proc. destruct (Nat.eqb_spec k i), (Nat.eqb_spec k j); try reflexivity. exfalso. congruence.
  Qed.
  Lemma fire_sync : forall i (s a b : net), i < size s -> fire i s = Some a -> sync s = Some b -> False.
  Proof.
    intros i s a b L F S. unfold sync in S. destruct (0 <? size s); [|discriminate]. cbn [andb] in S. destruct (forallb _ _) eqn:E; [|discriminate]. rewrite forallb_forall in E. specialize (E i ltac:(apply in_seq; lia)). unfold at_barrier in E. unfold fire in F. destruct (prog (procs s i)) as [|[] p]; discriminate.
  Qed.
  (** the diamond property: the same number of steps leads to the end whatever comes first *)
  Lemma diamond : forall s a b : net, step s a -> step s b -> same a b \/ exists a' b', step a a' /\ step b b' /\ same a' b'.
  Proof.
    intros s a b [(i & Li & Fa)|Fa] [(j & Lj & Fb)|Fb].
    - destruct (Nat.eq_dec i j) as [->|N]; [left; rewrite Fa in Fb; inversion Fb; apply same_refl|]. right. destruct (fire_comm i j s a b N Fa Fb) as (a' & b' & A & B & C). exists a', b'. split; [|split; [|exact C]].
      + left. exists j. split; [rewrite (fire_size _ _ _ Fa); exact Lj|exact A].
      + left. exists i. split; [rewrite (fire_size _ _ _ Fb); exact Li|exact B].
    - exfalso. exact (fire_sync i s a b Li Fa Fb).
    - exfalso. exact (fire_sync j s b a Lj Fb Fa).
    - left. rewrite Fa in Fb. inversion Fb. apply same_refl.
  Qed.
  Lemma stuck_same : forall a b : net, same a b -> stuck a -> stuck b.
  Proof. intros a b E H s St. destruct (step_same b a s (same_sym _ _ E) St) as (s' & St' & _). exact (H s' St'). Qed.
  Lemma push : forall n (s f a : net), steps n s f -> stuck f -> step s a -> exists n', n = S n' /\ steps n' a f.
  Proof.
    induction n as [|n IH]; intros s f a H Sf St; inversion H as [? ? Sm|? ? m ? Sm Hm]; subst.
    - exfalso. exact (stuck_same f s (same_sym _ _ Sm) Sf a St).
    - exists n. split; [reflexivity|]. destruct (diamond s a m St Sm) as [E|(a' & m' & A & B & C)]; [apply steps_same_l with m; [exact Hm|apply same_sym; exact E]|].
      destruct (IH m f m' Hm Sf B) as (n' & -> & H'). apply (steps_S n' a a' f A). apply steps_same_l with m'; [exact H'|apply same_sym; exact C].
  Qed.
  Lemma confluent : forall n (s f : net), steps n s f -> stuck f -> forall k s', steps k s s' -> k <= n /\ steps (n - k) s' f.
  Proof.
    intros n s f H Sf k s' K. revert n H. induction K as [s s' Sm|k s m s' St K IH]; intros n H.
    - split; [lia|]. rewrite Nat.sub_0_r. apply steps_same_l with s; assumption.
    - destruct (push n s f m H Sf St) as (n' & -> & H'). destruct (IH n' H') as [L R]. split; [lia|exact R].
  Qed.
  Lemma confluent_end : forall n (s f : net), steps n s f -> stuck f -> forall k s', steps k s s' -> stuck s' -> same s' f.
  Proof.
    intros n s f H Sf k s' K Ss. destruct (confluent n s f H Sf k s' K) as [_ R]. inversion R as [? ? Sm|? ? m ? St _]; subst; [exact Sm|]. exfalso. exact (Ss m St).
  Qed.
  Lemma done_stuck : forall s : net, all_done s -> stuck s.
  Proof.
    intros s D s' [(i & L & F)|F].
    - unfold fire in F. rewrite (D i L) in F. discriminate.
    - unfold sync in F. destruct (0 <? size s) eqn:Z; [|discriminate]. apply Nat.ltb_lt in Z. cbn [andb] in F. destruct (forallb _ _) eqn:E; [|discriminate]. rewrite forallb_forall in E. specialize (E 0 ltac:(apply in_seq; lia)). unfold at_barrier in E. rewrite (D 0 Z) in E. discriminate.
  Qed.

  (** ** one process runs part of its program *)
  Notation chans := (nat -> nat -> nat -> list V).
  Inductive runs (i : nat) : list (@act V M) -> M -> chans -> M -> chans -> Prop :=
  | runs_nil : forall m (ch ch' : chans), (forall x y z, ch x y z = ch' x y z) -> runs i [] m ch m ch'
  | runs_cons : forall x l m ch m1 ch1 m' ch', effect i x m ch = Some (m1, ch1) -> runs i l m1 ch1 m' ch' -> runs i (x :: l) m ch m' ch'.
  Lemma effect_same : forall i x m (ch ch2 : chans) m1 ch1, (forall x y z, ch x y z = ch2 x y z) -> effect i x m ch = Some (m1, ch1) -> exists ch3, effect i x m ch2 = Some (m1, ch3) /\ forall x y z, ch1 x y z = ch3 x y z.
  Proof.
    intros i x m ch ch2 m1 ch1 E H. destruct x as [d t f|q t g| |g]; cbn [effect] in *.
    - inversion H; subst. eexists. split; [reflexivity|]. rewrite E. apply put_chan_same. exact E.
    - rewrite <- E. destruct (ch q i t); [discriminate|]. inversion H; subst. eexists. split; [reflexivity|]. apply put_chan_same. exact E.
    - discriminate.
    - inversion H; subst. eexists. split; [reflexivity|exact E].
  Qed.
  Lemma runs_same : forall i l m (ch : chans) m' (ch' : chans), runs i l m ch m' ch' -> forall ch2 ch3 : chans, (forall x y z, ch x y z = ch2 x y z) -> (forall x y z, ch' x y z = ch3 x y z) -> runs i l m ch2 m' ch3.
  Proof.
    intros i l m ch m' ch' H. induction H as [m ch ch' E|x l m ch m1 ch1 m' ch' F H IH]; intros ch2 ch3 E2 E3.
    - constructor. intros. rewrite <- E2, <- E3. apply E.
    - destruct (effect_same i x m ch ch2 m1 ch1 E2 F) as (c & F' & Ec). apply (runs_cons i x l m ch2 m1 c m' ch3 F'). apply IH; assumption.
  Qed.
  Lemma runs_app : forall i a b m (ch : chans) m1 (ch1 : chans) m' (ch' : chans), runs i a m ch m1 ch1 -> runs i b m1 ch1 m' ch' -> runs i (a ++ b) m ch m' ch'.
  Proof.
    intros i a b m ch m1 ch1 m' ch' H K. induction H as [m ch ch1 E|x l m ch m2 ch2 m1 ch1 F H IH]; [cbn; apply runs_same with ch1 ch'; [exact K|intros; symmetry; apply E|reflexivity]|]. cbn [app]. apply (runs_cons i x (l ++ b) m ch m2 ch2 m' ch' F). auto.
  Qed.
  Lemma runs_steps : forall i l m (ch : chans) m' (ch' : chans), runs i l m ch m' ch' -> forall n ps p, i < n -> ps i = mkProc (l ++ p) m -> exists k, steps k (mkNet n ps ch) (mkNet n (put_proc ps i (mkProc p m')) ch').
  Proof.
    intros i l m ch m' ch' H. induction H as [m ch ch' E|x l m ch m1 ch1 m' ch' F H IH]; intros n ps p L Ep.
    - exists 0. constructor. split; [reflexivity|]. split; [|exact E]. cbn [procs size]. intros j _. unfold put_proc. destruct (Nat.eqb_spec j i) as [->|_]; [exact Ep|reflexivity].
    - destruct (IH n (put_proc ps i (mkProc (l ++ p) m1)) p L) as (k & St). { unfold put_proc. rewrite Nat.eqb_refl. reflexivity. }
      exists (S k). apply steps_S with (mkNet n (put_proc ps i (mkProc (l ++ p) m1)) ch1).
      + left. exists i. split; [exact L|]. rewrite fire_effect. cbn [procs chan size]. rewrite Ep. cbn [prog mem app]. rewrite F. reflexivity.
      + apply steps_same_r with (mkNet n (put_proc (put_proc ps i (mkProc (l ++ p) m1)) i (mkProc p m')) ch'); [exact St|]. split; [reflexivity|]. split; [|reflexivity]. cbn [procs size]. intros j _. unfold put_proc. destruct (j =? i); reflexivity.
  Qed.
  (** all processes, one after the other *)
  Lemma phase : forall n (acts rest : nat -> list (@act V M)) (ms ms' : nat -> M) (chs : nat -> chans), (forall i, i < n -> runs i (acts i) (ms i) (chs i) (ms' i) (chs (S i))) ->
      exists k, steps k (mkNet n (fun i => mkProc (acts i ++ rest i) (ms i)) (chs 0)) (mkNet n (fun i => mkProc (rest i) (ms' i)) (chs n)).
  Proof.
    intros n acts rest ms ms' chs H.
    assert (G : forall j, j <= n -> exists k, steps k (mkNet n (fun i => mkProc (acts i ++ rest i) (ms i)) (chs 0)) (mkNet n (fun i => if i <? j then mkProc (rest i) (ms' i) else mkProc (acts i ++ rest i) (ms i)) (chs j))).
    { induction j as [|j IH]; intros L; [exists 0; constructor; apply same_refl|]. destruct (IH ltac:(lia)) as (k & St).
      destruct (runs_steps j (acts j) (ms j) (chs j) (ms' j) (chs (S j)) (H j ltac:(lia)) n (fun i => if i <? j then mkProc (rest i) (ms' i) else mkProc (acts i ++ rest i) (ms i)) (rest j) ltac:(lia)) as (k' & St'). { rewrite Nat.ltb_irrefl. reflexivity. }
      exists (k + k'). eapply steps_app; [exact St|]. eapply steps_same_r; [exact St'|]. split; [reflexivity|]. split; [|reflexivity]. cbn [procs size]. intros i _. unfold put_proc. destruct (Nat.eqb_spec i j) as [->|N].
      - replace (j <? S j) with true by (symmetry; apply Nat.ltb_lt; lia). reflexivity.
      - destruct (Nat.ltb_spec i j), (Nat.ltb_spec i (S j)); try reflexivity; lia. }
    destruct (G n (le_n n)) as (k & St). exists k. eapply steps_same_r; [exact St|]. split; [reflexivity|]. split; [|reflexivity]. cbn [procs size]. intros i L. apply Nat.ltb_lt in L. rewrite L. reflexivity.
  Qed.
  Lemma barrier : forall n (rest : nat -> list (@act V M)) (ms : nat -> M) ch, 0 < n -> step (mkNet n (fun i => mkProc (Barrier :: rest i) (ms i)) ch) (mkNet n (fun i => if i <? n then mkProc (rest i) (ms i) else mkProc (Barrier :: rest i) (ms i)) ch).
  Proof.
    intros n rest ms ch L. right. unfold sync. cbn [size procs chan]. replace (0 <? n) with true by (symmetry; apply Nat.ltb_lt; exact L). cbn [andb].
    replace (forallb _ _) with true by (symmetry; apply forallb_forall; reflexivity). reflexivity.
  Qed.
End Net.

(** ** a transfer *)
Section Pbo.
  Context {V : Type}.
  Variable none : V.
  Variable assign : option V -> V -> V.
  Notation chans := (nat -> nat -> nat -> list V).
  Notation vecs := (@vecs V).
  Variable rd : @round V.
  Let n := length (locals rd).

  Lemma has_local : forall i x, has rd i x = true <-> local rd i x.
  Proof. intros i x. unfold has, local. rewrite existsb_exists. split; [intros (y & I & E); apply String.eqb_eq in E; subst; exact I|intros I; exists x; split; [exact I|apply String.eqb_refl]]. Qed.
  Lemma has_not : forall i x, has rd i x = false <-> ~ local rd i x.
  Proof. intros i x. rewrite <- has_local. destruct (has rd i x); split; intros; try discriminate; try reflexivity; try (intros; discriminate). exfalso. auto. Qed.
  Lemma find_low : forall (f : nat -> bool) k s o, find f (seq s k) = Some o -> f o = true /\ s <= o < s + k /\ forall q, s <= q < o -> f q = false.
  Proof.
    induction k as [|k IH]; intros s o H; [discriminate|]. cbn [seq find] in H. destruct (f s) eqn:E.
    - inversion H; subst. split; [exact E|]. split; [lia|]. intros q L. lia.
    - destruct (IH (S s) o H) as (A & B & C). split; [exact A|]. split; [lia|]. intros q L. destruct (Nat.eq_dec q s) as [->|N]; [exact E|apply C; lia].
  Qed.
  Lemma owner_low : forall x o, owner rd x = Some o -> local rd o x /\ o < n /\ forall q, q < o -> ~ local rd q x.
  Proof.
    intros x o H. destruct (find_low _ _ _ _ H) as (A & B & C). split; [apply has_local; exact A|]. split; [unfold n; lia|]. intros q L. apply has_not. apply C. lia.
  Qed.
  Lemma owner_some : forall x i, local rd i x -> exists o, owner rd x = Some o.
  Proof.
    intros x i H. unfold owner. destruct (find _ _) as [o|] eqn:E; [exists o; reflexivity|]. exfalso.
    assert (L : i < n). { unfold n. destruct (Nat.lt_ge_cases i (length (locals rd))) as [L|G]; [exact L|]. unfold local in H. rewrite nth_overflow in H by exact G. destruct H. }
    pose proof (find_none _ _ E i ltac:(apply in_seq; unfold n in L; lia)) as F. cbv beta in F. apply has_not in F. exact (F H).
  Qed.
  Lemma holder_owner : forall i src q, holder rd i src q -> ~ local rd i src -> owner rd src = Some q.
  Proof.
    intros i src q (H & _ & L) N. destruct (owner_some src q H) as (o & E). destruct (owner_low src o E) as (A & _ & B). destruct (Nat.lt_trichotomy o q) as [G|[->|G]]; [exfalso; exact (L N o G A)|exact E|exfalso; exact (B q G H)].
  Qed.
  Lemma is_owner_iff : forall x i, is_owner rd x i = true <-> owner rd x = Some i.
  Proof. intros x i. unfold is_owner. destruct (owner rd x) as [o|]; [|split; discriminate]. rewrite Nat.eqb_eq. split; [intros ->; reflexivity|intros E; inversion E; reflexivity]. Qed.

  Definition gets (i : nat) (tgt src : string) (d : nat) : bool := existsb (Nat.eqb d) (receivers rd i tgt src).
  Definition box (t : nat) (cs : list (string * string)) (x y z : nat) (m : vecs) : list V :=
    if t <=? z then match nth_error cs (z - t) with Some (tgt, src) => if is_owner rd src x && gets x tgt src y then [look none src m] else [] | None => [] end else [].
  Lemma box_next : forall t c cs x y z m, t <> z -> box t (c :: cs) x y z m = box (S t) cs x y z m.
  Proof.
    intros t c cs x y z m N. unfold box. destruct (Nat.leb_spec t z) as [L|L], (Nat.leb_spec (S t) z) as [L'|L']; try lia; try reflexivity. replace (z - t) with (S (z - S t)) by lia. reflexivity.
  Qed.
  Lemma box_low : forall t cs x y z m, z < t -> box t cs x y z m = [].
  Proof. intros. unfold box. destruct (Nat.leb_spec t z); [lia|reflexivity]. Qed.
  Lemma box_now : forall t tgt src cs x y m, box t ((tgt, src) :: cs) x y t m = if is_owner rd src x && gets x tgt src y then [look none src m] else [].
  Proof. intros. unfold box. rewrite Nat.leb_refl, Nat.sub_diag. reflexivity. Qed.

  Lemma send_all : forall i t (f : vecs -> V) m ds (ch : chans), NoDup ds -> runs i (map (fun d => Send d t f) ds) m ch m (fun x y z => ch x y z ++ (if (x =? i) && (z =? t) && existsb (Nat.eqb y) ds then [f m] else [])).
  Proof.
    intros i t f m. induction ds as [|d ds IH]; intros ch ND; cbn [map].
    - constructor. intros. rewrite andb_false_r, app_nil_r. reflexivity.
    - inversion ND; subst. eapply runs_cons; [reflexivity|]. eapply runs_same; [apply IH; assumption|reflexivity|]. intros x y z. cbn [existsb]. unfold put_chan.
      destruct (Nat.eqb_spec x i) as [->|Nx]; cbn [andb]; [|reflexivity]. destruct (Nat.eqb_spec z t) as [->|Nz]; cbn [andb]; [|rewrite andb_false_r; reflexivity].
      destruct (Nat.eqb_spec y d) as [->|Ny]; cbn [andb orb]; [|reflexivity]. replace (existsb (Nat.eqb d) ds) with false; [rewrite app_nil_r; reflexivity|].
      symmetry. apply not_true_is_false. rewrite existsb_exists. intros (e & I & E). apply Nat.eqb_eq in E. subst. auto.
  Qed.
  Lemma sends_runs : forall i m cs t (ch : chans), runs i (sends none rd i t cs) m ch m (fun x y z => ch x y z ++ (if x =? i then box t cs i y z m else [])).
  Proof.
    intros i m. induction cs as [|[tgt src] cs IH]; intros t ch.
    - cbn [sends]. constructor. intros x y z. unfold box. destruct (t <=? z), (x =? i); try (destruct (z - t)); rewrite app_nil_r; reflexivity.
    - cbn [sends]. eapply runs_app.
      + instantiate (1 := fun x y z => ch x y z ++ (if (x =? i) && (z =? t) && (is_owner rd src i && gets i tgt src y) then [look none src m] else [])). instantiate (1 := m).
        destruct (is_owner rd src i).
        * apply send_all. unfold receivers. apply NoDup_filter. apply seq_NoDup.
        * constructor. intros. cbn [andb]. rewrite andb_false_r, app_nil_r. reflexivity.
      + eapply runs_same; [apply IH|reflexivity|]. intros x y z. cbv beta. rewrite <- app_assoc. f_equal. destruct (x =? i); cbn [andb]; [|reflexivity].
        destruct (Nat.eqb_spec z t) as [->|Nz]; cbn [andb].
        * rewrite box_now, (box_low (S t)) by lia. rewrite app_nil_r. reflexivity.
        * rewrite (box_next t) by auto. reflexivity.
  Qed.

  Variable ms : nat -> vecs.
  Fixpoint after (i : nat) (cs : list (string * string)) (m : vecs) : vecs :=
    match cs with
    | [] => m
    | (tgt, src) :: r => after i r (if has rd i tgt then if has rd i src then give assign tgt (look none src m) m else match owner rd src with Some o => give assign tgt (look none src (ms o)) m | None => m end else m)
    end.
  Lemma recvs_runs : forall i cs t m (ch : chans), i < n -> (forall x z, ch x i z = box t cs x i z (ms x)) ->
      runs i (recvs none assign rd i t cs) m ch (after i cs m) (fun x y z => if y =? i then [] else ch x y z).
  Proof.
    intros i. induction cs as [|[tgt src] cs IH]; intros t m ch Li B.
    - cbn [recvs after]. constructor. intros x y z. destruct (Nat.eqb_spec y i) as [->|_]; [|reflexivity]. rewrite B. unfold box. destruct (t <=? z); [|reflexivity]. destruct (z - t); reflexivity.
    - cbn [recvs after].
      assert (Skip : (forall x, is_owner rd src x && gets x tgt src i = false) -> forall x z, ch x i z = box (S t) cs x i z (ms x)).
      { intros H x z. rewrite B. destruct (Nat.eq_dec t z) as [<-|N]; [|apply box_next; exact N]. rewrite box_now, H, box_low by lia. reflexivity. }
      assert (Get : forall x, gets x tgt src i = negb (i =? x) && negb (has rd i src) && has rd i tgt).
      { intros x. unfold gets, receivers. destruct (negb (i =? x) && negb (has rd i src) && has rd i tgt) eqn:E.
        - apply existsb_exists. exists i. split; [|apply Nat.eqb_refl]. apply filter_In. split; [apply in_seq; unfold n in Li; lia|exact E].
        - apply not_true_is_false. rewrite existsb_exists. intros (e & I & Ee). apply Nat.eqb_eq in Ee. subst e. apply filter_In in I. destruct I as [_ I]. congruence. }
      destruct (has rd i tgt) eqn:Ht; [destruct (has rd i src) eqn:Hs; [|destruct (owner rd src) as [o|] eqn:Eo]|].
      + cbn [app]. eapply runs_cons; [reflexivity|]. apply IH; [exact Li|]. apply Skip. intros x. rewrite Get. cbn [negb]. rewrite andb_false_r. cbn [andb]. apply andb_false_r.
      + cbn [app]. destruct (owner_low src o Eo) as (Lo & _ & _). assert (No : i <> o) by (intros ->; apply has_local in Lo; congruence).
        assert (Io : is_owner rd src o && gets o tgt src i = true). { rewrite Get. apply andb_true_iff. split; [apply is_owner_iff; exact Eo|]. rewrite andb_true_r, andb_true_r. apply negb_true_iff. apply Nat.eqb_neq. exact No. }
        eapply runs_cons; [cbn [effect]; rewrite B, box_now, Io; reflexivity|]. eapply runs_same; [apply IH; [exact Li|]|reflexivity|].
        * intros x z. unfold put_chan. rewrite Nat.eqb_refl. destruct (Nat.eqb_spec x o) as [->|Nx]; cbn [andb].
          -- destruct (Nat.eqb_spec z t) as [->|Nz]; [rewrite box_low by lia; reflexivity|]. rewrite B. apply box_next. auto.
          -- rewrite B. destruct (Nat.eq_dec t z) as [<-|Nz]; [|apply box_next; exact Nz]. rewrite box_now, box_low by lia. replace (is_owner rd src x) with false; [reflexivity|]. symmetry. apply not_true_is_false. rewrite is_owner_iff. congruence.
        * intros x y z. cbv beta. unfold put_chan. destruct (Nat.eqb_spec y i) as [->|Ny]; [reflexivity|]. rewrite andb_false_r. reflexivity.
      + cbn [app]. apply IH; [exact Li|]. apply Skip. intros x. unfold is_owner. rewrite Eo. reflexivity.
      + cbn [app]. apply IH; [exact Li|]. apply Skip. intros x. rewrite Get. rewrite andb_false_r. apply andb_false_r.
  Qed.
  Lemma give_unk : forall tgt v m, unk (give assign tgt v m) = unk m.
  Proof. reflexivity. Qed.
  Lemma look_unk : forall src m m', unk m = unk m' -> look none src m = look none src m'.
  Proof. intros src m m' E. unfold look. rewrite E. reflexivity. Qed.
  Lemma give_get : forall tgt v m p, dget String.eqb (par (give assign tgt v m)) p = if String.eqb p tgt then Some (assign (dget String.eqb (par m) tgt) v) else dget String.eqb (par m) p.
  Proof. intros tgt v m p. unfold give. cbn [par]. apply (dget_dset String.eqb String.eqb_eq). Qed.
  Lemma after_ok : forall i cs m, NoDup (map fst cs) -> (forall tgt src, In (tgt, src) cs -> exists q, local rd q src) -> unk m = unk (ms i) ->
      unk (after i cs m) = unk (ms i) /\
      (forall tgt src q, In (tgt, src) cs -> local rd i tgt -> holder rd i src q -> dget String.eqb (par (after i cs m)) tgt = Some (assign (dget String.eqb (par m) tgt) (look none src (ms q)))) /\
      (forall p, (forall src, In (p, src) cs -> ~ local rd i p) -> dget String.eqb (par (after i cs m)) p = dget String.eqb (par m) p).
  Proof.
    intros i. induction cs as [|[tgt src] cs IH]; intros m ND So U; [split; [exact U|]; split; [intros ? ? ? []|reflexivity]|]. cbn [map fst] in ND. inversion ND as [|? ? Nt ND']; subst. cbn [after].
    set (m1 := if has rd i tgt then _ else m).
    assert (U1 : unk m1 = unk (ms i)) by (unfold m1; destruct (has rd i tgt), (has rd i src), (owner rd src); exact U).
    destruct (IH m1 ND' (fun t s I => So t s (or_intror I)) U1) as (A & B & C).
    assert (Oth : forall p, p <> tgt -> dget String.eqb (par m1) p = dget String.eqb (par m) p).
    { intros p N. apply String.eqb_neq in N. unfold m1. destruct (has rd i tgt); [|reflexivity]. destruct (has rd i src); [|destruct (owner rd src); [|reflexivity]]; rewrite give_get, N; reflexivity. }
    split; [exact A|]. split.
    - intros t s q [E|I] Lt Hq.
      + inversion E; subst t s. rewrite C by (intros s I; exfalso; apply Nt; apply (in_map fst) in I; exact I). unfold m1. rewrite (proj2 (has_local i tgt) Lt). destruct (has rd i src) eqn:Hs.
        * apply has_local in Hs. destruct Hq as (_ & Hq & _). rewrite (Hq Hs). rewrite give_get, String.eqb_refl. rewrite (look_unk src m (ms i) U). reflexivity.
        * apply has_not in Hs. rewrite (holder_owner i src q Hq Hs). rewrite give_get, String.eqb_refl. reflexivity.
      + rewrite (B t s q I Lt Hq). rewrite Oth; [reflexivity|]. intros ->. apply Nt. apply (in_map fst) in I. exact I.
    - intros p Hp. rewrite C by (intros s I; apply (Hp s); right; exact I). destruct (String.eqb_spec p tgt) as [->|N]; [|apply Oth; exact N].
      unfold m1. rewrite (proj2 (has_not i tgt)); [reflexivity|]. apply (Hp src). left. reflexivity.
  Qed.

  Lemma round_steps : forall rest, 0 < n -> NoDup (map fst (conns rd)) -> (forall tgt src, In (tgt, src) (conns rd) -> exists q, local rd q src) ->
      exists mid k, (forall i, i < n -> received none assign rd ms i (mid i)) /\
        steps k (mkNet n (fun i => mkProc (transfer_prog none assign rd i ++ rest i) (ms i)) (fun _ _ _ => [])) (mkNet n (fun i => mkProc (rest i) (mid i)) (fun _ _ _ => [])).
  Proof.
    intros rest Ln ND So. destruct (conns rd) as [|c0 cs0] eqn:Ec.
    - exists ms, 0. split.
      + intros i _. unfold received. rewrite Ec. split; [reflexivity|]. split; [intros ? ? ? []|reflexivity].
      + constructor. split; [reflexivity|]. split; [|reflexivity]. cbn [procs size]. intros i _. unfold transfer_prog. rewrite Ec. reflexivity.
    - rewrite <- Ec in *. set (cs := conns rd) in *. exists (fun i => after i cs (ms i)).
      destruct (phase n (fun i => sends none rd i 0 cs) (fun i => Barrier :: recvs none assign rd i 0 cs ++ rest i) ms ms (fun k x y z => if x <? k then box 0 cs x y z (ms x) else [])) as (k1 & S1).
      { intros i Li. eapply runs_same; [apply (sends_runs i (ms i) cs 0 (fun x y z => if x <? i then box 0 cs x y z (ms x) else []))|reflexivity|]. intros x y z. cbv beta.
        destruct (Nat.eqb_spec x i) as [->|N].
        - rewrite Nat.ltb_irrefl. replace (i <? S i) with true by (symmetry; apply Nat.ltb_lt; lia). reflexivity.
        - rewrite app_nil_r. destruct (Nat.ltb_spec x i), (Nat.ltb_spec x (S i)); try reflexivity; lia. }
      destruct (phase n (fun i => recvs none assign rd i 0 cs) rest ms (fun i => after i cs (ms i)) (fun k x y z => if y <? k then [] else if x <? n then box 0 cs x y z (ms x) else [])) as (k2 & S2).
      { intros i Li. eapply runs_same; [apply (recvs_runs i cs 0 (ms i) (fun x y z => if y <? i then [] else if x <? n then box 0 cs x y z (ms x) else []) Li)|reflexivity|].
        - intros x z. rewrite Nat.ltb_irrefl. destruct (Nat.ltb_spec x n) as [L|L]; [reflexivity|]. unfold box. destruct (0 <=? z); [|reflexivity]. destruct (nth_error cs (z - 0)) as [[tgt src]|]; [|reflexivity].
          replace (is_owner rd src x) with false; [reflexivity|]. symmetry. apply not_true_is_false. rewrite is_owner_iff. intros E. apply owner_low in E. lia.
        - intros x y z. cbv beta. destruct (Nat.eqb_spec y i) as [->|N].
          + replace (i <? S i) with true by (symmetry; apply Nat.ltb_lt; lia). reflexivity.
          + destruct (Nat.ltb_spec y i), (Nat.ltb_spec y (S i)); try reflexivity; lia. }
      exists (k1 + S k2 + 0). split.
      + intros i Li. unfold received. fold cs. exact (after_ok i cs (ms i) ND So eq_refl).
      + eapply steps_app; [eapply steps_app|].
        * eapply steps_same_l; [exact S1|]. split; [reflexivity|]. split; [|reflexivity]. cbn [procs size]. intros i _. f_equal. unfold transfer_prog. fold cs. destruct cs; [discriminate Ec|]. rewrite <- !app_assoc. reflexivity.
        * eapply steps_S; [apply barrier; exact Ln|]. eapply steps_same_l; [exact S2|]. split; [reflexivity|]. split; [|reflexivity]. cbn [procs size]. intros i Li. apply Nat.ltb_lt in Li. rewrite Li. reflexivity.
        * constructor. split; [reflexivity|]. split; [reflexivity|]. cbn [chan]. intros x y z. destruct (Nat.ltb_spec y n) as [L|L]; [reflexivity|]. destruct (x <? n); [|reflexivity].
          unfold box. destruct (0 <=? z); [|reflexivity]. destruct (nth_error cs (z - 0)) as [[tgt src]|]; [|reflexivity]. replace (gets x tgt src y) with false; [rewrite andb_false_r; reflexivity|].
          symmetry. apply not_true_is_false. unfold gets. rewrite existsb_exists. intros (e & I & E). apply Nat.eqb_eq in E. subst e. unfold receivers in I. apply filter_In in I. destruct I as [I _]. apply in_seq in I. unfold n in L. lia.
  Qed.
End Pbo.

Section Rounds.
  Context {V : Type}.
  Variable none : V.
  Variable assign : option V -> V -> V.
  Lemma rounds_steps : forall n rds ms, 0 < n -> Forall (sourced n) rds -> exists ms' k, story none assign n rds ms ms' /\ steps k (initial none assign n rds ms) (mkNet n (fun i => mkProc [] (ms' i)) (fun _ _ _ => [])).
  Proof.
    intros n rds. induction rds as [|rd rds IH]; intros ms Ln F.
    - exists ms, 0. split; [constructor; reflexivity|]. constructor. apply same_refl.
    - inversion F as [|? ? (El & ND & So) F']; subst. destruct (round_steps none assign rd ms (fun i => Local (comp rd i) :: program none assign rds i) Ln ND So) as (mid & k & Rc & St).
      destruct (IH (fun i => comp rd i (mid i)) Ln F') as (ms' & k' & Sy & St').
      destruct (phase (length (locals rd)) (fun i => [Local (comp rd i)]) (fun i => program none assign rds i) mid (fun i => comp rd i (mid i)) (fun _ _ _ _ => [])) as (k1 & S1).
      { intros i _. eapply runs_cons; [reflexivity|]. constructor. reflexivity. }
      exists ms', (k + (k1 + k')). split; [econstructor; eassumption|]. eapply steps_app; [exact St|]. eapply steps_app; [exact S1|exact St'].
  Qed.
End Rounds.

(** C131: the breadth-first search. *)
From Verif Require Import Base BaseFacts BfsModel BfsSpec.
From Coq Require Import Permutation.
Local Open Scope list_scope.
Local Open Scope nat_scope.

Lemma nodup_join : forall A (a b : list A), NoDup a -> NoDup b -> (forall v, In v a -> ~ In v b) -> NoDup (a ++ b).
Proof. induction a as [|x a IH]; intros b Na Nb D; [exact Nb|]. inversion Na; subst. cbn. constructor; [rewrite in_app_iff; intros [K|K]; [contradiction|exact (D x (or_introl eq_refl) K)]|]. apply IH; [assumption|exact Nb|]. intros v I. apply D. right. exact I. Qed.

Section Facts.
  Context {N : Type} (dec : forall a b : N, {a = b} + {a <> b}) (nodes : list N) (edge : N -> N -> Prop) (succ pred : N -> option (list N)) (order : nat -> list N -> list N).
  Hypothesis (G : graph_ok nodes edge succ pred) (O : orders order).
  Notation level := (level dec succ pred).
  Notation loop := (loop dec succ pred order).
  Notation adj b c := (edge b c \/ edge c b).

  Lemma mem_iff : forall v s, mem dec v s = true <-> In v s.
  Proof. intros v s. unfold mem. destruct (in_dec dec v s); split; congruence || tauto. Qed.
  Lemma mem_no : forall v s, mem dec v s = false <-> ~ In v s.
  Proof. intros v s. rewrite <- mem_iff. destruct (mem dec v s); split; congruence || tauto. Qed.
  Lemma add_in : forall s v w, In w (add dec s v) <-> In w s \/ w = v.
  Proof.
    intros s v w. unfold add. destruct (mem dec v s) eqn:E; [apply mem_iff in E|]; cbn; split; intros K.
    - left. exact K.
    - destruct K as [K| ->]; [exact K|exact E].
    - destruct K as [K|K]; [right; symmetry; exact K|left; exact K].
    - destruct K as [K|K]; [right; exact K|left; symmetry; exact K].
  Qed.
  Lemma update_in : forall l s w, In w (update dec s l) <-> In w s \/ In w l.
  Proof. induction l as [|v l IH]; intros s w; cbn; [tauto|]. unfold update in IH. rewrite IH, add_in. split; intros K; repeat destruct K as [K|K]; subst; auto. Qed.

  (** one level *)
  Lemma level_ok : forall l seen next, (forall v, In v l -> In v nodes) -> exists out seen' next', level l seen next = (out, Ok (seen', next'))
    /\ NoDup out /\ (forall v, In v out <-> In v l /\ ~ In v seen) /\ (forall v, In v seen' <-> In v seen \/ In v l)
    /\ (forall w, In w next' <-> In w next \/ exists v, In v out /\ adj v w).
  Proof.
    induction l as [|v l IH]; intros seen next L.
    - exists [], seen, next. split; [reflexivity|]. split; [constructor|]. split; [intros v; split; [intros []|intros [[] _]]|]. split; [intros v; cbn; tauto|]. intros w. split; [auto|intros [K|(v & [] & _)]; exact K].
    - cbn [BfsModel.level]. assert (L' : forall w, In w l -> In w nodes) by (intros w I; apply L; right; exact I). destruct (mem dec v seen) eqn:E.
      + apply mem_iff in E. destruct (IH seen next L') as (out & s' & n' & H1 & H2 & H3 & H4 & H5). exists out, s', n'. split; [exact H1|]. split; [exact H2|]. split; [intros w; rewrite H3; cbn; split; [tauto|intros [[->|K] Q]; [contradiction|auto]]|]. split; [|exact H5]. intros w. rewrite H4. cbn. split; [tauto|intros [K|[->|K]]; auto].
      + apply mem_no in E. destruct (g_succ _ _ _ _ G v (L v (or_introl eq_refl))) as (a & Ea & Ia). destruct (g_pred _ _ _ _ G v (L v (or_introl eq_refl))) as (b & Eb & Ib). unfold get. rewrite Ea, Eb. destruct (IH (add dec seen v) (update dec (update dec next a) b) L') as (out & s' & n' & H1 & H2 & H3 & H4 & H5). rewrite H1. exists (v :: out), s', n'. split; [reflexivity|]. split; [constructor; [|exact H2]; rewrite H3, add_in; tauto|]. split; [|split].
        * intros w. cbn. rewrite H3, add_in. split; [intros [<-|[K Q]]; [auto|tauto]|]. intros [K Q]. destruct (dec v w) as [D|D]; [left; exact D|]. right. destruct K as [K|K]; [contradiction|]. split; [exact K|]. intros [Z|Z]; [exact (Q Z)|apply D; symmetry; exact Z].
        * intros w. rewrite H4, add_in. cbn. split; [intros [[K|K]|K]; subst; auto|intros [K|[K|K]]; subst; auto].
        * intros w. rewrite H5, !update_in, Ia, Ib. split.
          -- intros [[[K|K]|K]|(u & K & Q)]; [left; exact K|right; exists v; cbn; auto|right; exists v; cbn; auto|right; exists u; cbn; auto].
          -- intros [K|(u & [<-|K] & [Q|Q])]; auto; right; exists u; auto.
  Qed.

  Variable source : N.
  Hypothesis (Hs : In source nodes).
  Notation walk := (walk edge source).
  Notation within := (within edge source).
  Lemma walk_node : forall n v, walk n v -> In v nodes.
  Proof. intros n v W. destruct W as [|n b c _ [E|E]]; [exact Hs| |]; apply (g_edge _ _ _ _ G) in E; apply E. Qed.

  (** nearer than k *)
  Definition nearer (k : nat) (v : N) : Prop := exists m, m < k /\ walk m v.
  Definition sorted (l : list N) : Prop := forall l1 a l2 b l3, l = l1 ++ a :: l2 ++ b :: l3 -> forall n, within n b -> within n a.

  Lemma loop_ok : forall fuel k seen next, (forall v, In v seen <-> nearer k v) -> (forall v, In v next -> walk k v) -> (forall v, walk k v -> ~ nearer k v -> In v next)
      -> (exists s, NoDup s /\ (forall v, In v s <-> In v seen) /\ (length nodes + 2 <= length s + fuel \/ next = [] /\ 1 <= fuel))
      -> exists out, loop fuel k seen next = Some (out, None) /\ NoDup out /\ (forall v, In v out <-> connected edge source v /\ ~ nearer k v) /\ sorted out.
  Proof.
    induction fuel as [|fuel IH]; intros k seen next Hseen Hn1 Hn2 (s & Ns & Es & Hf).
    - assert (Ls : length s <= length nodes) by (apply NoDup_incl_length; [exact Ns|]; intros v I; apply Es, Hseen in I; destruct I as (m & _ & W); exact (walk_node m v W)). lia.
    - assert (Ls : length s <= length nodes) by (apply NoDup_incl_length; [exact Ns|]; intros v I; apply Es, Hseen in I; destruct I as (m & _ & W); exact (walk_node m v W)).
      cbn [BfsModel.loop]. destruct next as [|v0 next0].
      + exists []. split; [reflexivity|]. split; [constructor|]. split; [|intros l1 a l2 b l3 E; destruct l1; discriminate E]. intros v. split; [intros []|]. intros [(n & W) Q]. exfalso. apply Q.
        assert (K : forall n v, walk n v -> nearer k v).
        { clear n v W Q. intros n. induction n as [|n IHn]; intros v W.
          - destruct (in_dec dec v seen) as [I|I]; [apply Hseen; exact I|]. destruct k as [|k]; [exfalso; apply (Hn2 v W); intros (m & Lm & _); lia|]. exists 0. split; [lia|exact W].
          - inversion W as [|n' b c Wb A]; subst. destruct (IHn b Wb) as (m & Lm & Wm). destruct (Nat.eq_dec (S m) k) as [Ek|Ek].
            + destruct (in_dec dec v seen) as [I|I]; [apply Hseen; exact I|]. exfalso. apply (Hn2 v); [rewrite <- Ek; econstructor; [exact Wm|exact A]|]. intros Z. apply I, Hseen, Z.
            + exists (S m). split; [lia|]. econstructor; [exact Wm|exact A]. }
        exact (K n v W).
      + remember (v0 :: next0) as next eqn:Enx.
        assert (P : forall v, In v (order k next) <-> In v next) by (intros v; split; apply Permutation_in; [apply O|apply Permutation_sym, O]).
        destruct (level_ok (order k next) seen []) as (out & s' & n' & H1 & H2 & H3 & H4 & H5); [intros v I; apply P, Hn1 in I; exact (walk_node k v I)|]. rewrite H1.
        assert (Hseen' : forall v, In v s' <-> nearer (S k) v).
        { intros v. rewrite H4, P, Hseen. split.
          - intros [(m & L & W)|I]; [exists m; split; [lia|exact W]|]. exists k. split; [lia|exact (Hn1 v I)].
          - intros (m & L & W). destruct (in_dec dec v seen) as [I|I]; [left; apply Hseen; exact I|]. right. assert (Q : ~ nearer k v) by (intros Z; apply I, Hseen, Z). destruct (Nat.eq_dec m k) as [->|Ne]; [exact (Hn2 v W Q)|]. exfalso. apply Q. exists m. split; [lia|exact W]. }
        assert (Hout : forall v, In v out <-> walk k v /\ ~ nearer k v).
        { intros v. rewrite H3, P, Hseen. split; [intros [I Q]; split; [exact (Hn1 v I)|exact Q]|]. intros [W Q]. split; [exact (Hn2 v W Q)|exact Q]. }
        assert (Hm1 : forall v, In v n' -> walk (S k) v).
        { intros v I. apply H5 in I. destruct I as [[]|(u & I & A)]. apply Hout in I. econstructor; [apply I|exact A]. }
        assert (Hm2 : forall v, walk (S k) v -> ~ nearer (S k) v -> In v n').
        { intros v W Q. apply H5. right. inversion W as [|n b c Wb A]; subst. exists b. split; [|exact A]. apply Hout. split; [exact Wb|]. intros (m & L & Wm). apply Q. exists (S m). split; [lia|]. econstructor; [exact Wm|exact A]. }
        destruct (IH (S k) s' n' Hseen' Hm1 Hm2) as (rest & R1 & R2 & R3 & R4).
        { exists (s ++ out). split; [|split].
          - apply nodup_join; [exact Ns|exact H2|]. intros v I1 I2. apply Es in I1. apply H3 in I2. apply I2. exact I1.
          - intros v. rewrite in_app_iff, Es, H4, H3. destruct (in_dec dec v seen); tauto.
          - destruct Hf as [Hf|[Hf _]]; [|subst; discriminate Hf]. rewrite app_length. destruct out as [|o out]; [|left; cbn; lia]. right. split; [|lia]. destruct n' as [|w n']; [reflexivity|]. exfalso. destruct (proj1 (H5 w) (or_introl eq_refl)) as [[]|(u & [] & _)]. }
        rewrite R1. exists (out ++ rest). split; [reflexivity|]. split; [|split].
        * apply nodup_join; [exact H2|exact R2|]. intros v I1 I2. apply Hout in I1. apply R3 in I2. apply I2. exists k. split; [lia|apply I1].
        * intros v. rewrite in_app_iff, R3, Hout. split.
          -- intros [[W Q]|[C Q]]; [split; [exists k; exact W|exact Q]|]. split; [exact C|]. intros (m & L & W). apply Q. exists m. split; [lia|exact W].
          -- intros [C Q]. destruct (in_dec dec v s') as [I|I].
             ++ left. apply Hseen' in I. destruct I as (m & L & W). assert (m = k) by (destruct (Nat.eq_dec m k) as [E|E]; [exact E|]; exfalso; apply Q; exists m; split; [lia|exact W]). subst. auto.
             ++ right. split; [exact C|]. intros Z. apply I, Hseen', Z.
        * intros l1 a l2 b l3 E n Wn. destruct (in_dec dec a out) as [Ia|Ia].
          -- apply Hout in Ia. assert (Ib : ~ nearer k b).
             { assert (I : In b (out ++ rest)) by (rewrite E; apply in_or_app; right; right; apply in_or_app; right; left; reflexivity). apply in_app_iff in I. destruct I as [I|I]; [apply Hout in I; apply I|]. apply R3 in I. intros (m & L & W). apply I. exists m. split; [lia|exact W]. }
             exists k. split; [|apply Ia]. destruct Wn as (m & Lm & W). destruct (le_lt_dec k m) as [D|D]; [lia|]. exfalso. apply Ib. exists m. auto.
          -- (* then both are in the rest *)
             assert (X : exists l0, l1 = out ++ l0).
             { clear - E Ia. revert l1 E. induction out as [|o out IHo]; intros l1 E; [exists l1; reflexivity|]. destruct l1 as [|c l1]; cbn in E; [injection E as -> _; exfalso; apply Ia; left; reflexivity|]. injection E as -> E. destruct (IHo ltac:(intros K; apply Ia; right; exact K) l1 E) as (l0 & ->). exists l0. reflexivity. }
             destruct X as (l0 & ->). rewrite <- app_assoc in E. apply app_inv_head in E. exact (R4 l0 a l2 b l3 E n Wn).
  Qed.
End Facts.

(** From a node of the graph the search yields the nodes connected to it, each once, the nearer
    ones first, whatever the order of the sets. *)
Theorem C131_exact : forall N dec (nodes : list N) edge succ pred order source fuel, graph_ok nodes edge succ pred -> orders order -> In source nodes -> length nodes + 2 <= fuel
  -> exists out, plain_bfs dec succ pred order fuel source = Some (out, None) /\ NoDup out /\ (forall v, In v out <-> connected edge source v)
     /\ forall l1 a l2 b l3, out = l1 ++ a :: l2 ++ b :: l3 -> forall n, within edge source n b -> within edge source n a.
Proof.
  intros N dec nodes edge succ pred order source fuel G O I F. destruct (loop_ok dec nodes edge succ pred order G O source I fuel 0 [] [source]) as (out & H1 & H2 & H3 & H4).
  - intros v. split; [intros []|intros (m & L & _); lia].
  - intros v [<-|[]]. constructor.
  - intros v W _. inversion W; subst. left. reflexivity.
  - exists []. split; [constructor|]. split; [tauto|]. cbn. left. lia.
  - exists out. split; [exact H1|]. split; [exact H2|]. split; [|exact H4]. intros v. rewrite H3. split; [tauto|]. intros C. split; [exact C|]. intros (m & L & _). lia.
Qed.
Print Assumptions C131_exact.
(** The source is yielded even if it is not in the graph, before the exception. *)
Theorem C131_missing : forall N dec (nodes : list N) edge succ pred order source fuel, graph_ok nodes edge succ pred -> orders order -> ~ In source nodes -> plain_bfs dec succ pred order (S fuel) source = Some ([source], Some KeyError).
Proof.
  intros N dec nodes edge succ pred order source fuel G O I. unfold plain_bfs. cbn [loop]. rewrite (Permutation_length_1_inv (Permutation_sym (O 0 [source]))). cbn [level]. unfold mem, get. cbn. rewrite (g_out _ _ _ _ G source I). reflexivity.
Qed.
Print Assumptions C131_missing.

(** 1 -> 0 -> 2 -> 3, 4 apart *)
Definition bfs_edge (a b : nat) : Prop := (a = 1 /\ b = 0) \/ (a = 0 /\ b = 2) \/ (a = 2 /\ b = 3).
Definition bfs_succ (v : nat) : option (list nat) := match v with 0 => Some [2] | 1 => Some [0] | 2 => Some [3] | 3 | 4 => Some [] | _ => None end.
Definition bfs_pred (v : nat) : option (list nat) := match v with 0 => Some [1] | 2 => Some [0] | 3 => Some [2] | 1 | 4 => Some [] | _ => None end.
Lemma bfs_graph : graph_ok [0; 1; 2; 3; 4] bfs_edge bfs_succ bfs_pred.
Proof.
  split; unfold bfs_edge.
  - intros v I. cbn in I. repeat (destruct I as [<-|I]); [..|contradiction]; cbn; eexists; (split; [reflexivity|]); intros w; cbn; lia.
  - intros v I. cbn in I. repeat (destruct I as [<-|I]); [..|contradiction]; cbn; eexists; (split; [reflexivity|]); intros w; cbn; lia.
  - intros v I. cbn in I. do 5 (destruct v as [|v]; [exfalso; apply I; tauto|]). reflexivity.
  - cbn. lia.
Qed.
Example C131_ex : graph_ok [0; 1; 2; 3; 4] bfs_edge bfs_succ bfs_pred /\ orders (fun k (l : list nat) => if k =? 1 then rev l else l)
  /\ plain_bfs Nat.eq_dec bfs_succ bfs_pred (fun k l => if k =? 1 then rev l else l) 7 0 = Some ([0; 2; 1; 3], None)
  /\ plain_bfs Nat.eq_dec bfs_succ bfs_pred (fun _ l => l) 7 0 = Some ([0; 1; 2; 3], None)
  /\ plain_bfs Nat.eq_dec bfs_succ bfs_pred (fun _ l => l) 7 9 = Some ([9], Some KeyError).
Proof.
  split; [exact bfs_graph|]. split; [intros k l; destruct (k =? 1); [apply Permutation_sym, Permutation_rev|apply Permutation_refl]|]. vm_compute. repeat split.
Qed.

(** Lemmas about the design of experiments over local processes. *)
From Coq Require Import Permutation.
From Verif Require Import Base PermSolve EvalSpec EvalProofs BalProofs MpModel.
Local Open Scope nat_scope.

Section Mp.
  Variables C V : Type.
  Variable ev : nat * C -> outcome V -> Prop.
  Notation worker := (worker C).
  Notation st := (st C V).
  Notation task := (nat * C)%type.
  Variable cs : list C.
  Variable n : nat.
  Hypothesis npos : 1 <= n.
  (** no worker dies, and none refuses further cases *)
  Hypothesis total : forall t, exists o, ev t o.
  Hypothesis no_crash : forall t, ~ ev t Crash.
  Hypothesis no_set : forall t, ~ ev t (Fatal true).

  Definition somes (l : list (option task)) : list task := flat_map (fun o => match o with Some a => [a] | None => [] end) l.
  Lemma somes_app : forall a b, somes (a ++ b) = somes a ++ somes b. Proof. intros. apply flat_map_app. Qed.
  Lemma somes_some : forall l, somes (map Some l) = l.
  Proof. induction l as [|x l IH]; [reflexivity|]. unfold somes in *. cbn. rewrite IH. reflexivity. Qed.
  Lemma somes_none : forall m, somes (repeat None m) = [].
  Proof. induction m as [|m IH]; [reflexivity|exact IH]. Qed.
  Definition busy1 (w : worker) : list task := match wst w with Busy t => [t] | _ => [] end.
  Definition busy (l : list worker) : list task := flat_map busy1 l.
  Lemma busy_mid : forall a w b, busy (a ++ w :: b) = busy a ++ busy1 w ++ busy b.
  Proof. intros. unfold busy. rewrite flat_map_app. reflexivity. Qed.
  Definition exited1 (w : worker) : nat := match wst w with Exited => 1 | _ => 0 end.
  Definition exited (l : list worker) : nat := list_sum (map exited1 l).
  Lemma exited_mid : forall a w b, exited (a ++ w :: b) = exited a + exited1 w + exited b.
  Proof. intros. apply sum_app_mid. Qed.
  Definition pending (s : st) : nat := length (responses s) + length (busy (ws s)) + length (somes (tasks s)).
  Definition shape (s : st) : Prop := exists l m, tasks s = map Some l ++ repeat None m /\ m + exited (ws s) = n /\ (l <> [] -> m = n).
  Definition fatal_seen (s : st) : Prop := exists t b, In (t, Fatal b) (fin s).
  Definition phase (s : st) : Prop :=
    match pc s with
    | Start => False
    | Loop => (exists l, tasks s = map Some l) /\ exited (ws s) = 0 /\ num_active s = n /\ n = pending s
    | Drain k => shape s /\ k = pending s /\ (left s <> [] -> fatal_seen s)
    | Join => shape s /\ pending s = 0 /\ (left s <> [] -> fatal_seen s)
    | Returned => shape s /\ pending s = 0 /\ (left s <> [] -> fatal_seen s) /\ Forall (fun w => wst w = Exited) (ws s)
    end.
  Record core (s : st) : Prop := {
    k_cases : Permutation (number 0 cs) (map fst (fin s) ++ map fst (responses s) ++ busy (ws s) ++ somes (tasks s) ++ number (iter_count s) (left s));
    k_runs : Permutation (runs s) (fin s ++ responses s);
    k_ev : Forall (fun e => ev (fst e) (snd e)) (runs s);
    k_rec : recorded s = flat_map (fun e => record (fst e) (snd e)) (fin s);
    k_len : length (ws s) = n;
    k_term : Forall (fun w => wterm w = false) (ws s) }.
  Definition inv (s : st) : Prop := s = init cs n \/ (core s /\ phase s).

  Lemma number_app : forall (a b : list C) k, number k (a ++ b) = number k a ++ number (k + length a) b.
  Proof.
    induction a as [|x a IH]; intros b k; [cbn; rewrite Nat.add_0_r; reflexivity|]. change (number k ((x :: a) ++ b)) with ((k, x) :: number (S k) (a ++ b)). rewrite IH. cbn [length]. replace (S k + length a) with (k + S (length a)) by lia. reflexivity.
  Qed.
  Lemma number_len : forall (l : list C) k, length (number k l) = length l.
  Proof. intros l k. unfold number. rewrite combine_length, seq_length. lia. Qed.
  Lemma idle_facts : busy (repeat (mkW false Idle) n) = [] /\ exited (repeat (mkW false Idle) n) = 0.
  Proof. clear. induction n as [|m [IH1 IH2]]; [split; reflexivity|]. unfold busy, exited, list_sum in *. cbn. auto. Qed.

  Lemma stop_inv : forall s, core s -> pc s = Loop -> (exists l, tasks s = map Some l) -> exited (ws s) = 0 -> num_active s = pending s -> (left s <> [] -> fatal_seen s) -> inv (stop s).
  Proof.
    intros s [K1 K2 K3 K4 K5 K6] P (l & T) X N F. right. destruct s as [p lf it na ts rs rec w fn rn]. cbn [pc tasks ws] in P, T, X. subst p ts. cbn [EvalModel.left fin responses ws tasks left iter_count runs recorded num_active] in *. unfold pending in N. cbn [fin responses ws tasks left iter_count runs recorded num_active] in N.
    assert (E : somes (map Some l ++ repeat None (length w)) = somes (map Some l)) by (rewrite somes_app, somes_none, app_nil_r; reflexivity).
    split.
    - constructor; cbn [stop fin responses ws tasks left iter_count runs recorded]; try assumption. rewrite E. exact K1.
    - unfold phase. cbn [stop pc]. split; [|split; [|exact F]].
      + exists l, (length w). cbn [stop tasks ws]. split; [reflexivity|]. split; [lia|]. intros _. exact K5.
      + unfold pending. cbn [stop fin responses ws tasks num_active]. rewrite E. exact N.
  Qed.
  Lemma start_inv : inv (start (init cs n)).
  Proof.
    unfold start. cbn [init ws left]. rewrite repeat_length. destruct idle_facts as [B X].
    set (s' := mkSt Loop (skipn n cs) (length (firstn n cs)) (length (firstn n cs)) (map Some (number 0 (firstn n cs))) [] [] (repeat (mkW false Idle) n) [] []).
    assert (K : core s').
    { constructor; cbn [s' fin responses ws tasks left iter_count runs recorded].
      - rewrite B, somes_some. cbn [map app]. rewrite <- (firstn_skipn n cs) at 1. rewrite number_app. reflexivity.
      - constructor.
      - constructor.
      - reflexivity.
      - apply repeat_length.
      - apply Forall_forall. intros w Hw. apply repeat_spec in Hw. subst. reflexivity. }
    assert (PE : pending s' = length (firstn n cs)) by (unfold pending; cbn [s' responses ws tasks]; rewrite B, somes_some, number_len; reflexivity).
    destruct (length cs <? n) eqn:E.
    - apply Nat.ltb_lt in E. apply stop_inv; [exact K|reflexivity|eexists; reflexivity|exact X|cbn [s' num_active]; congruence|]. intros NL. exfalso. apply NL. cbn. apply skipn_all2. lia.
    - apply Nat.ltb_ge in E. right. split; [exact K|]. unfold phase. cbn [pc s']. fold s'. assert (L : length (firstn n cs) = n) by (apply firstn_length_le; exact E). split; [eexists; reflexivity|]. split; [exact X|]. split; [exact L|]. congruence.
  Qed.
  Lemma get_inv : forall l it na ts r1 t o r2 rec w fn rn, 0 < na -> inv (mkSt Loop l it na ts (r1 ++ (t, o) :: r2) rec w fn rn) -> inv (get_one (mkSt Loop l it na ts (r1 ++ (t, o) :: r2) rec w fn rn) r1 t o r2).
  Proof.
    intros l it na ts r1 t o r2 rec w fn rn NA [I|([K1 K2 K3 K4 K5 K6] & P)]; [discriminate|]. unfold phase in P. cbn [pc] in P. destruct P as (T & X & N & M). unfold pending in M. cbn [fin responses ws tasks left iter_count runs recorded num_active] in *. rewrite app_length in M. cbn [length] in M.
    assert (R : rec ++ record t o = flat_map (fun e => record (fst e) (snd e)) (fn ++ [(t, o)])) by (rewrite flat_map_app, K4; cbn; rewrite app_nil_r; reflexivity).
    set (s' := mkSt Loop l it (na - 1) ts (r1 ++ r2) (rec ++ record t o) w (fn ++ [(t, o)]) rn).
    assert (K : core s').
    { constructor; cbn [s' fin responses ws tasks left iter_count runs recorded]; try assumption.
      - rewrite K1, !map_app. cbn [map fst]. perm.
      - rewrite K2. perm. }
    assert (ST : (left s' <> [] -> fatal_seen s') -> inv (stop s')).
    { intros F. apply stop_inv; [exact K|reflexivity|exact T|exact X| |exact F]. unfold pending. cbn [s' fin responses ws tasks num_active]. rewrite app_length. lia. }
    assert (OEV : ev t o). { rewrite Forall_forall in K3. apply (K3 (t, o)). rewrite K2. apply in_or_app. right. apply in_or_app. right. left. reflexivity. }
    unfold get_one. cbn [fin responses ws tasks left iter_count runs recorded num_active]. fold s'. destruct o as [v|b|].
    - destruct l as [|c l]; [apply ST; intros NL; exfalso; apply NL; reflexivity|]. right. split.
      + constructor; cbn [fin responses ws tasks left iter_count runs recorded]; try assumption.
        * rewrite K1, !map_app, somes_app. cbn [map fst somes flat_map]. change (number it (c :: l)) with ((it, c) :: number (S it) l). perm.
        * rewrite K2. perm.
      + unfold phase. cbn [pc]. unfold pending. cbn [fin responses ws tasks left iter_count num_active]. destruct T as (l0 & ->). split; [exists (l0 ++ [(it, c)]); rewrite map_app; reflexivity|]. split; [exact X|]. split; [lia|]. rewrite somes_app, !app_length. cbn [somes flat_map length app]. lia.
    - assert (G : inv (stop s')) by (apply ST; intros _; exists t, b; cbn; apply in_or_app; right; left; reflexivity). destruct l; exact G.
    - exfalso. exact (no_crash t OEV).
  Qed.

  (** moves of workers *)
  Lemma exited_le : forall w : list worker, exited w <= length w.
  Proof. induction w as [|x w IH]; [cbn; lia|]. change (exited (x :: w)) with (exited1 x + exited w). unfold exited1. cbn [length]. destruct (wst x); lia. Qed.
  Lemma exited_all : forall w : list worker, exited w = length w -> Forall (fun w => wst w = Exited) w.
  Proof.
    induction w as [|x w IH]; intros H; [constructor|]. change (exited (x :: w)) with (exited1 x + exited w) in H. pose proof (exited_le w). unfold exited1 in H. cbn [length] in H. constructor; [destruct (wst x); [lia|lia|reflexivity]|]. apply IH. destruct (wst x); lia.
  Qed.
  Lemma step_inv : forall s t, inv s -> step ev s t -> inv t.
  Proof.
    intros s t I ST. destruct ST.
    - destruct I as [E|(_ & [])]. rewrite E. exact start_inv.
    - apply get_inv; assumption.
    - destruct I as [E|(K & P)]; [discriminate|]. unfold phase in P. cbn in P. lia.
    - (* drain *)
      destruct I as [E|([K1 K2 K3 K4 K5 K6] & P)]; [discriminate|]. unfold phase in P. cbn [MpModel.pc] in P. destruct P as (S1 & S2 & S3). unfold pending in S2. cbn [MpModel.fin MpModel.responses MpModel.ws MpModel.tasks MpModel.left MpModel.iter_count MpModel.runs MpModel.recorded MpModel.num_active] in *. rewrite app_length in S2. cbn [length] in S2. right. split.
      + constructor; cbn [MpModel.fin MpModel.responses MpModel.ws MpModel.tasks MpModel.left MpModel.iter_count MpModel.runs MpModel.recorded MpModel.num_active]; try assumption.
        * rewrite K1, !map_app. cbn [map fst]. perm.
        * rewrite K2. perm.
        * rewrite flat_map_app, K4. cbn. rewrite app_nil_r. reflexivity.
      + unfold phase. cbn [MpModel.pc]. split; [exact S1|]. split; [unfold pending; cbn [MpModel.responses MpModel.ws MpModel.tasks]; rewrite app_length; lia|]. intros NL. destruct (S3 NL) as (t0 & b & F). exists t0, b. cbn in *. apply in_or_app. left. exact F.
    - (* drained *)
      destruct I as [E|([K1 K2 K3 K4 K5 K6] & P)]; [discriminate|]. unfold phase in P. cbn [MpModel.pc] in P. destruct P as (S1 & S2 & S3). right. split; [constructor; assumption|]. unfold phase. cbn [MpModel.pc]. split; [exact S1|]. split; [symmetry; exact S2|exact S3].
    - destruct I as [E|([K1 K2 K3 K4 K5 K6] & P)]; [discriminate|]. unfold phase in P. cbn [MpModel.pc] in P. destruct P as (S1 & S2 & S3). right. split; [constructor; assumption|]. unfold phase. cbn [MpModel.pc]. split; [exact S1|]. split; [exact S2|]. split; [exact S3|exact H].
    - (* take *)
      destruct I as [E|([K1 K2 K3 K4 K5 K6] & P)]; [injection E; intros; discriminate|]. cbn [MpModel.fin MpModel.responses MpModel.ws MpModel.tasks MpModel.left MpModel.iter_count MpModel.runs MpModel.recorded MpModel.num_active] in *.
      assert (B : b = false) by (apply Forall_app in K6; destruct K6 as [_ K6]; exact (Forall_inv K6)). subst b.
      assert (PE : forall pcx, pending (mkSt pcx l it na ts rs rec (pre ++ mkW false (Busy t) :: post) fin rn) = pending (mkSt pcx l it na (Some t :: ts) rs rec (pre ++ mkW false Idle :: post) fin rn)) by (intros; unfold pending; cbn [MpModel.responses MpModel.ws MpModel.tasks]; rewrite !busy_mid; change (somes (Some t :: ts)) with (t :: somes ts); cbn [busy1 wst app length]; rewrite !app_length; cbn [length]; lia).
      assert (EX : exited (pre ++ mkW false (Busy t) :: post) = exited (pre ++ mkW false Idle :: post)) by (rewrite !exited_mid; reflexivity).
      assert (SH : forall pcx, shape (mkSt pcx l it na (Some t :: ts) rs rec (pre ++ mkW false Idle :: post) fin rn) -> shape (mkSt pcx l it na ts rs rec (pre ++ mkW false (Busy t) :: post) fin rn)).
      { intros pcx (l0 & m & T & M & L). cbn [MpModel.tasks MpModel.ws] in *. destruct l0 as [|x l0]; [destruct m; discriminate|]. cbn in T. injection T as <- ->. exists l0, m. cbn [MpModel.tasks MpModel.ws]. rewrite EX. split; [reflexivity|]. split; [exact M|]. intros _. apply L. discriminate. }
      right. split.
      + constructor; cbn [MpModel.fin MpModel.responses MpModel.ws MpModel.tasks MpModel.left MpModel.iter_count MpModel.runs MpModel.recorded MpModel.num_active]; try assumption.
        * rewrite K1, !busy_mid. change (somes (Some t :: ts)) with (t :: somes ts). cbn [busy1 wst app]. perm.
        * rewrite <- K5, !app_length. reflexivity.
        * apply Forall_app in K6. destruct K6 as [K6 K7]. apply Forall_app. split; [exact K6|]. constructor; [reflexivity|exact (Forall_inv_tail K7)].
      + unfold phase in *. cbn [MpModel.pc MpModel.left MpModel.num_active MpModel.ws MpModel.tasks] in *. destruct pc; rewrite ?PE, ?EX.
        * destruct P.
        * destruct P as ((l0 & T) & P2 & P3). destruct l0 as [|x l0]; [discriminate|]. cbn in T. injection T as <- ->. split; [exists l0; reflexivity|]. auto.
        * destruct P as (S1 & S2 & S3). split; [apply SH; exact S1|]. auto.
        * destruct P as (S1 & S2 & S3). split; [apply SH; exact S1|]. auto.
        * destruct P as (_ & _ & _ & F). exfalso. apply Forall_app in F. destruct F as [_ F]. apply Forall_inv in F. discriminate.
    - (* exit *)
      destruct I as [E|([K1 K2 K3 K4 K5 K6] & P)]; [injection E; intros; discriminate|]. cbn [MpModel.fin MpModel.responses MpModel.ws MpModel.tasks MpModel.left MpModel.iter_count MpModel.runs MpModel.recorded MpModel.num_active] in *.
      assert (PE : forall pcx, pending (mkSt pcx l it na ts rs rec (pre ++ mkW b Exited :: post) fin rn) = pending (mkSt pcx l it na (None :: ts) rs rec (pre ++ mkW b Idle :: post) fin rn)) by (intros; unfold pending; cbn [MpModel.responses MpModel.ws MpModel.tasks]; rewrite !busy_mid; reflexivity).
      assert (EX : exited (pre ++ mkW b Exited :: post) = S (exited (pre ++ mkW b Idle :: post))) by (rewrite !exited_mid; cbn [exited1 wst]; lia).
      assert (SH : forall pcx, shape (mkSt pcx l it na (None :: ts) rs rec (pre ++ mkW b Idle :: post) fin rn) -> shape (mkSt pcx l it na ts rs rec (pre ++ mkW b Exited :: post) fin rn)).
      { intros pcx (l0 & m & T & M & L). cbn [MpModel.tasks MpModel.ws] in *. destruct l0 as [|x l0]; [|discriminate]. destruct m as [|m]; [discriminate|]. cbn in T. injection T as ->. exists [], m. cbn [MpModel.tasks MpModel.ws]. split; [reflexivity|]. split; [lia|]. congruence. }
      right. split.
      + constructor; cbn [MpModel.fin MpModel.responses MpModel.ws MpModel.tasks MpModel.left MpModel.iter_count MpModel.runs MpModel.recorded MpModel.num_active]; try assumption.
        * rewrite !busy_mid in *. exact K1.
        * rewrite <- K5, !app_length. reflexivity.
        * apply Forall_app in K6. destruct K6 as [K6 K7]. apply Forall_app. split; [exact K6|]. constructor; [exact (Forall_inv K7)|exact (Forall_inv_tail K7)].
      + unfold phase in *. cbn [MpModel.pc MpModel.left MpModel.num_active MpModel.ws MpModel.tasks] in *. destruct pc; rewrite ?PE.
        * destruct P.
        * destruct P as ((l0 & T) & P2 & P3). destruct l0; discriminate.
        * destruct P as (S1 & S2 & S3). split; [apply SH; exact S1|]. auto.
        * destruct P as (S1 & S2 & S3). split; [apply SH; exact S1|]. auto.
        * destruct P as (_ & _ & _ & F). exfalso. apply Forall_app in F. destruct F as [_ F]. apply Forall_inv in F. discriminate.
    - (* run *)
      destruct I as [E|([K1 K2 K3 K4 K5 K6] & P)]; [apply (f_equal (fun s => busy (MpModel.ws s))) in E; cbn [MpModel.ws init] in E; rewrite (proj1 idle_facts), busy_mid in E; apply app_eq_nil in E; destruct E as [_ E]; discriminate|]. cbn [MpModel.fin MpModel.responses MpModel.ws MpModel.tasks MpModel.left MpModel.iter_count MpModel.runs MpModel.recorded MpModel.num_active] in *.
      set (b' := match o with Fatal set => set | _ => false end). assert (B : b' = false) by (destruct o as [|[]|]; [reflexivity|exfalso; exact (no_set _ H)|reflexivity|reflexivity]).
      assert (PE : forall pcx, pending (mkSt pcx l it na ts (rs ++ [(t, o)]) rec (pre ++ mkW b' Idle :: post) fin (rn ++ [(t, o)])) = pending (mkSt pcx l it na ts rs rec (pre ++ mkW b (Busy t) :: post) fin rn)) by (intros; unfold pending; cbn [MpModel.responses MpModel.ws MpModel.tasks]; rewrite !busy_mid; cbn [busy1 wst app length]; rewrite !app_length; cbn [length]; lia).
      assert (EX : exited (pre ++ mkW b' Idle :: post) = exited (pre ++ mkW b (Busy t) :: post)) by (rewrite !exited_mid; reflexivity).
      assert (SH : forall pcx, shape (mkSt pcx l it na ts rs rec (pre ++ mkW b (Busy t) :: post) fin rn) -> shape (mkSt pcx l it na ts (rs ++ [(t, o)]) rec (pre ++ mkW b' Idle :: post) fin (rn ++ [(t, o)]))).
      { intros pcx (l0 & m & T & M & L). exists l0, m. cbn [MpModel.tasks MpModel.ws] in *. rewrite EX. auto. }
      right. split.
      + constructor; cbn [MpModel.fin MpModel.responses MpModel.ws MpModel.tasks MpModel.left MpModel.iter_count MpModel.runs MpModel.recorded MpModel.num_active]; try assumption.
        * rewrite K1, !busy_mid, !map_app. cbn [busy1 wst app map fst]. perm.
        * rewrite K2. perm.
        * apply Forall_app. split; [exact K3|]. constructor; [exact H|constructor].
        * rewrite <- K5, !app_length. reflexivity.
        * apply Forall_app in K6. destruct K6 as [K6 K7]. apply Forall_app. split; [exact K6|]. constructor; [exact B|exact (Forall_inv_tail K7)].
      + unfold phase in *. cbn [MpModel.pc MpModel.left MpModel.num_active MpModel.ws MpModel.tasks] in *. destruct pc; rewrite ?PE, ?EX.
        * destruct P.
        * exact P.
        * destruct P as (S1 & S2 & S3). split; [apply SH; exact S1|]. auto.
        * destruct P as (S1 & S2 & S3). split; [apply SH; exact S1|]. auto.
        * destruct P as (_ & _ & _ & F). exfalso. apply Forall_app in F. destruct F as [_ F]. apply Forall_inv in F. discriminate.
    - exfalso. exact (no_crash _ H).
  Qed.

  (** ** termination *)
  Definition tm (o : option task) : nat := match o with Some _ => 4 | None => 1 end.
  Definition wm (w : worker) : nat := match wst w with Busy _ => 3 | _ => 0 end.
  Definition measure (s : st) : nat :=
    6 * length (left s) + list_sum (map tm (tasks s)) + list_sum (map wm (ws s)) + 2 * length (responses s) +
    match pc s with Start => length (ws s) + 5 | Loop => length (ws s) + 4 | Drain _ => 2 | Join => 1 | Returned => 0 end.
  Lemma tm_none : forall k, list_sum (map tm (repeat None k)) = k.
  Proof. induction k as [|k IH]; [reflexivity|]. cbn [repeat map]. change (1 + list_sum (map tm (repeat None k)) = S k). lia. Qed.
  Lemma tm_some : forall l, list_sum (map tm (map Some l)) = 4 * length l.
  Proof. induction l as [|x l IH]; [reflexivity|]. cbn [map length]. change (4 + list_sum (map tm (map Some l)) = 4 * S (length l)). lia. Qed.
  Lemma stop_measure : forall s, pc s = Loop -> measure (stop s) + 2 <= measure s.
  Proof. intros s P. unfold measure. rewrite P. cbn [stop left tasks ws responses pc]. rewrite map_app, list_sum_app, tm_none. lia. Qed.
  Lemma measure_step : forall s t, inv s -> step ev s t -> measure t < measure s.
  Proof.
    intros s t I ST. destruct ST.
    - destruct I as [E|(_ & [])]. rewrite E. unfold start. cbn [init MpModel.ws MpModel.left]. rewrite repeat_length.
      set (s' := mkSt Loop (skipn n cs) (length (firstn n cs)) (length (firstn n cs)) (map Some (number 0 (firstn n cs))) [] [] (repeat (mkW false Idle) n) [] []).
      assert (M : measure s' < measure (init cs n)).
      { unfold measure. cbn [s' init MpModel.left MpModel.tasks MpModel.ws MpModel.responses MpModel.pc]. rewrite tm_some, number_len. pose proof (firstn_skipn n cs) as E1. apply (f_equal (@length C)) in E1. rewrite app_length in E1. cbn [length map]. change (list_sum []) with 0. lia. }
      destruct (length cs <? n); [|exact M]. pose proof (stop_measure s' eq_refl). lia.
    - unfold get_one. cbn [MpModel.fin MpModel.responses MpModel.ws MpModel.tasks MpModel.left MpModel.iter_count MpModel.runs MpModel.recorded MpModel.num_active]. set (s' := mkSt Loop l it (na - 1) ts (r1 ++ r2) (rec ++ record t o) ws (fin ++ [(t, o)]) rn).
      assert (M : measure s' < measure (mkSt Loop l it na ts (r1 ++ (t, o) :: r2) rec ws fin rn)) by (unfold measure; cbn [s' MpModel.left MpModel.tasks MpModel.ws MpModel.responses MpModel.pc]; rewrite !app_length; cbn [length]; lia).
      pose proof (stop_measure s' eq_refl). destruct o as [v|b|]; destruct l as [|c l]; try lia. unfold measure. cbn [MpModel.left MpModel.tasks MpModel.ws MpModel.responses MpModel.pc]. rewrite map_app, list_sum_app, !app_length. cbn [map length]. change (list_sum [tm (Some (it, c))]) with 4. lia.
    - pose proof (stop_measure (mkSt Loop l it 0 ts rs rec ws fin rn) eq_refl). lia.
    - unfold measure. cbn [MpModel.left MpModel.tasks MpModel.ws MpModel.responses MpModel.pc]. rewrite !app_length. cbn [length]. lia.
    - unfold measure. cbn [MpModel.left MpModel.tasks MpModel.ws MpModel.responses MpModel.pc]. lia.
    - unfold measure. cbn [MpModel.left MpModel.tasks MpModel.ws MpModel.responses MpModel.pc]. lia.
    - unfold measure. cbn [MpModel.left MpModel.tasks MpModel.ws MpModel.responses MpModel.pc]. rewrite !sum_app_mid, !app_length. cbn [length map]. change (list_sum (tm (Some t) :: map tm ts)) with (4 + list_sum (map tm ts)). cbn [wm wst]. unfold wm at 2. cbn [wst]. destruct b; lia.
    - unfold measure. cbn [MpModel.left MpModel.tasks MpModel.ws MpModel.responses MpModel.pc]. rewrite !sum_app_mid, !app_length. cbn [length map]. change (list_sum (tm None :: map tm ts)) with (1 + list_sum (map tm ts)). cbn [wm wst]. lia.
    - unfold measure. cbn [MpModel.left MpModel.tasks MpModel.ws MpModel.responses MpModel.pc]. rewrite !sum_app_mid, !app_length. cbn [length map]. change (wm (mkW b (Busy t))) with 3. cbn [wm wst]. lia.
    - exfalso. exact (no_crash _ H).
  Qed.

  (** ** progress *)
  Lemma pend_cases : forall s, inv s -> 0 < pending s -> (exists t, step ev s t) \/ (exists r1 t o r2, responses s = r1 ++ (t, o) :: r2).
  Proof.
    intros s I P. destruct s as [p l it na ts rs rec w fn rn]. cbn [responses]. destruct rs as [|[t o] rs]; [|right; exists [], t, o, rs; reflexivity]. left.
    destruct I as [E|(K & PH)]; [rewrite E; eexists; apply s_start|]. unfold pending in P. cbn [responses ws tasks length] in P.
    destruct (busy w) as [|t b] eqn:B.
    - (* a task is waiting *)
      cbn [length] in P. destruct K as [K1 K2 K3 K4 K5 K6]. cbn [ws] in K5.
      assert (ID : exited w = 0 -> exists t, somes ts <> [] -> step ev (mkSt p l it na ts [] rec w fn rn) t \/ (exists q, ts = None :: q)).
      { intros X. destruct w as [|[b wp] w]; [cbn in K5; lia|]. change (busy (mkW b wp :: w)) with (busy1 (mkW b wp) ++ busy w) in B. apply app_eq_nil in B. destruct B as [B _]. change (exited (mkW b wp :: w)) with (exited1 (mkW b wp) + exited w) in X. destruct wp as [|t|]; [|discriminate|cbn in X; lia].
        destruct ts as [|[t|] ts]; [exists (mkSt p l it na [] [] rec (mkW b Idle :: w) fn rn); intros N; exfalso; apply N; reflexivity| |exists (mkSt p l it na [] [] rec (mkW b Idle :: w) fn rn); intros _; right; eexists; reflexivity].
        eexists. intros _. left. apply (s_take _ _ _ _ _ _ _ _ _ _ _ []). }
      assert (NE : somes ts <> []) by (intros E; rewrite E in P; cbn in P; lia).
      assert (HD : (exists l0 m, ts = map Some l0 ++ repeat None m) -> forall q, ts <> None :: q).
      { intros (l0 & m & E) q Q. rewrite E in NE. destruct l0 as [|x l0]; [cbn in NE; rewrite somes_none in NE; apply NE; reflexivity|]. rewrite Q in E. discriminate. }
      unfold phase in PH. cbn [pc ws tasks] in PH.
      assert (DONE : exited w = 0 -> (exists l0 m, ts = map Some l0 ++ repeat None m) -> exists t, step ev (mkSt p l it na ts [] rec w fn rn) t).
      { intros X H. destruct (ID X) as (t & Ht). destruct (Ht NE) as [S|(q & Q)]; [exists t; exact S|]. exfalso. exact (HD H q Q). }
      assert (SHP : shape (mkSt p l it na ts [] rec w fn rn) -> exited w = 0 /\ exists l0 m, ts = map Some l0 ++ repeat None m).
      { intros (l0 & m & T & M & L). cbn [tasks ws] in *. split; [|exists l0, m; exact T]. destruct l0 as [|x l0]; [exfalso; apply NE; rewrite T; cbn; apply somes_none|]. specialize (L ltac:(discriminate)). lia. }
      destruct p.
      + destruct PH.
      + destruct PH as ((l0 & T) & X & _). apply DONE; [exact X|]. exists l0, 0. cbn. rewrite app_nil_r. exact T.
      + destruct PH as (S1 & _). destruct (SHP S1) as [X H]. apply DONE; assumption.
      + destruct PH as (_ & S2 & _). unfold pending in S2. cbn [responses ws tasks length] in S2. rewrite B in S2. cbn in S2. lia.
      + destruct PH as (_ & S2 & _). unfold pending in S2. cbn [responses ws tasks length] in S2. rewrite B in S2. cbn in S2. lia.
    - assert (H : In t (busy w)) by (rewrite B; left; reflexivity). unfold busy in H. apply in_flat_map in H. destruct H as ([b0 wp] & H1 & H2). unfold busy1 in H2. cbn in H2. destruct wp as [|t'|]; [destruct H2| |destruct H2]. destruct H2 as [H2|[]]. subst t'.
      apply in_split in H1. destruct H1 as (pre & post & ->). destruct (total t) as (o & O). eexists. apply s_run; [exact O|]. intros ->. exact (no_crash _ O).
  Qed.
  Lemma progress : forall s, inv s -> (forall t, ~ step ev s t) -> finished s.
  Proof.
    intros s I NS. pose proof I as I0. destruct I as [E|(K & P)]; [exfalso; rewrite E in NS; eapply NS; apply s_start|]. destruct s as [p l it na ts rs rec w fn rn]. unfold phase in P. cbn [pc] in P. destruct p.
    - destruct P.
    - exfalso. destruct P as (P1 & P2 & P3 & P4). cbn [num_active] in P3. assert (N : 0 < na) by lia. destruct (pend_cases _ I0) as [(t & S)|(r1 & t & o & r2 & R)]; [lia|exact (NS _ S)|]. cbn in R. subst rs. eapply NS. apply s_get. exact N.
    - exfalso. destruct P as (P1 & P2 & P3). destruct k as [|k]; [eapply NS; apply s_drained|]. destruct (pend_cases _ I0) as [(t & S)|(r1 & t & o & r2 & R)]; [lia|exact (NS _ S)|]. cbn in R. subst rs. eapply NS. apply s_drain.
    - exfalso. destruct P as ((l0 & m & T & M & L) & P2 & _). cbn [tasks ws] in *. destruct K as [K1 K2 K3 K4 K5 K6]. cbn [ws] in *. destruct m as [|m].
      + eapply NS. apply s_join. apply exited_all. lia.
      + unfold pending in P2. cbn [responses ws tasks] in P2. destruct l0 as [|x l0]; [|rewrite T, somes_app, somes_some, somes_none, app_length in P2; cbn in P2; lia]. cbn in T. subst ts.
        assert (ID : exists pre b post, w = pre ++ mkW b Idle :: post).
        { assert (B : busy w = []) by (apply length_zero_iff_nil; lia). assert (EX : exited w < length w) by lia. clear -B EX. induction w as [|[b wp] w IH]; [cbn in EX; lia|]. change (busy (mkW b wp :: w)) with (busy1 (mkW b wp) ++ busy w) in B. apply app_eq_nil in B. destruct B as [B1 B2]. change (exited (mkW b wp :: w)) with (exited1 (mkW b wp) + exited w) in EX. destruct wp; [exists [], b, w; reflexivity|discriminate|]. destruct IH as (pre & b' & post & ->); [exact B2|cbn in EX; cbn; lia|]. exists (mkW b Exited :: pre), b', post. reflexivity. }
        destruct ID as (pre & b & post & ->). eapply NS. apply s_exit.
    - destruct P as (_ & _ & _ & F). split; [reflexivity|exact F].
  Qed.

  Definition done (s : st) : Prop :=
    finished s /\ Permutation (number 0 cs) (map fst (runs s) ++ number (iter_count s) (left s)) /\ (forall t o, In (t, o) (runs s) -> ev t o) /\
    Permutation (recorded s) (flat_map (fun e => record (fst e) (snd e)) (runs s)) /\ (left s <> [] -> exists t b, In (t, Fatal b) (runs s)).
  Lemma run_done : always_ends (step ev) (init cs n) done.
  Proof.
    apply (ends_by _ inv done measure); [left; reflexivity|exact step_inv|exact measure_step|].
    intros s I NS. pose proof (progress s I NS) as F. split; [exact F|]. destruct I as [->|(K & P)]; [destruct F as [F _]; discriminate|]. unfold phase in P. rewrite (proj1 F) in P. destruct P as (_ & P2 & P3 & _). destruct K as [K1 K2 K3 K4 K5 K6]. unfold pending in P2.
    assert (R : responses s = []) by (apply length_zero_iff_nil; lia). assert (B : busy (ws s) = []) by (apply length_zero_iff_nil; lia). assert (S : somes (tasks s) = []) by (apply length_zero_iff_nil; lia).
    rewrite R, B, S in K1. rewrite R, app_nil_r in K2. cbn [map app] in K1. split; [rewrite K2; exact K1|]. split; [intros t o H; rewrite Forall_forall in K3; exact (K3 _ H)|]. split; [rewrite K4; apply Permutation_flat_map; symmetry; exact K2|].
    intros NL. destruct (P3 NL) as (t & b & H). exists t, b. rewrite K2. exact H.
  Qed.
End Mp.

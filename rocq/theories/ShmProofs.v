From Verif Require Import Base BaseFacts ShmModel ShmSpec.
Local Open Scope nat_scope.
Local Open Scope list_scope.

Lemma elem_in : forall n l, elem n l = true <-> In n l.
Proof.
  intros n l. unfold elem. rewrite existsb_exists. split.
  - intros (x & Hx & E). apply String.eqb_eq in E. subst. exact Hx.
  - intros H. exists n. split; [exact H|apply String.eqb_refl].
Qed.

(** ** Layouts *)
Section Lay.
Variable a : vmeta -> nat.
Variable p : vmeta -> bool.
Fixpoint lay (n : nat) (l : list vmeta) : list (string * (nat * nat)) * nat :=
  match l with
  | [] => ([], n)
  | m :: r => let (dat, e) := lay (n + a m) r in ((if p m then (v_path m, (n, n + a m)) :: dat else dat), e)
  end.
Definition suma (l : list vmeta) : nat := list_sum (map a l).
Lemma suma_cons : forall m l, suma (m :: l) = a m + suma l.
Proof. reflexivity. Qed.
Lemma suma_app : forall l1 l2, suma (l1 ++ l2) = suma l1 + suma l2.
Proof. intros. unfold suma. rewrite map_app, list_sum_app. reflexivity. Qed.
Lemma lay_end : forall l n, snd (lay n l) = n + suma l.
Proof. induction l as [|m l IH]; intros n; [cbn; lia|]. rewrite suma_cons. cbn [lay]. specialize (IH (n + a m)). destruct (lay (n + a m) l) as [dat e]. cbn [snd] in *. lia. Qed.
Lemma lay_keys : forall l n k, In k (dkeys (fst (lay n l))) -> In k (map v_path l).
Proof.
  induction l as [|m l IH]; intros n k H; [exact H|]. cbn [lay] in H. specialize (IH (n + a m) k). destruct (lay (n + a m) l) as [dat e]. cbn [fst] in *. cbn [map].
  destruct (p m); [cbn in H; destruct H as [H|H]; [left; exact H|right; apply IH; exact H]|right; apply IH; exact H].
Qed.
Lemma lay_get : forall l1 m l2 n, NoDup (map v_path (l1 ++ m :: l2)) -> p m = true ->
  sget (fst (lay n (l1 ++ m :: l2))) (v_path m) = Some (n + suma l1, n + suma l1 + a m).
Proof.
  induction l1 as [|x l1 IH]; intros m l2 n N P.
  - cbn [app lay]. destruct (lay (n + a m) l2) as [dat e]. rewrite P. cbn. rewrite String.eqb_refl. f_equal. f_equal; lia.
  - cbn [app lay]. inversion N as [|? ? N1 N2]; subst. specialize (IH m l2 (n + a x) N2 P). destruct (lay (n + a x) (l1 ++ m :: l2)) as [dat e]. cbn [fst] in *.
    rewrite suma_cons. replace (n + (a x + suma l1)) with (n + a x + suma l1) by lia.
    destruct (p x); [|exact IH]. cbn. destruct (String.eqb (v_path m) (v_path x)) eqn:E; [|exact IH].
    apply String.eqb_eq in E. exfalso. apply N1. rewrite <- E. rewrite map_app. apply in_or_app. right. left. reflexivity.
Qed.
Lemma lay_none : forall l n k, (forall m, In m l -> v_path m = k -> p m = false) -> sget (fst (lay n l)) k = None.
Proof.
  induction l as [|x l IH]; intros n k H; [reflexivity|]. cbn [lay]. specialize (IH (n + a x) k (fun m Hm => H m (or_intror Hm))). destruct (lay (n + a x) l) as [dat e]. cbn [fst] in *.
  destruct (p x) eqn:P; [|exact IH]. cbn. destruct (String.eqb k (v_path x)) eqn:E; [|exact IH]. apply String.eqb_eq in E. rewrite (H x (or_introl eq_refl) (eq_sym E)) in P. discriminate.
Qed.
(** two variables of one layout *)
Lemma two_split : forall (l : list vmeta) m1 m2, In m1 l -> In m2 l -> m1 <> m2 ->
  exists x y z, l = x ++ m1 :: y ++ m2 :: z \/ l = x ++ m2 :: y ++ m1 :: z.
Proof.
  intros l m1 m2 H1 H2 N. apply in_split in H1. destruct H1 as (x & z & ->). apply in_app_or in H2. destruct H2 as [H2|[H2|H2]]; [|congruence|].
  - apply in_split in H2. destruct H2 as (x1 & x2 & ->). exists x1, x2, z. right. rewrite <- app_assoc. reflexivity.
  - apply in_split in H2. destruct H2 as (y1 & y2 & ->). exists x, y1, y2. left. reflexivity.
Qed.
Lemma lay_apart : forall l m1 m2 n s1 s2, NoDup (map v_path l) -> In m1 l -> In m2 l -> m1 <> m2 -> p m1 = true -> p m2 = true ->
  sget (fst (lay n l)) (v_path m1) = Some s1 -> sget (fst (lay n l)) (v_path m2) = Some s2 -> snd s1 <= fst s2 \/ snd s2 <= fst s1.
Proof.
  assert (W : forall x m1 y m2 z n s1 s2, NoDup (map v_path (x ++ m1 :: y ++ m2 :: z)) -> p m1 = true -> p m2 = true ->
     sget (fst (lay n (x ++ m1 :: y ++ m2 :: z))) (v_path m1) = Some s1 -> sget (fst (lay n (x ++ m1 :: y ++ m2 :: z))) (v_path m2) = Some s2 -> snd s1 <= fst s2).
  { intros x m1 y m2 z n s1 s2 N P1 P2 E1 E2. rewrite (lay_get _ _ _ _ N P1) in E1. injection E1 as <-.
    replace (x ++ m1 :: y ++ m2 :: z) with ((x ++ m1 :: y) ++ m2 :: z) in * by (rewrite <- app_assoc; reflexivity).
    rewrite (lay_get _ _ _ _ N P2) in E2. injection E2 as <-. cbn [fst snd]. rewrite suma_app, suma_cons. lia. }
  intros l m1 m2 n s1 s2 N H1 H2 D P1 P2 E1 E2. destruct (two_split l m1 m2 H1 H2 D) as (x & y & z & [-> | ->]).
  - left. exact (W _ _ _ _ _ _ _ _ N P1 P2 E1 E2).
  - right. exact (W _ _ _ _ _ _ _ _ N P2 P1 E2 E1).
Qed.
Lemma lay_bounds : forall l m n s, NoDup (map v_path l) -> In m l -> p m = true -> sget (fst (lay n l)) (v_path m) = Some s ->
  n <= fst s /\ snd s = fst s + a m /\ snd s <= n + suma l.
Proof.
  intros l m n s N H P E. apply in_split in H. destruct H as (l1 & l2 & ->). rewrite (lay_get _ _ _ _ N P) in E. injection E as <-. cbn. rewrite suma_app, suma_cons. lia.
Qed.
Lemma lay_some : forall l m n, NoDup (map v_path l) -> In m l -> p m = true -> exists s, sget (fst (lay n l)) (v_path m) = Some s.
Proof. intros l m n N H P. apply in_split in H. destruct H as (l1 & l2 & ->). rewrite (lay_get _ _ _ _ N P). eauto. Qed.
End Lay.
Lemma ls_cons : forall a l, list_sum (a :: l) = a + list_sum l.
Proof. reflexivity. Qed.
Lemma sum_filter : forall {A} (f : A -> nat) (q : A -> bool) l, list_sum (map f (filter q l)) = list_sum (map (fun x => if q x then f x else 0) l).
Proof. intros A f q. induction l as [|x l IH]; [reflexivity|]. cbn [map filter]. destruct (q x); cbn [map]; rewrite !ls_cons, IH; reflexivity. Qed.
Lemma sum_le : forall {A} (f g : A -> nat) l, (forall x, In x l -> f x <= g x) -> list_sum (map f l) <= list_sum (map g l).
Proof. intros A f g. induction l as [|x l IH]; intros H; [cbn; lia|]. cbn [map]. rewrite !ls_cons. specialize (IH (fun y Hy => H y (or_intror Hy))). specialize (H x (or_introl eq_refl)). lia. Qed.

(** ** Offsets *)
Section Offs.
Variable rel : relevance.
Variable metas : list vmeta.
(** the cells counted for a variable of interest *)
Definition need (voi : option string) : nat := list_sum (map v_size (filter (fun m => is_relevant rel voi (v_top m)) metas)).
Lemma need_some : forall v names, sget rel v = Some names -> need (Some v) = list_sum (map v_size (filter (fun m => elem (v_top m) names) metas)).
Proof. intros v names E. unfold need, is_relevant. rewrite E. reflexivity. Qed.
Definition needs (vois : list string) : nat := list_sum (map (fun v => need (Some v)) vois).
Lemma one_group_eq : forall vois n offs n' offs', one_group rel metas vois n offs = Ok (n', offs') -> NoDup vois ->
  n' = n + needs vois /\
  (forall v, ~ In v vois -> sget offs' v = sget offs v) /\
  (forall x v y, vois = x ++ v :: y -> sget offs' v = Some (n + needs x)).
Proof.
  induction vois as [|v vois IH]; intros n offs n' offs' H N.
  - injection H as <- <-. split; [cbn; lia|]. split; [reflexivity|]. intros x v y E. destruct x; discriminate.
  - inversion N as [|? ? N1 N2]; subst. cbn [one_group] in H. destruct (sget rel v) as [names|] eqn:E; [|discriminate]. rewrite <- (need_some v names E) in H.
    destruct (IH _ _ _ _ H N2) as (A & B & C). split; [|split].
    + rewrite A. unfold needs. cbn [map]. rewrite ls_cons. lia.
    + intros w Hw. rewrite B by (intros X; apply Hw; right; exact X). rewrite sget_sset. destruct (String.eqb w v) eqn:Ew; [|reflexivity].
      apply String.eqb_eq in Ew. subst. exfalso. apply Hw. left. reflexivity.
    + intros x w y Exy. destruct x as [|x0 x].
      * injection Exy as <- <-. rewrite B by exact N1. rewrite sget_sset. rewrite String.eqb_refl. cbn. f_equal. lia.
      * injection Exy as <- Exy. rewrite (C x w y Exy). f_equal. unfold needs. cbn [map]. rewrite ls_cons. lia.
Qed.
Lemma all_groups_eq : forall groups mx offs mx' offs', all_groups rel metas groups mx offs = Ok (mx', offs') -> NoDup (concat groups) ->
  mx <= mx' /\ (forall v, ~ In v (concat groups) -> sget offs' v = sget offs v) /\
  (forall g, In g groups -> needs g <= mx' /\ forall x v y, g = x ++ v :: y -> sget offs' v = Some (needs x)).
Proof.
  induction groups as [|g groups IH]; intros mx offs mx' offs' H N.
  - injection H as <- <-. split; [lia|]. split; [reflexivity|intros g []].
  - cbn [all_groups] in H. destruct (one_group rel metas g 0 offs) as [[n1 offs1]|e] eqn:E; [|discriminate]. cbn [bind] in H. cbn [concat] in N.
    assert (Ng : NoDup g /\ NoDup (concat groups) /\ forall v, In v g -> ~ In v (concat groups)).
    { clear -N. induction g as [|v g IH]; [split; [constructor|split; [exact N|intros v []]]|]. inversion N as [|? ? A B]; subst. destruct (IH B) as (I1 & I2 & I3). split; [constructor; [intros X; apply A; apply in_or_app; left; exact X|exact I1]|]. split; [exact I2|].
      intros w [->|Hw]; [intros X; apply A; apply in_or_app; right; exact X|apply I3; exact Hw]. }
    destruct Ng as (N1 & N2 & N3). destruct (one_group_eq _ _ _ _ _ E N1) as (A & B & C). destruct (IH _ _ _ _ H N2) as (D & F & G). split; [|split].
    + destruct (Nat.ltb mx n1) eqn:L; [apply Nat.ltb_lt in L; lia|lia].
    + intros v Hv. rewrite F by (intros X; apply Hv; cbn; apply in_or_app; right; exact X). apply B. intros X. apply Hv. cbn. apply in_or_app. left. exact X.
    + intros g' [<-|Hg]; [|apply G; exact Hg]. split.
      * destruct (Nat.ltb mx n1) eqn:L; [lia|apply Nat.ltb_ge in L; lia].
      * intros x v y Exy. rewrite F; [rewrite (C x v y Exy); f_equal|]. apply N3. rewrite Exy. apply in_or_app. right. left. reflexivity.
Qed.
Lemma one_group_ok : forall vois n offs, (forall v, In v vois -> sget rel v <> None) -> exists n' offs', one_group rel metas vois n offs = Ok (n', offs').
Proof.
  induction vois as [|v vois IH]; intros n offs H; [eexists; eexists; reflexivity|]. cbn [one_group]. destruct (sget rel v) as [names|] eqn:E; [|exfalso; apply (H v (or_introl eq_refl) E)].
  apply IH. intros w Hw. apply H. right. exact Hw.
Qed.
Lemma all_groups_ok : forall groups mx offs, (forall v, In v (concat groups) -> sget rel v <> None) -> exists n' offs', all_groups rel metas groups mx offs = Ok (n', offs').
Proof.
  induction groups as [|g groups IH]; intros mx offs H; [eexists; eexists; reflexivity|]. cbn [all_groups]. destruct (one_group_ok g 0 offs) as (n1 & offs1 & E); [intros v Hv; apply H; cbn; apply in_or_app; left; exact Hv|].
  rewrite E. cbn [bind]. apply IH. intros v Hv. apply H. cbn. apply in_or_app. right. exact Hv.
Qed.
End Offs.

(** what the offsets of one solve give *)
Definition ranges (n : nat) (need : option string -> nat) (off : option string -> nat) (g : list (option string)) : Prop :=
  (forall v, In v g -> off v + need v <= n) /\
  (forall v w, In v g -> In w g -> v <> w -> off v + need v <= off w \/ off w + need w <= off v).
Lemma shared_ranges : forall tlg rel groups my vdict g,
  NoDup (concat groups) -> (forall v, In v (concat groups) -> sget rel v <> None) -> together groups tlg g ->
  exists n offs, shared_info tlg rel groups my vdict = Ok (n, offs) /\
    exists off, (forall v, In v g -> offset offs v = Ok (off v)) /\ ranges n (need rel (metas_of my vdict)) off g.
Proof.
  intros tlg rel groups my vdict g N R T. unfold shared_info. set (metas := metas_of my vdict).
  assert (Full : need rel metas None = list_sum (map v_size metas)).
  { unfold need. f_equal. f_equal. clear. induction metas as [|m l IH]; [reflexivity|]. cbn. f_equal. exact IH. }
  destruct T as [->|(-> & vois & Hg & ->)].
  - assert (X : exists n offs, (if negb tlg then Ok (list_sum (map v_size metas), []) else all_groups rel metas groups (list_sum (map v_size metas)) []) = Ok (n, offs) /\ list_sum (map v_size metas) <= n).
    { destruct tlg; cbn [negb]; [|eexists; eexists; split; [reflexivity|lia]]. destruct (all_groups_ok rel metas groups (list_sum (map v_size metas)) [] R) as (n & offs & E). exists n, offs. split; [exact E|].
      apply (all_groups_eq rel metas groups _ _ _ _ E N). }
    destruct X as (n & offs & E & L). exists n, offs. split; [exact E|]. exists (fun _ => 0). split; [intros v [<-|[]]; reflexivity|]. split.
    + intros v [<-|[]]. rewrite Full. cbn. exact L.
    + intros v w [<-|[]] [<-|[]] D. contradiction.
  - cbn [negb]. destruct (all_groups_ok rel metas groups (list_sum (map v_size metas)) [] R) as (n & offs & E). exists n, offs. split; [exact E|].
    destruct (all_groups_eq rel metas groups _ _ _ _ E N) as (_ & _ & G). destruct (G vois Hg) as (G1 & G2).
    exists (fun v => match offset offs v with Ok o => o | Err _ => 0 end). split.
    + intros v Hv. apply in_map_iff in Hv. destruct Hv as (s & <- & Hs). apply in_split in Hs. destruct Hs as (x & y & Exy). cbn. rewrite (G2 x s y Exy). reflexivity.
    + assert (O : forall x s y, vois = x ++ s :: y -> match offset offs (Some s) with Ok o => o | Err _ => 0 end = needs rel metas x) by (intros x s y Exy; cbn; rewrite (G2 x s y Exy); reflexivity).
      assert (Sa : forall x y, needs rel metas (x ++ y) = needs rel metas x + needs rel metas y) by (intros; unfold needs; rewrite map_app, list_sum_app; reflexivity).
      assert (Sc : forall s y, needs rel metas (s :: y) = need rel metas (Some s) + needs rel metas y) by reflexivity.
      split.
      * intros v Hv. apply in_map_iff in Hv. destruct Hv as (s & <- & Hs). apply in_split in Hs. destruct Hs as (x & y & Exy). rewrite (O x s y Exy). rewrite Exy, Sa, Sc in G1. lia.
      * intros v w Hv Hw D. apply in_map_iff in Hv. destruct Hv as (s & <- & Hs). apply in_map_iff in Hw. destruct Hw as (t & <- & Ht). apply in_split in Hs. destruct Hs as (x & y & Exy). rewrite (O x s y Exy).
        rewrite Exy in Ht. apply in_app_or in Ht. destruct Ht as [Ht|[Ht|Ht]]; [|congruence|]; apply in_split in Ht; destruct Ht as (a & b & E2).
        -- right. rewrite (O a t (b ++ s :: y)) by (rewrite Exy, E2, <- app_assoc; reflexivity). rewrite E2, Sa, Sc. lia.
        -- left. rewrite (O (x ++ s :: a) t b) by (rewrite Exy, E2, <- app_assoc; reflexivity). rewrite Sa, Sc. lia.
Qed.

(** ** Cells *)
Lemma region_in : forall size off n s e, s <= e -> e <= n -> off + n <= size -> region size off n (s, e) = (off + s, e - s).
Proof. intros. unfold region. cbn [fst snd]. replace (Nat.min n (size - off)) with n by lia. rewrite !Nat.min_l by lia. reflexivity. Qed.

(** the vectors of one solve, each with its own layout *)
Lemma separate_lays : forall (n : nat) (g : list (option string)) (need off : option string -> nat) (a : option string -> vmeta -> nat) (p : option string -> vmeta -> bool) (l : list vmeta)
    (cells : option string * string -> option (nat * nat)) (size : option string * string -> nat),
  ranges n need off g -> NoDup (map v_path l) -> (forall v, In v g -> suma (a v) l <= need v) ->
  (forall v path, In v g -> cells (v, path) = option_map (region n (off v) (snd (lay (a v) (p v) 0 l))) (sget (fst (lay (a v) (p v) 0 l)) path)) ->
  (forall v m, In v g -> In m l -> p v m = true -> size (v, v_path m) = a v m) ->
  separate n (fun k => In (fst k) g /\ exists m, In m l /\ v_path m = snd k /\ p (fst k) m = true) size cells.
Proof.
  intros n g need off a p l cells size [R1 R2] N Le C Sz.
  assert (Fit : forall v m, In v g -> In m l -> p v m = true -> exists s, sget (fst (lay (a v) (p v) 0 l)) (v_path m) = Some s /\ snd s = fst s + a v m /\ snd s <= need v /\ cells (v, v_path m) = Some (off v + fst s, a v m)).
  { intros v m Hv Hm Pm. destruct (lay_some (a v) (p v) l m 0 N Hm Pm) as (s & E). destruct (lay_bounds (a v) (p v) l m 0 s N Hm Pm E) as (_ & B & B2). exists s. split; [exact E|]. split; [exact B|].
    specialize (Le v Hv). specialize (R1 v Hv). split; [cbn in B2; lia|]. rewrite (C v _ Hv), E. cbn [option_map]. f_equal. rewrite lay_end. cbn [Nat.add]. destruct s as [s1 s2]. cbn [fst snd] in *. rewrite region_in by lia. f_equal. lia. }
  split.
  - intros [v path] [Hv (m & Hm & Ep & Pm)]. cbn [fst snd] in *. subst path. destruct (Fit v m Hv Hm Pm) as (s & _ & B & B2 & E). exists (off v + fst s). rewrite (Sz v m Hv Hm Pm). split; [exact E|]. specialize (R1 v Hv). lia.
  - intros [v pa] [w pb] r s [Hv (m & Hm & Ep & Pm)] [Hw (m' & Hm' & Ep' & Pm')] D E1 E2. cbn [fst snd] in *. subst pa pb.
    destruct (Fit v m Hv Hm Pm) as (s1 & G1 & B1 & L1 & F1). destruct (Fit w m' Hw Hm' Pm') as (s2 & G2 & B2 & L2 & F2). rewrite F1 in E1. rewrite F2 in E2. injection E1 as <-. injection E2 as <-. unfold apart. cbn [fst snd].
    assert (Dec : v = w \/ v <> w) by (destruct v as [x|]; destruct w as [y|]; try (right; discriminate); [destruct (string_dec x y) as [->|Hn]; [left; reflexivity|right; congruence]|left; reflexivity]).
    destruct Dec as [->|Dn].
    + assert (Dm : m <> m') by congruence. destruct (lay_apart (a w) (p w) l m m' 0 s1 s2 N Hm Hm' Dm Pm Pm' G1 G2); lia.
    + destruct (R2 v w Hv Hw Dn); lia.
Qed.

(** ** The two kinds of vector *)
Definition src_adv (rel : relevance) (voi : option string) (m : vmeta) : nat := if is_relevant rel voi (v_top m) && (negb (v_pbo m) && negb (v_remote m)) then v_size m else 0.
Definition src_put (rel : relevance) (voi : option string) (m : vmeta) : bool := is_relevant rel voi (v_top m) && (negb (v_pbo m) && negb (v_remote m)).
Lemma src_lay : forall rel voi l n, src_setup rel voi n l = lay (src_adv rel voi) (src_put rel voi) n l.
Proof.
  intros rel voi. induction l as [|m l IH]; intros n; [reflexivity|]. cbn [src_setup lay]. destruct (is_relevant rel voi (v_top m) && (negb (v_pbo m) && negb (v_remote m))) eqn:E.
  - replace (src_adv rel voi m) with (v_size m) by (unfold src_adv; rewrite E; reflexivity). replace (src_put rel voi m) with true by (unfold src_put; rewrite E; reflexivity). rewrite IH. reflexivity.
  - replace (src_adv rel voi m) with 0 by (unfold src_adv; rewrite E; reflexivity). replace (src_put rel voi m) with false by (unfold src_put; rewrite E; reflexivity). rewrite IH. rewrite Nat.add_0_r. destruct (lay _ _ n l); reflexivity.
Qed.
Lemma src_need : forall rel voi l, suma (src_adv rel voi) l <= need rel (metas_of None l) voi.
Proof.
  intros. unfold suma, need, metas_of. rewrite sum_filter. rewrite sum_filter. apply sum_le. intros m _. unfold src_adv. destruct (is_relevant rel voi (v_top m)); destruct (v_pbo m); destruct (v_remote m); cbn; lia.
Qed.
Definition upd (conns : string -> option source) (my : list string) (m : vmeta) : vmeta :=
  if elem (v_path m) my then match conns (v_path m) with Some c => fst (setup_var_meta m c 0) | None => m end else m.
Lemma svm_fst : forall m c i, fst (setup_var_meta m c i) = fst (setup_var_meta m c 0).
Proof. intros. unfold setup_var_meta. destruct (c_pbo c); reflexivity. Qed.
Lemma upd_fields : forall conns my m, v_path (upd conns my m) = v_path m /\ v_top (upd conns my m) = v_top m /\ v_remote (upd conns my m) = v_remote m /\ v_idx (upd conns my m) = v_idx m.
Proof. intros. unfold upd. destruct (elem (v_path m) my); [|repeat split]. destruct (conns (v_path m)) as [c|]; [|repeat split]. unfold setup_var_meta. destruct (c_pbo c); repeat split. Qed.
Lemma upd_again : forall conns my m, upd conns my (upd conns my m) = upd conns my m.
Proof.
  intros. destruct (upd_fields conns my m) as (Ep & _). unfold upd at 1. rewrite Ep. unfold upd. destruct (elem (v_path m) my) eqn:E; [|reflexivity]. destruct (conns (v_path m)) as [c|] eqn:Ec; [|reflexivity].
  unfold setup_var_meta. destruct (c_pbo c) eqn:Eb; cbn; rewrite ?Eb; cbn; f_equal; destruct (negb (v_idx m) && negb (c_idx c)); reflexivity.
Qed.
Definition tgt_adv (rel : relevance) conns my (voi : option string) (m : vmeta) : nat :=
  if is_relevant rel voi (v_top m) && elem (v_path m) my then if v_remote m then 0 else v_size (upd conns my m) else 0.
Definition tgt_put (rel : relevance) conns my (voi : option string) (m : vmeta) : bool :=
  is_relevant rel voi (v_top m) && elem (v_path m) my && (negb (v_remote m) && negb (v_pbo (upd conns my m))).
Lemma tgt_lay : forall rel conns my voi l n, (forall m, In m l -> elem (v_path m) my = true -> conns (v_path m) <> None) ->
  tgt_setup rel conns my voi n l =
  Ok (map (fun m => if is_relevant rel voi (v_top m) then upd conns my m else m) l, fst (lay (tgt_adv rel conns my voi) (tgt_put rel conns my voi) n l), snd (lay (tgt_adv rel conns my voi) (tgt_put rel conns my voi) n l)).
Proof.
  intros rel conns my voi. induction l as [|m l IH]; intros n H; [reflexivity|]. specialize (fun k => IH k (fun x Hx => H x (or_intror Hx))). cbn [tgt_setup lay map].
  assert (Ea : tgt_adv rel conns my voi m = if is_relevant rel voi (v_top m) && elem (v_path m) my then if v_remote m then 0 else v_size (upd conns my m) else 0) by reflexivity.
  assert (Epu : tgt_put rel conns my voi m = is_relevant rel voi (v_top m) && elem (v_path m) my && (negb (v_remote m) && negb (v_pbo (upd conns my m)))) by reflexivity.
  rewrite Ea, Epu. clear Ea Epu.
  destruct (is_relevant rel voi (v_top m)) eqn:Er; cbn [andb].
  - destruct (elem (v_path m) my) eqn:Ee; cbn [andb].
    + destruct (conns (v_path m)) as [c|] eqn:Ec; [|exfalso; exact (H m (or_introl eq_refl) Ee Ec)].
      assert (Eu : upd conns my m = fst (setup_var_meta m c n)) by (unfold upd; rewrite Ee, Ec; symmetry; apply svm_fst).
      destruct (setup_var_meta m c n) as [m' slc] eqn:Es. cbn [fst] in Eu. rewrite Eu.
      assert (Erm : v_remote m' = v_remote m) by (rewrite <- Eu; apply upd_fields). rewrite Erm.
      assert (Esl : slc = if c_pbo c then None else if v_remote m then None else Some (n, n + v_size m')).
      { unfold setup_var_meta in Es. destruct (c_pbo c); injection Es as <- <-; [reflexivity|]. cbn. reflexivity. }
      assert (Epb : c_pbo c = true -> v_pbo m' = true) by (intros Hc; unfold setup_var_meta in Es; rewrite Hc in Es; injection Es as <- _; reflexivity).
      replace (if v_remote m then n else n + v_size m') with (n + (if v_remote m then 0 else v_size m')) by (destruct (v_remote m); lia).
      rewrite IH. cbn [bind]. destruct (lay _ _ (n + (if v_remote m then 0 else v_size m')) l) as [dat e]. cbn [fst snd]. subst slc.
      destruct (c_pbo c); [rewrite (Epb eq_refl); rewrite andb_false_r; reflexivity|]. destruct (v_remote m); [reflexivity|]. cbn [negb andb]. destruct (v_pbo m'); reflexivity.
    + rewrite Nat.add_0_r. rewrite IH. cbn [bind]. destruct (lay _ _ n l) as [dat e]. cbn [fst snd]. replace (upd conns my m) with m by (unfold upd; rewrite Ee; reflexivity). reflexivity.
  - rewrite Nat.add_0_r. rewrite IH. cbn [bind]. destruct (lay _ _ n l) as [dat e]. reflexivity.
Qed.
Lemma tgt_need : forall rel conns my voi l, (forall m c, In m l -> elem (v_path m) my = true -> conns (v_path m) = Some c -> agrees m c) ->
  (forall m, In m l -> elem (v_path m) my = true -> conns (v_path m) <> None) ->
  suma (tgt_adv rel conns my voi) l <= need rel (metas_of (Some my) l) voi.
Proof.
  intros rel conns my voi l A H. unfold suma, need, metas_of. rewrite sum_filter. rewrite sum_filter. apply sum_le. intros m Hm. unfold tgt_adv. specialize (A m). specialize (H m Hm).
  destruct (is_relevant rel voi (v_top m)); cbn [andb]; [|lia]. unfold upd. destruct (elem (v_path m) my); cbn [andb]; [|lia]. destruct (conns (v_path m)) as [c|]; [|contradiction (H eq_refl eq_refl)].
  destruct (A c Hm eq_refl eq_refl) as (A1 & A2 & A3). unfold setup_var_meta. destruct (v_remote m); [lia|]. destruct (c_pbo c).
  - cbn. rewrite (A2 eq_refl). destruct (v_pbo m); cbn [negb]; [rewrite (A1 eq_refl); destruct (negb (v_idx m) && negb (c_idx c)); lia|]. destruct (negb (v_idx m) && negb (c_idx c)); lia.
  - destruct (A3 eq_refl) as (B1 & B2). rewrite B1. cbn. destruct (v_idx m); destruct (c_idx c); cbn; try lia; rewrite ?B2 by reflexivity; lia.
Qed.

(** ** Assigning *)
Lemma read_full : forall {V} (buf : list V) b k, b + k <= length buf -> length (read buf (b, k)) = k.
Proof. intros. unfold read. cbn [fst snd]. rewrite firstn_length, skipn_length. lia. Qed.
Lemma skipn_twice : forall {V} x y (l : list V), skipn x (skipn y l) = skipn (y + x) l.
Proof. intros V x. induction y as [|y IH]; intros l; [reflexivity|]. destruct l; cbn; [apply skipn_nil|apply IH]. Qed.
Lemma assign_ok : forall {V} (buf : list V) b vals, b + length vals <= length buf ->
  exists buf', assign buf (b, length vals) vals = Ok buf' /\ length buf' = length buf /\ read buf' (b, length vals) = vals /\
    (forall c k, apart (b, length vals) (c, k) -> c + k <= length buf -> read buf' (c, k) = read buf (c, k)).
Proof.
  intros V buf b vals H. unfold assign. rewrite (read_full buf b (length vals) H), Nat.eqb_refl. cbn [fst]. eexists. split; [reflexivity|].
  assert (Lb : length (firstn b buf) = b) by (rewrite firstn_length; lia).
  split; [rewrite !app_length, Lb, skipn_length; lia|]. split.
  - unfold read. cbn [fst snd]. rewrite skipn_app, Lb. rewrite Nat.sub_diag. rewrite skipn_all2 by lia. cbn [app skipn]. rewrite firstn_app, Nat.sub_diag. cbn [firstn]. rewrite app_nil_r. apply firstn_all.
  - intros c k A L. unfold apart in A. cbn [fst snd] in A. unfold read. cbn [fst snd]. destruct A as [A|A].
    + rewrite skipn_app, Lb. rewrite skipn_all2 by lia. cbn [app]. rewrite skipn_app. rewrite (skipn_all2 vals) by lia. cbn [app]. rewrite skipn_twice. f_equal. f_equal. lia.
    + assert (E : buf = firstn b buf ++ skipn b buf) by (symmetry; apply firstn_skipn). rewrite E at 3. rewrite !skipn_app, Lb. rewrite !firstn_app. rewrite skipn_length, Lb.
      replace (k - (b - c)) with 0 by lia. cbn [firstn]. reflexivity.
Qed.
Lemma assigns_ok : forall {K V} (dec : forall a b : K, {a = b} + {a <> b}) n mem size cells, separate n mem size cells ->
  forall ws (buf : list V), length buf = n -> (forall k vals, In (k, vals) ws -> mem k /\ length vals = size k) ->
  exists buf', assigns cells buf ws = Ok buf' /\ length buf' = n /\
    (forall k c, mem k -> cells k = Some c -> read buf' c = last_to dec k ws (read buf c)).
Proof.
  intros K V dec n mem size cells [S1 S2]. induction ws as [|[k vals] ws IH]; intros buf L H.
  - exists buf. split; [reflexivity|]. split; [exact L|]. reflexivity.
  - destruct (H k vals (or_introl eq_refl)) as (Mk & Lk). destruct (S1 k Mk) as (b & Ck & Bk). cbn [assigns]. rewrite Ck. rewrite <- Lk in Bk.
    destruct (assign_ok buf b vals) as (buf1 & E1 & L1 & R1 & O1); [lia|]. rewrite <- Lk. rewrite E1. cbn [bind].
    destruct (IH buf1) as (buf2 & E2 & L2 & R2); [lia|intros k' v' Hk; apply H; right; exact Hk|]. exists buf2. split; [exact E2|]. split; [exact L2|].
    intros k' c Mk' Ck'. rewrite (R2 k' c Mk' Ck'). cbn [last_to]. destruct (dec k' k) as [->|Nk].
    + rewrite Ck in Ck'. injection Ck' as <-. rewrite <- Lk, R1. reflexivity.
    + destruct (S1 k' Mk') as (b' & Cb' & Bb'). rewrite Ck' in Cb'. injection Cb' as ->. rewrite O1; [reflexivity| |lia].
      apply (S2 k k'); [exact Mk|exact Mk'|congruence|rewrite Lk; exact Ck|exact Ck'].
Qed.

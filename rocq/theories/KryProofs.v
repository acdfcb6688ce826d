(** Lemmas for the Krylov and direct solvers. *)
From Coq Require Import Ring_theory Ring.
From Verif Require Import Base LinModel LinSpec LinProofs LinProofs2 AssembleModel AssembleProofs GradModel GradSpec KryModel KrySpec.
Local Open Scope nat_scope.
Local Open Scope list_scope.

Section P.
  Context {F : Type} (F0 F1 : F) (fadd fmul fsub : F -> F -> F) (fopp : F -> F).
  Context (Fth : ring_theory F0 F1 fadd fmul fsub fopp eq).
  Add Ring FRing : Fth.
  Notation row_of := (row_of F0 fadd fmul).
  Notation col_of := (col_of F0 fadd fmul).
  Notation sys_mat := (sys_mat F1 fmul fopp).
  Notation mult := (mult F0 fadd fmul fsub).
  Notation equations := (equations F0 F1 fadd fmul fopp).
  Notation ready := (ready F0).
  Notation spread := (spread F0).

  (** ** arrays and positions *)
  Lemma spread_cons : forall c cells a l k, spread (c :: cells) (a :: l) k = if k =? c then a else spread cells l k.
  Proof. reflexivity. Qed.
  Lemma map_spread : forall cells l, NoDup cells -> length l = length cells -> map (spread cells l) cells = l.
  Proof.
    induction cells as [|c cells IH]; intros [|a l] N L; try discriminate; [reflexivity|]. apply NoDup_cons_iff in N. destruct N as [Hn N].
    cbn [map]. rewrite spread_cons, Nat.eqb_refl. f_equal. transitivity (map (spread cells l) cells); [|apply IH; [exact N|injection L as L; exact L]].
    apply map_ext_in. intros k Hk. rewrite spread_cons. destruct (Nat.eqb_spec k c) as [->|_]; [contradiction|reflexivity].
  Qed.
  Lemma map_eq_in : forall (cells : list nat) (f g : nat -> F), map f cells = map g cells -> forall k, In k cells -> f k = g k.
  Proof. induction cells as [|c cells IH]; intros f g E k Hk; [destruct Hk|]. cbn [map] in E. injection E as E1 E2. destruct Hk as [<-|Hk]; [exact E1|exact (IH f g E2 k Hk)]. Qed.

  (** ** equations *)
  Lemma row_rows : forall s (z z' : nat -> F) k, wf s -> (forall j, In j (rows s) -> z j = z' j) ->
      row_of (sys_mat None s) (over z (fun _ => F0)) k = row_of (sys_mat None s) (over z' (fun _ => F0)) k.
  Proof. intros s z z' k Hw H. apply row_ext. intros e He. apply sys_mat_in in He; auto. destruct He as [_ B]. destruct (e_col e); cbn [over]; auto. Qed.
  Lemma col_rows : forall s (z z' : nat -> F) c, wf s -> (forall j, In j (rows s) -> z j = z' j) -> col_of (sys_mat None s) z c = col_of (sys_mat None s) z' c.
  Proof. intros s z z' c Hw H. apply col_ext. intros e He. apply sys_mat_in in He; auto. apply H. exact (proj1 He). Qed.
  Definition applied (fwd : bool) (s : sys (F:=F)) (z : nat -> F) (k : nat) : F :=
    if fwd then row_of (sys_mat None s) (over z (fun _ => F0)) k else col_of (sys_mat None s) z (CU k).
  Lemma applied_rows : forall fwd s z z' k, wf s -> (forall j, In j (rows s) -> z j = z' j) -> applied fwd s z k = applied fwd s z' k.
  Proof. intros [|] s z z' k Hw H; [apply row_rows|apply col_rows]; assumption. Qed.
  Lemma equations_map : forall fwd s z w, wf s -> (equations fwd s (map z (rows s)) (map w (rows s)) <-> forall k, In k (rows s) -> applied fwd s z k = w k).
  Proof.
    intros fwd s z w Hw. split.
    - intros (_ & _ & H) k Hk. exact (H z w eq_refl eq_refl k Hk).
    - intros H. split; [apply map_length|]. split; [apply map_length|]. intros z' w' E1 E2 k Hk. rewrite (map_eq_in _ _ _ E2 k Hk), <- (H k Hk).
      apply (applied_rows fwd s z' z k Hw). intros j Hj. exact (map_eq_in _ _ _ E1 j Hj).
  Qed.
  Lemma equations_spread : forall fwd s v w, wf s -> length v = length (rows s) ->
      (forall k, In k (rows s) -> applied fwd s (spread (rows s) v) k = w k) -> equations fwd s v (map w (rows s)).
  Proof.
    intros fwd s v w Hw L H. rewrite <- (map_spread (rows s) v (proj1 (wf_nodup s Hw)) L) at 1. apply equations_map; [exact Hw|exact H].
  Qed.

  (** ** a product *)
  Lemma mult_ok : forall fwd s, wf s -> forall arg st, ready fwd s st ->
      exists r st', mult fwd s arg st = Ok (r, st') /\ ready fwd s st' /\ only_inside s st st' /\ forall k, In k (rows s) -> r k = applied fwd s arg k.
  Proof.
    intros [|] s Hw arg st Hr.
    - destruct (mult_fwd_at _ _ _ _ _ _ Fth s Hw arg st (Hr eq_refl)) as (r & st' & E & Z & R). exists r, st'. split; [exact E|]. split; [intros _; exact Z|]. split; [|exact R].
      unfold LinModel.mult in E. match type of E with context [sys_fwd _ _ _ _ None s ?x] => destruct (sys_fwd_spec _ _ _ _ _ _ Fth None s Hw x) as [st1 [E1 [(U & _ & O & P) _]]] end.
      rewrite E1 in E. cbn [bind] in E. assert (st1 = st') by congruence. subst st1. cbn [du dr dp] in U, O, P. split.
      + intros k Hk. rewrite U, O by exact Hk. rewrite copy_at_spec, zero_at_spec. apply memb_false in Hk. rewrite Hk. auto.
      + intros t Ht. rewrite P by exact Ht. apply clear_out; [exact Hw|exact Ht].
    - destruct (mult_rev_at _ _ _ _ _ _ Fth s Hw arg st) as (r & st' & E & R). exists r, st'. split; [exact E|]. split; [intros H; discriminate H|]. split; [|exact R].
      unfold LinModel.mult in E. match type of E with context [sys_rev _ _ _ _ None s ?x] => destruct (sys_rev_spec _ _ _ _ _ _ Fth None s Hw x) as [st1 [E1 [(_ & O & _ & P & D) _]]] end.
      rewrite E1 in E. cbn [bind] in E. assert (st1 = st') by congruence. subst st1. cbn [du dr dp] in O, P, D. split.
      + intros k Hk. rewrite O, D by exact Hk. rewrite copy_at_spec, zero_at_spec. apply memb_false in Hk. rewrite Hk. auto.
      + intros t Ht. rewrite P by exact Ht. apply clear_out; [exact Hw|exact Ht].
  Qed.
  Lemma product_ok : forall fwd s v st, wf s -> length v = length (rows s) -> ready fwd s st ->
      exists w st', product F0 fadd fmul fsub fwd s v st = Ok (w, st') /\ length w = length (rows s) /\ ready fwd s st' /\ only_inside s st st' /\ equations fwd s v w.
  Proof.
    intros fwd s v st Hw L Hr. unfold product. rewrite L, Nat.eqb_refl.
    destruct (mult_ok fwd s Hw (spread (rows s) v) st Hr) as (r & st' & E & R & I & H). rewrite E. cbn [bind fst snd].
    exists (on s r), st'. split; [reflexivity|]. split; [apply map_length|]. split; [exact R|]. split; [exact I|].
    apply equations_spread; [exact Hw|exact L|]. intros k Hk. symmetry. exact (H k Hk).
  Qed.
  Lemma inside_trans : forall (s : sys (F:=F)) a b c, only_inside s a b -> only_inside s b c -> only_inside s a c.
  Proof.
    intros s a b c [H1 H2] [H3 H4]. split.
    - intros k Hk. destruct (H1 k Hk), (H3 k Hk). split; congruence.
    - intros t Ht. rewrite H4, H2 by exact Ht. reflexivity.
  Qed.
  Lemma inside_refl : forall (s : sys (F:=F)) a, only_inside s a a.
  Proof. intros s a. split; auto. Qed.
  (** what the preconditioner starts from *)
  Lemma loaded_ready : forall (fwd : bool) s v st, wf s -> ready fwd s st ->
      let st1 := if fwd then mkS (du st) (copy_at (rows s) v (dr st)) (clear_dparams F0 s (dp st)) else mkS (copy_at (rows s) v (du st)) (dr st) (clear_dparams F0 s (dp st)) in
      ready fwd s st1 /\ only_inside s st st1 /\ forall k, In k (rows s) -> (if fwd then dr st1 k else du st1 k) = v k.
  Proof.
    intros fwd s v st Hw Hr st1. split; [|split].
    - intros -> t Ht. unfold st1. cbn [dp]. apply clear_zero. exact (Hr eq_refl t Ht).
    - split.
      + intros k Hk. apply memb_false in Hk. unfold st1. destruct fwd; cbn [du dr]; rewrite copy_at_spec, Hk; auto.
      + intros t Ht. unfold st1. destruct fwd; cbn [dp]; apply clear_out; assumption.
    - intros k Hk. apply memb_spec in Hk. unfold st1. destruct fwd; cbn [du dr]; rewrite copy_at_spec, Hk; reflexivity.
  Qed.
  Lemma precon_ok : forall fwd s f v st, wf s -> harmless F0 fwd s (Some f) -> length v = length (rows s) -> ready fwd s st ->
      exists w st', precon F0 fwd s f v st = Ok (w, st') /\ length w = length (rows s) /\ ready fwd s st' /\ only_inside s st st'.
  Proof.
    intros fwd s f v st Hw Hf L Hr. unfold precon. rewrite L, Nat.eqb_refl. cbv zeta.
    destruct (loaded_ready fwd s (spread (rows s) v) st Hw Hr) as (R & I & _). cbv zeta in R, I.
    destruct (Hf f eq_refl _ R) as (st' & E & R' & I'). rewrite E. cbn [bind]. eexists _, st'. split; [reflexivity|]. split; [apply map_length|].
    split; [exact R'|]. exact (inside_trans s _ _ _ I I').
  Qed.

  (** ** the run of gmres *)
  Lemma drive_ok : forall fwd s pre, wf s -> harmless F0 fwd s pre -> forall t st, sized (length (rows s)) t -> ready fwd s st ->
      exists x info st', drive F0 fadd fmul fsub fwd s pre t st = Ok (x, info, st') /\ length x = length (rows s) /\
        runs (equations fwd s) t x info /\ ready fwd s st' /\ only_inside s st st'.
  Proof.
    intros fwd s pre Hw Hf. induction t as [x info|v k IH|v k IH]; intros st Hs Hr; cbn [drive].
    - exists x, info, st. split; [reflexivity|]. split; [exact Hs|]. split; [constructor|]. split; [exact Hr|apply inside_refl].
    - destruct Hs as [L Hs]. destruct (product_ok fwd s v st Hw L Hr) as (w & st1 & E & Lw & R & I & Q). rewrite E. cbn [bind fst snd].
      destruct (IH w st1 (Hs w Lw) R) as (x & info & st' & E' & Lx & Rn & R' & I'). exists x, info, st'. split; [exact E'|]. split; [exact Lx|].
      split; [exact (runs_product _ v k w x info Q Rn)|]. split; [exact R'|exact (inside_trans s _ _ _ I I')].
    - destruct Hs as [L Hs]. destruct pre as [f|].
      + destruct (precon_ok fwd s f v st Hw Hf L Hr) as (w & st1 & E & Lw & R & I). rewrite E. cbn [bind fst snd].
        destruct (IH w st1 (Hs w Lw) R) as (x & info & st' & E' & Lx & Rn & R' & I'). exists x, info, st'. split; [exact E'|]. split; [exact Lx|].
        split; [exact (runs_precon _ v k w x info Rn)|]. split; [exact R'|exact (inside_trans s _ _ _ I I')].
      + destruct (IH v st (Hs v L) Hr) as (x & info & st' & E' & Lx & Rn & R' & I'). exists x, info, st'. split; [exact E'|]. split; [exact Lx|].
        split; [exact (runs_precon _ v k v x info Rn)|]. split; [exact R'|exact I'].
  Qed.
  Lemma krylov_exact : forall p s g, wf s -> (forall fwd, gmres_sound (equations fwd s) (length (rows s)) g) -> krylov F0 fadd fmul fsub p s g ->
      forall fwd, exact F0 F1 fadd fmul fopp p s fwd.
  Proof.
    intros p s g Hw Hg Hk fwd rhs k Hkk. destruct (Hk fwd rhs) as (pre & st & x & st' & Hf & Hr & E & Ex).
    destruct (Hg fwd (map rhs (rows s)) (map_length _ _)) as [Sz Sd].
    destruct (drive_ok fwd s pre Hw Hf _ st Sz Hr) as (x' & info & st1 & E' & Lx & Rn & _). rewrite E in E'.
    assert (x' = x) by congruence. assert (info = 0%Z) by congruence. subst. pose proof (Sd _ Rn) as Q.
    pose proof (proj1 (equations_map fwd s _ _ Hw) Q) as Q2. specialize (Q2 k Hkk). destruct fwd; exact Q2.
  Qed.

  (** ** Gauss-Seidel as preconditioner *)
  Context (tiny : list F -> bool) (Htiny : forall v, tiny v = true -> Forall (fun x => x = F0) v).
  Lemma gs_harmless : forall (fwd : bool) ns ks subs, let s := Group ns None ks subs in wf s -> feed_forward F0 F1 fadd fmul fopp fwd s -> (fwd = false -> unscaled s) ->
      harmless F0 fwd s (Some (gs_pre F0 fadd fmul fsub fopp tiny fwd ns ks subs)) /\
      forall v st, length v = length (rows s) -> ready fwd s st ->
      exists w st', precon F0 fwd s (gs_pre F0 fadd fmul fsub fopp tiny fwd ns ks subs) v st = Ok (w, st') /\ equations fwd s w v.
  Proof.
    intros fwd ns ks subs s Hw Hff Hun. unfold gs_pre. fold s.
    assert (G : forall st, ready fwd s st -> exists st', sys_solve F0 fadd fmul fsub fopp tiny fwd s st = Ok st' /\ ready fwd s st' /\ only_inside s st st' /\
                forall k, In k (rows s) -> applied fwd s (if fwd then du st' else dr st') k = (if fwd then dr st k else du st k)).
    { intros st Hr. destruct fwd.
      - destruct (solve_fwd F0 F1 fadd fmul fsub fopp Fth tiny Htiny s Hw Hff st (Hr eq_refl)) as (st' & E & A & B & C & D & Z).
        exists st'. split; [exact E|]. split; [intros _; exact Z|]. split; [split; auto|exact A].
      - destruct (solve_rev F0 F1 fadd fmul fsub fopp Fth tiny Htiny s Hw Hff (Hun eq_refl) st) as (st' & E & A & B & C & D).
        exists st'. split; [exact E|]. split; [intros H; discriminate H|]. split; [split; auto|exact A]. }
    split.
    - intros f Ef st Hr. assert (Ef' : sys_solve F0 fadd fmul fsub fopp tiny fwd s = f) by congruence. subst f.
      destruct (G st Hr) as (st' & E & R & I & _). exists st'. auto.
    - intros v st L Hr. unfold precon. rewrite L, Nat.eqb_refl. cbv zeta.
      destruct (loaded_ready fwd s (spread (rows s) v) st Hw Hr) as (R & I & V). cbv zeta in R, I, V.
      destruct (G _ R) as (st' & E & _ & _ & A). rewrite E. cbn [bind]. eexists _, st'. split; [reflexivity|].
      rewrite <- (map_spread (rows s) v (proj1 (wf_nodup s Hw)) L). apply equations_map; [exact Hw|]. intros k Hk. rewrite <- (V k Hk). apply A. exact Hk.
  Qed.

  (** ** the direct solver *)
  Lemma times_row_map : forall (cells : list nat) (a b : nat -> F), times_row F0 fadd fmul (map b cells) (map a cells) = inner F0 fadd fmul cells a b.
  Proof. induction cells as [|c cells IH]; intros a b; [reflexivity|]. unfold times_row in *. cbn. rewrite IH. reflexivity. Qed.
  Lemma direct_ok : forall fwd s lin, wf s -> lin_sound F0 fadd fmul lin -> forall rhs st, ready fwd s st ->
      forall x st', direct_mvp F0 F1 fadd fmul fsub fwd s lin rhs st = Ok (x, st') -> length rhs = length (rows s) -> equations fwd s x rhs.
  Proof.
    intros fwd s lin Hw Hl rhs st Hr x st' E L. pose proof (proj1 (wf_nodup s Hw)) as N. unfold direct_mvp in E.
    destruct (mvp_dense _ _ _ _ _ _ Fth fwd s Hw st Hr) as (m & st1 & Em & Hm). rewrite Em in E. cbn [bind fst snd] in E.
    destruct (lin (map (fun i => map (m i) (rows s)) (rows s)) rhs) as [y|] eqn:El; [|discriminate]. cbn [bind] in E. assert (y = x) by congruence. subst y.
    destruct (Hl _ _ _ El) as [Lx Hx]. rewrite map_length in Lx. rewrite map_map in Hx.
    rewrite <- (map_spread (rows s) x N Lx), <- (map_spread (rows s) rhs N L) in Hx |- *. set (z := spread (rows s) x) in *. set (b := spread (rows s) rhs) in *.
    apply equations_map; [exact Hw|]. intros k Hk. pose proof (map_eq_in _ _ _ Hx k Hk) as H. cbv beta in H. rewrite times_row_map in H. rewrite <- H.
    assert (S0 : ready fwd s (mkS (fun _ => F0) (fun _ => F0) (fun _ => F0))) by (intros _ t _; reflexivity).
    destruct (mult_ok fwd s Hw z _ S0) as (r & st2 & E2 & _ & _ & R2). destruct (mult_dense _ _ _ _ _ _ Fth fwd s Hw z _ S0) as (r' & st3 & E3 & R3).
    assert (r = r') by congruence. subst r'. rewrite <- R2 by exact Hk. rewrite R3 by exact Hk. apply total_ext. intros j Hj. rewrite Hm by assumption. reflexivity.
  Qed.
  Lemma direct_exact : forall p s lin, wf s -> lin_sound F0 fadd fmul lin -> direct F0 F1 fadd fmul fsub p s lin -> forall fwd, exact F0 F1 fadd fmul fopp p s fwd.
  Proof.
    intros p s lin Hw Hl Hd fwd rhs k Hk. destruct (Hd fwd rhs) as (st & x & st' & Hr & E & Ex).
    pose proof (direct_ok fwd s lin Hw Hl _ st Hr x st' E (map_length _ _)) as Q. rewrite <- Ex in Q. pose proof (proj1 (equations_map fwd s _ _ Hw) Q) as Q2. specialize (Q2 k Hk). destruct fwd; exact Q2.
  Qed.

  (** ** solve_linear of a group *)
  Lemma group_ok : forall fwd s (solve : list F -> state -> res (list F * state)), wf s ->
      (forall rhs st, length rhs = length (rows s) -> ready fwd s st -> exists x st', solve rhs st = Ok (x, st') /\ equations fwd s x rhs /\ only_inside s st st') ->
      forall st, ready fwd s st -> exists st', group_linear F0 tiny fwd s solve st = Ok st' /\ only_inside s st st' /\
        forall k, In k (rows s) -> applied fwd s (if fwd then du st' else dr st') k = (if fwd then dr st k else du st k).
  Proof.
    intros fwd s solve Hw Hs st Hr. unfold group_linear. cbv zeta. set (v := (if fwd then dr st else du st) : nat -> F).
    match goal with |- context [if tiny ?a then _ else _] => change a with (on s v) end. match goal with |- context [solve ?a st] => change a with (on s v) end.
    assert (Ev : forall k, (if fwd then dr st k else du st k) = v k) by (intros k; unfold v; destruct fwd; reflexivity).
    destruct (tiny (on s v)) eqn:Et.
    - eexists. split; [reflexivity|]. split.
      + split; [|intros t _; destruct fwd; reflexivity]. intros k Hk. apply memb_false in Hk. destruct fwd; cbn [du dr]; rewrite zero_at_spec, Hk; auto.
      + intros k Hk. rewrite Ev. apply Htiny in Et. rewrite Forall_forall in Et. rewrite (Et (v k)) by (apply in_map; exact Hk).
        rewrite (applied_rows fwd s _ (fun _ => F0) k Hw).
        * unfold applied. destruct fwd; apply (total_zero _ _ _ _ _ _ Fth); intros e _; [destruct (e_row e =? k); [destruct (e_col e); cbn [over]; ring|reflexivity]|destruct (col_eqb (e_col e) (CU k)); [ring|reflexivity]].
        * intros j Hj. apply memb_spec in Hj. destruct fwd; cbn [du dr]; rewrite zero_at_spec, Hj; reflexivity.
    - destruct (Hs (on s v) st (map_length _ _) Hr) as (x & st1 & E & Q & I). rewrite E. cbn [bind]. pose proof (proj1 Q) as Lx. rewrite Lx, Nat.eqb_refl.
      eexists. split; [reflexivity|]. split.
      + apply (inside_trans s st st1 _ I). split; [|intros t _; destruct fwd; reflexivity]. intros k Hk. apply memb_false in Hk. destruct fwd; cbn [du dr]; rewrite copy_at_spec, Hk; auto.
      + intros k Hk. rewrite Ev. rewrite <- (map_spread (rows s) x (proj1 (wf_nodup s Hw)) Lx) in Q. unfold on in Q. pose proof (proj1 (equations_map fwd s _ _ Hw) Q) as Q2. rewrite <- (Q2 k Hk).
        apply applied_rows; [exact Hw|]. intros j Hj. apply memb_spec in Hj. destruct fwd; cbn [du dr]; rewrite copy_at_spec, Hj; reflexivity.
  Qed.
End P.

From Coq Require Import Lqa SpecFloat.
From Coq Require Import Qabs.
From Verif Require Import Base BaseFacts VecModel OptionsModel SolveModel SolveSpec SolveProofs SolveProofs2.
Local Open Scope nat_scope.
Local Open Scope string_scope.

(** ** derivative options *)
Lemma smem_some : forall A (d : list (string * A)) k x, sget d k = Some x -> smem d k = true.
Proof. intros A d k x H. unfold smem, dmem. unfold sget in H. rewrite H. reflexivity. Qed.

Lemma pyeq_str : forall a b, pyeq (VStr a) (VStr b) = String.eqb a b.
Proof. reflexivity. Qed.

Definition same_opt (o o' : opt) : Prop :=
  o_lower o' = o_lower o /\ o_upper o' = o_upper o /\ o_values o' = o_values o /\ o_lock o' = o_lock o.

(** what setting 'type' does *)
Lemma set_type : forall d o l v so, d_kind d = Deriv -> sget (d_options d) "type" = Some o -> o_values o = Some l ->
    In (VStr v) l -> sget (d_options d) "step_size" = Some so ->
    exists d', setitem false d "type" (VStr v) = (d', Ok tt) /\ d_kind d' = Deriv /\ d_locked d' = d_locked d /\
      (exists o', sget (d_options d') "type" = Some o' /\ same_opt o o' /\ o_val o' = VStr v) /\
      (exists so', sget (d_options d') "step_size" = Some so' /\ o_changed so' = o_changed so /\
         o_val so' = (if o_changed so then o_val so else if String.eqb v "fd" then step_fd
                      else if String.eqb v "cs" then step_cs else o_val so)) /\
      (forall n, n <> "type" -> n <> "step_size" -> sget (d_options d') n = sget (d_options d) n).
Proof.
  intros d o l v so Hk Ho Hl Hin Hso. unfold setitem, base_setitem.
  rewrite (smem_some _ _ _ _ Ho), Ho. unfold check. cbn [andb]. rewrite Hl.
  assert (existsb (pyeq (VStr v)) l = true) as ->.
  { apply existsb_exists. exists (VStr v). split; [assumption|]. rewrite pyeq_str. apply String.eqb_refl. }
  cbn [d_kind d_options]. rewrite Hk. cbn [String.eqb Ascii.eqb Bool.eqb].
  unfold follow. cbn [d_options]. rewrite sget_sset. cbn [String.eqb Ascii.eqb Bool.eqb]. rewrite Hso.
  destruct (o_changed so) eqn:Ec.
  - eexists. split; [reflexivity|]. cbn [d_kind d_locked d_options]. split; [reflexivity|]. split; [reflexivity|]. split; [|split].
    + eexists. rewrite sget_sset, String.eqb_refl. split; [reflexivity|]. split; [repeat split; cbn; congruence|]. reflexivity.
    + exists so. rewrite sget_sset. cbn. repeat split; assumption.
    + intros n N1 N2. rewrite sget_sset. apply String.eqb_neq in N1. rewrite N1. reflexivity.
  - rewrite !pyeq_str.
    assert (Hn : forall n : string, n <> "type" -> String.eqb n "type" = false) by (intros n N; apply String.eqb_neq; exact N).
    assert (Hn2 : forall n : string, n <> "step_size" -> String.eqb n "step_size" = false) by (intros n N; apply String.eqb_neq; exact N).
    destruct (String.eqb_spec v "fd") as [->|N1].
    + cbn [String.eqb Ascii.eqb Bool.eqb]. unfold poke. cbn [d_options]. rewrite sget_sset. cbn [String.eqb Ascii.eqb Bool.eqb]. rewrite Hso.
      eexists. split; [reflexivity|]. cbn [d_kind d_locked d_options]. split; [reflexivity|]. split; [reflexivity|]. split; [|split].
      * eexists. rewrite sget_sset. cbn [String.eqb Ascii.eqb Bool.eqb]. rewrite sget_sset, String.eqb_refl.
        split; [reflexivity|]. split; [repeat split; cbn; congruence|]. reflexivity.
      * eexists. rewrite sget_sset, String.eqb_refl. split; [reflexivity|]. split; [exact Ec|reflexivity].
      * intros n M1 M2. rewrite !sget_sset, Hn, Hn2 by assumption. reflexivity.
    + destruct (String.eqb_spec v "cs") as [->|N2].
      * unfold poke. cbn [d_options]. rewrite sget_sset. cbn [String.eqb Ascii.eqb Bool.eqb]. rewrite Hso.
        eexists. split; [reflexivity|]. cbn [d_kind d_locked d_options]. split; [reflexivity|]. split; [reflexivity|]. split; [|split].
        -- eexists. rewrite sget_sset. cbn [String.eqb Ascii.eqb Bool.eqb]. rewrite sget_sset, String.eqb_refl.
           split; [reflexivity|]. split; [repeat split; cbn; congruence|]. reflexivity.
        -- eexists. rewrite sget_sset, String.eqb_refl. split; [reflexivity|]. split; [exact Ec|reflexivity].
        -- intros n M1 M2. rewrite !sget_sset, Hn, Hn2 by assumption. reflexivity.
      * eexists. split; [reflexivity|]. cbn [d_kind d_locked d_options]. split; [reflexivity|]. split; [reflexivity|]. split; [|split].
        -- eexists. rewrite sget_sset, String.eqb_refl. split; [reflexivity|]. split; [repeat split; cbn; congruence|]. reflexivity.
        -- exists so. rewrite sget_sset. cbn. repeat split; assumption.
        -- intros n M1 M2. rewrite sget_sset, Hn by assumption. reflexivity.
Qed.

Lemma newton_options : forall S (ns : nsystem S) o d s r d' fail, newton ns o d s = (r, d', Reported fail) ->
    usual_options d -> (forall n, value_of d' n = value_of d n) /\ d_locked d' = Some true.
Proof.
  intros S ns o d s r d' fail H (Hk & (ot & l & v & Ht & Hl & Hv & Hin & Hus) & (so & Hso & Hdef)).
  unfold newton in H.
  destruct (children _ s) as [s1 [e1|]]; [discriminate|].
  destruct (apply_nl _ s1) as [s2 [e2|]]; [discriminate|]. cbv zeta in H.
  assert (Hg : getitem d "type" = Ok (VStr v)) by (unfold getitem; rewrite Ht, Hv; reflexivity).
  rewrite Hg in H.
  destruct (set_type (unlock d false) ot l "user" so) as (d2 & E2 & K2 & L2 & (o2 & O2 & (_ & _ & S2 & _) & V2) & (so2 & Q2 & C2 & W2) & R2); try assumption.
  rewrite E2 in H. destruct (n_loop _ _ _ _ _ _ _) as [r3 [n3 e3]] eqn:En.
  destruct e3 as [e3|]; [injection H as -> <- ->; exfalso; eapply n_no_report; [exact En|reflexivity]|].
  rewrite <- S2 in Hl.
  destruct (set_type d2 o2 l v so2) as (d3 & E3 & K3 & L3 & (o3 & O3 & _ & V3) & (so3 & Q3 & C3 & W3) & R3); try assumption.
  rewrite E3 in H. injection H as <- <- _. split; [|reflexivity].
  intros n. unfold value_of, unlock. cbn [d_options].
  destruct (String.eqb_spec n "type") as [->|N1]; [rewrite O3, Ht; cbn; congruence|].
  destruct (String.eqb_spec n "step_size") as [->|N2].
  - rewrite Q3, Hso. cbn [option_map]. f_equal. rewrite W3, W2, C2.
    cbn [String.eqb Ascii.eqb Bool.eqb]. destruct (o_changed so) eqn:Ec; [reflexivity|].
    destruct (Hdef eq_refl) as [D1 D2]. unfold value_of in D1, D2. rewrite Ht in D1, D2. cbn [option_map] in D1, D2. rewrite Hv in D1, D2.
    destruct (String.eqb_spec v "fd") as [->|M1]; [symmetry; apply D1; reflexivity|].
    destruct (String.eqb_spec v "cs") as [->|M2]; [symmetry; apply D2; reflexivity|]. reflexivity.
  - rewrite R3, R2 by assumption. reflexivity.
Qed.

(** ** Brent *)
Lemma brentq_last : forall S (bs : bsystem S) t s pts s' pts' x,
    (forall s x, peek bs (put bs s x) = x) ->
    (forall s s1, children (b_sys bs) s = (s1, None) -> peek bs s1 = peek bs s) ->
    (forall s s1, apply_nl (b_sys bs) s = (s1, None) -> peek bs s1 = peek bs s) ->
    brentq bs t s pts = (s', pts', Ok (inl x)) ->
    (pts' = pts /\ s' = s) \/ (exists p, pts' = (p ++ [peek bs s'])%list /\ length pts <= length p).
Proof.
  intros S bs t s pts s' pts' x Hp Hc Ha. revert s pts.
  induction t as [r|e signs|y next IH]; intros s pts H; cbn [brentq] in H.
  - injection H as <- <- <-. left. split; reflexivity.
  - destruct e; try destruct signs; discriminate.
  - destruct (children (b_sys bs) (put bs s y)) as [s1 [e1|]] eqn:E1; [destruct e1; discriminate|].
    destruct (apply_nl (b_sys bs) s1) as [s2 [e2|]] eqn:E2; [destruct e2; discriminate|].
    apply Hc in E1. apply Ha in E2. apply IH in H. right. destruct H as [[-> ->]|[p [-> Hl]]].
    + exists pts. rewrite E2, E1, Hp. split; [reflexivity|lia].
    + exists p. rewrite app_length in Hl. cbn in Hl. split; [reflexivity|lia].
Qed.

Lemma brent_last : forall S (bs : bsystem S) err t s s' pts root,
    (forall s x, peek bs (put bs s x) = x) ->
    (forall s s1, children (b_sys bs) s = (s1, None) -> peek bs s1 = peek bs s) ->
    (forall s s1, apply_nl (b_sys bs) s = (s1, None) -> peek bs s1 = peek bs s) ->
    brent bs err t s = (s', pts, BFound root) ->
    forall p x, pts = (p ++ [x])%list -> peek bs s' = x.
Proof.
  intros S bs err t s s' pts root Hp Hc Ha H p x Hx. unfold brent in H.
  destruct (children (b_sys bs) s) as [s1 [e1|]]; [discriminate|].
  destruct (apply_nl (b_sys bs) s1) as [s2 [e2|]]; [discriminate|].
  destruct (brentq bs t s2 []) as [[s3 pts3] [[r|b]|e]] eqn:E; [|destruct err; discriminate|discriminate].
  injection H as <- <- <-. apply brentq_last in E; try assumption.
  destruct E as [[-> _]|[q [-> _]]]; [destruct p; discriminate|].
  apply app_inj_tail in Hx. destruct Hx as [_ ->]. reflexivity.
Qed.

(** ** binary64 *)
Definition b_add := SFadd 53 1024.
Definition b_sub := SFsub 53 1024.
Definition finite64 (x : spec_float) : Prop := valid_binary 53 1024 x = true /\ x <> S754_nan /\ forall b, x <> S754_infinity b.

Lemma add_opp_zero : forall x, finite64 x -> exists z, b_add (SFopp x) x = S754_zero z /\ b_sub x (S754_zero z) = x.
Proof.
  intros [[]|b| |s m e] (_ & H1 & H2); try congruence; try (exfalso; apply (H2 b); reflexivity).
  - exists false. split; reflexivity.
  - exists false. split; reflexivity.
  - exists false. unfold b_add. cbn [SFopp SFadd]. split; [|reflexivity].
    destruct s; cbn [negb cond_Zopp]; rewrite ?Z.add_opp_diag_r, ?Z.add_opp_diag_l; reflexivity.
Qed.

Lemma float_fixed_point : forall O (solve : cstate spec_float O -> call (cstate spec_float O)) s o',
    Forall finite64 (c_u s) -> (forall r, solve (mkC (c_u s) (c_obj s) r) = (mkC (c_u s) o' r, None)) ->
    exists r, apply_nonlinear b_add b_sub SFopp solve s = (mkC (c_u s) o' r, None) /\
              length r = length (c_u s) /\ Forall (fun x => exists z, x = S754_zero z) r.
Proof.
  intros O solve s o' HF H. unfold apply_nonlinear. rewrite H. cbn [c_u c_obj c_r].
  exists (vzip b_add (map SFopp (c_u s)) (c_u s)).
  assert (K : forall l, Forall finite64 l ->
    vzip b_sub l (vzip b_add (map SFopp l) l) = l /\ length (vzip b_add (map SFopp l) l) = length l /\
    Forall (fun x => exists z, x = S754_zero z) (vzip b_add (map SFopp l) l)).
  { induction l as [|x l IH]; intros HL; [repeat split; constructor|]. inversion HL as [|x' l' Hx Hl]; subst.
    destruct (IH Hl) as (I1 & I2 & I3). destruct (add_opp_zero x Hx) as (z & E1 & E2).
    cbn [map vzip]. rewrite E1, E2, I1. repeat split; [simpl; lia|]. constructor; [exists z; reflexivity|assumption]. }
  destruct (K _ HF) as (I1 & I2 & I3). rewrite I1. repeat split; assumption.
Qed.

(** ** concrete systems *)
(** a system whose state is the number of evaluations and the vector of unknowns *)
Definition counting (f : nat -> fl) (un : list Q -> fl) : system (nat * list Q) :=
  mkSys (fun s => (s, None)) (fun s => ((S (fst s), snd s), None)) snd (fun s u => (fst s, u)) (fun s => f (fst s)) un.
(** a one entry norm *)
Definition abs1 (v : list Q) : fl := match v with [] => Fin 0 | x :: _ => Fin (Qabs x) end.
Definition gs2 (n : nat) : gsopts := mkG (1 # 10) (1 # 10) (1 # 1000) n false false 0 1.
Definition nwt (n : nat) (sub : bool) : nopts := mkN (1 # 10) (1 # 10) (1 # 1000) n false 1 sub None.
Definition deriv_fd : dict :=
  nth 0 (w_dicts (run start (system_options ++ [OSet 0 "type" (VStr "fd"); OLock])%list)) (mkDict Plain [] [] None).

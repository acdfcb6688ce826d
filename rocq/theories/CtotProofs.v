(** Lemmas for CtotProps.v. *)
From Coq Require Import Field_theory.
From Verif Require Import Base BaseFacts GradModel GradSpec GradProofs CheckModel CheckSpec TotModel TotSpec TotProofs TotProofs2 CtotModel CtotSpec.
From Verif Require FdModel FdSpec ReqModel.
Local Open Scope string_scope.
Local Open Scope nat_scope.
Local Open Scope list_scope.

Section Ctot.
  Context {F : Type} (F0 F1 : F) (fadd fmul fsub : F -> F -> F) (fopp : F -> F) (fdiv : F -> F -> F) (finv : F -> F) (flt : F -> F -> bool).
  Notation prob := (prob (F:=F)).
  Notation arr := (arr (F:=F)).
  Notation root := (root (F:=F)).
  Notation st := (FdModel.st (F:=F)).
  Notation none := (fun _ : string => (None : option F)).

  Lemma find_app : forall A (f : A -> bool) l m, find f (l ++ m) = match find f l with Some a => Some a | None => find f m end.
  Proof. intros A f l m. induction l as [|a l IH]; cbn; [reflexivity|]. destruct (f a); [reflexivity|exact IH]. Qed.
  Lemma flat_get : forall (J : GradModel.jdict (F:=F)) u v row K, sget J u = Some row -> sget row v = Some (Some K) -> jget (flat J) u v = Some K.
  Proof.
    intros J u v row K HJ Hr. unfold jget. assert (E : find (fun k : string * string * arr => String.eqb (fst (fst k)) u && String.eqb (snd (fst k)) v) (flat J) = Some (u, v, K)); [|rewrite E; reflexivity].
    revert HJ. unfold sget. induction J as [|[n r] J IH]; intros HJ; [discriminate|]. cbn [dget] in HJ. unfold flat. cbn [flat_map]. rewrite find_app.
    assert (G : forall l, find (fun k : string * string * arr => String.eqb (fst (fst k)) u && String.eqb (snd (fst k)) v)
                            (flat_map (fun cell : string * option arr => match snd cell with Some K0 => [(n, fst cell, K0)] | None => [] end) l)
                          = if String.eqb n u then find (fun k : string * string * arr => String.eqb (snd (fst k)) v)
                                                     (flat_map (fun cell : string * option arr => match snd cell with Some K0 => [(n, fst cell, K0)] | None => [] end) l) else None).
    { induction l as [|[m [c|]] l IHl]; cbn; [destruct (String.eqb n u); reflexivity| |exact IHl]. rewrite IHl. destruct (String.eqb n u); [cbn; reflexivity|reflexivity]. }
    cbn [fst snd]. rewrite G. destruct (String.eqb_spec u n) as [->|N].
    - rewrite String.eqb_refl. assert (r = row) by congruence. subst r. clear - Hr. unfold sget in Hr. induction row as [|[m c] row IHr]; [discriminate|]. cbn [dget] in Hr. cbn [flat_map fst snd].
      destruct (String.eqb_spec v m) as [->|Nm].
      + assert (c = Some K) by congruence. subst c. cbn. rewrite String.eqb_refl. reflexivity.
      + destruct c as [c|]; cbn [app find fst snd]; [|exact (IHr Hr)]. destruct (String.eqb_spec m v); [congruence|]. exact (IHr Hr).
    - destruct (String.eqb_spec n u); [congruence|]. exact (IH HJ).
  Qed.

  (** the block of a pair in a dictionary *)
  Definition block_of (p : prob) (u v : string) (X : nat -> nat -> F) (K : arr) : Prop :=
    a_rows K = length (wanted p (p_qoi p) u) /\ a_cols K = length (wanted p (p_poi p) v) /\
    forall i j k q, nth_error (wanted p (p_qoi p) u) i = Some k -> nth_error (wanted p (p_poi p) v) j = Some q -> a_at K i j = X k q.
  Lemma dict_block : forall (p : prob) indep unknown X J u v, jacobian_dict fmul p indep unknown none none None X J -> In u unknown -> In v indep ->
    wanted p (p_qoi p) u <> [] -> wanted p (p_poi p) v <> [] -> exists K, jget (flat J) u v = Some K /\ block_of p u v X K.
  Proof.
    intros p indep unknown X J u v HJ Hu Hv Hw1 Hw2. specialize (HJ u). destruct (sget J u) as [row|] eqn:E; [|contradiction]. destruct HJ as [_ HJ]. destruct (HJ v) as [H1 H2].
    destruct (sget row v) as [cell|] eqn:Er; [|exfalso; apply (proj2 H1); [split; [exact Hv|exact I]|reflexivity]].
    destruct (H2 cell eq_refl Hw1 Hw2) as (K & -> & K1 & K2 & K3). exists K. split; [exact (flat_get J u v row K E Er)|]. split; [exact K1|]. split; [exact K2|exact K3].
  Qed.
  Lemma block_same : forall (p : prob) u v X Y K L, block_of p u v X K -> block_of p u v Y L -> (same_array K L <-> agree p u v X Y).
  Proof.
    intros p u v X Y K L (K1 & K2 & K3) (L1 & L2 & L3). split.
    - intros (_ & _ & H) k q Hk Hq. apply In_nth_error in Hk. destruct Hk as [i Hi]. apply In_nth_error in Hq. destruct Hq as [j Hj].
      rewrite <- (K3 i j k q Hi Hj), <- (L3 i j k q Hi Hj). apply H; [rewrite K1|rewrite K2]; apply nth_error_Some; congruence.
    - intros H. split; [congruence|]. split; [congruence|]. intros i j Hi Hj. rewrite K1 in Hi. rewrite K2 in Hj.
      destruct (nth_error (wanted p (p_qoi p) u) i) as [k|] eqn:Ei; [|apply nth_error_Some in Hi; contradiction].
      destruct (nth_error (wanted p (p_poi p) v) j) as [q|] eqn:Ej; [|apply nth_error_Some in Hj; contradiction].
      rewrite (K3 i j k q Ei Ej), (L3 i j k q Ei Ej). apply H; eapply nth_error_In; eassumption.
  Qed.

  Section Report.
    Context (norm : arr -> Q) (minus : arr -> arr -> arr).
    Lemma used_get : forall (J : CheckModel.jdict (M:=arr)) u v K, jget J u v = Some K -> used J u v = Ok (Some K).
    Proof. intros J u v K H. unfold used. destruct J; [discriminate|]. rewrite H. reflexivity. Qed.
    Lemma assemble_all : forall indep unknown jf jr jd (P : string -> string -> ldata -> Prop),
      (forall u v, In u unknown -> In v indep -> exists fd f r, jget jd u v = Some fd /\ used jf u v = Ok f /\ used jr u v = Ok r /\ P u v (report_one norm minus fd f r None)) ->
      exists out, assemble norm minus indep unknown jf jr jd [] = Ok out /\ map fst out = pairs indep unknown /\ forall u v d, In (u, v, d) out -> P u v d.
    Proof.
      intros indep unknown jf jr jd P H. unfold assemble, pairs.
      assert (G : forall l acc, (forall v u, In (v, u) l -> In u unknown /\ In v indep) ->
        exists new, for_each (fun pu acc => let '(p, u) := pu in
                match jget jd u p with
                | None => Ok acc
                | Some fd => let! f := used jf u p in let! r := used jr u p in let! d := used [] u p in Ok (acc ++ [(u, p, report_one norm minus fd f r d)])
                end) l acc = Ok (acc ++ new) /\ map fst new = map (fun vu => (snd vu, fst vu)) l /\ forall u v d, In (u, v, d) new -> P u v d).
      { induction l as [|[v u] l IH]; intros acc Hl.
        - exists []. cbn. rewrite app_nil_r. split; [reflexivity|]. split; [reflexivity|]. intros u v d [].
        - destruct (Hl v u (or_introl eq_refl)) as [Hu Hv]. destruct (H u v Hu Hv) as (fd & f & r & E1 & E2 & E3 & HP). cbn [for_each]. rewrite E1, E2, E3. cbn [bind used].
          destruct (IH (acc ++ [(u, v, report_one norm minus fd f r None)])) as (new & E & Em & Hn); [intros v' u' Hin; apply Hl; right; exact Hin|].
          exists ((u, v, report_one norm minus fd f r None) :: new). rewrite <- app_assoc in E. split; [exact E|]. split; [cbn [map fst snd]; rewrite Em; reflexivity|].
          intros u' v' d [Eq|Hin]; [|apply Hn; exact Hin]. assert (u' = u /\ v' = v /\ d = report_one norm minus fd f r None) as (-> & -> & ->) by (repeat split; congruence). exact HP. }
      destruct (G (flat_map (fun p => map (pair p) unknown) indep) []) as (new & E & Em & Hn).
      { intros v u Hin. apply in_flat_map in Hin. destruct Hin as (w & Hw & Hin). apply in_map_iff in Hin. destruct Hin as (x & Eq & Hx).
        assert (w = v /\ x = u) as [-> ->] by (split; congruence). auto. }
      exists new. split; [exact E|]. split; [|exact Hn]. rewrite Em. clear. induction indep as [|v l IH]; cbn; [reflexivity|]. rewrite map_app, IH, map_map. reflexivity.
    Qed.
  End Report.

  Lemma not_objects_spec : forall (c : check) l out, not_objects c l = Ok out -> out = filter (fun n => match ch_upbo c n with Some b => negb b | None => false end) l /\ forall n, In n l -> ch_upbo c n <> None.
  Proof.
    intros c. induction l as [|n l IH]; intros out H; cbn [not_objects] in H.
    - assert (out = []) by congruence. subst. split; [reflexivity|]. intros n [].
    - destruct (ch_upbo c n) as [b|] eqn:E; [|discriminate]. destruct (not_objects c l) as [r|]; [|discriminate]. cbn [bind] in H. destruct (IH r eq_refl) as [I1 I2].
      split; [cbn [filter]; rewrite E; destruct b; cbn; congruence|]. intros m [<-|Hm]; [congruence|exact (I2 m Hm)].
  Qed.
End Ctot.

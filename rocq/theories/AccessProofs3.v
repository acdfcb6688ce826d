(** Lemmas about reading and setting variables. *)
From Coq Require Import Permutation.
From Verif Require Import Base BaseFacts GraphSpec OrderModel PathModel NameModel NameSpec NameProofs ConnModel ConnSpec ConnProofs3 ConnProofs4 ConnProofs5 AccessModel AccessSpec AccessProofs2.
Local Open Scope nat_scope.

Section Root.
  Variable V : Type.
  Variables (s : sys) (d : data) (r : result).
  Hypothesis W : wf_sys s.
  Hypothesis E : setup_variables [] s = Ok d.
  Hypothesis D : dangling_ok s r.
  Hypothesis CP : forall t, connected r t -> In t (plist s).

  Lemma set_cells : forall l ps (w : world V), let w' := fold_left (fun w p => set_cell w l p) ps w in
      uvec w' = uvec w /\ heap w' = heap w /\ forall q, pcell w' q = if in_dec path_dec q ps then assign w (pcell w q) l else pcell w q.
  Proof.
    intros l. induction ps as [|p ps IH]; intros w; cbv zeta; cbn [fold_left]; [split; [|split]; auto|].
    destruct (IH (set_cell w l p)) as (A & B & C). rewrite A, B. split; [reflexivity|]. split; [reflexivity|]. intros q. rewrite C. cbn [set_cell pcell].
    destruct (peqb q p) eqn:Q.
    - apply peqb_eq in Q. subst q. destruct (in_dec path_dec p (p :: ps)) as [_|K]; [|exfalso; apply K; left; reflexivity]. destruct (in_dec path_dec p ps); [|reflexivity]. unfold assign. cbn [heap]. destruct (pcell w p); reflexivity.
    - destruct (in_dec path_dec q ps) as [H|H]; destruct (in_dec path_dec q (p :: ps)) as [K|K].
      + reflexivity.
      + exfalso. apply K. right. exact H.
      + destruct K as [K|K]; [|contradiction]. subst q. rewrite peqb_refl in Q. discriminate.
      + reflexivity.
  Qed.
  Lemma abs_u_name : forall name, (exists u, pget (abs_u d) name = Some u) <-> unknown_name s name.
  Proof. intros name. split; [intros (u & K); apply (abs_u_iff s d W E) in K; exists u; exact K|intros (u & K); exists u; apply (abs_u_iff s d W E); exact K]. Qed.
  Lemma abs_p_name : forall name, match pget (abs_p d) name with
      | Some (p :: l) => filter (fun q => peqb (prom_of s q) name) (plist s) = p :: l /\ In p (plist s) /\ prom_of s p = name
      | Some [] => False
      | None => ~ param_name s name
      end.
  Proof.
    intros name. destruct (pget (abs_p d) name) as [l|] eqn:K.
    - apply (abs_p_list s d W E) in K. destruct K as [K1 K2]. destruct l as [|p l]; [congruence|]. split; [symmetry; exact K2|]. assert (I : In p (p :: l)) by (left; reflexivity). rewrite K2 in I. apply filter_In in I. destruct I as [I1 I2]. split; [exact I1|]. apply peqb_eq. exact I2.
    - intros (p & P1 & P2). destruct (abs_p_of s d W E p P1) as (l & L). rewrite P2 in L. congruence.
  Qed.
  Lemma root_param_connected : forall name, root_param r name = true -> connected r name.
  Proof. intros name K. unfold root_param in K. destruct (pget (connections r) name) as [x|] eqn:P; [|discriminate]. exists x. apply pget_in. exact P. Qed.

  (** reading *)
  Lemma get_cases : forall (w : world V) name,
      (unknown_name s name /\ get d r w name = Ok (uvec w name)) \/
      (~ unknown_name s name /\ root_param r name = true /\ get d r w name = Ok (content w (pcell w name))) \/
      (~ unknown_name s name /\ root_param r name = false /\ exists p l, filter (fun q => peqb (prom_of s q) name) (plist s) = p :: l /\ prom_of s p = name /\ In p (plist s) /\ get d r w name = Ok (content w (pcell w p))) \/
      (~ unknown_name s name /\ root_param r name = false /\ ~ param_name s name /\ get d r w name = Err KeyError).
  Proof.
    intros w name. unfold get. destruct (pget (abs_u d) name) as [u|] eqn:U; [left; split; [apply abs_u_name; exists u; exact U|reflexivity]|]. right.
    assert (NU : ~ unknown_name s name) by (intros K; apply abs_u_name in K; destruct K as (u & K); congruence).
    destruct (root_param r name) eqn:RP; [left; auto|]. right. pose proof (abs_p_name name) as AP. destruct (pget (abs_p d) name) as [[|p l]|] eqn:P; [contradiction| |].
    - left. split; [exact NU|]. split; [reflexivity|]. exists p, l. destruct AP as (A & B & C). auto.
    - right. split; [exact NU|]. split; [reflexivity|]. split; [exact AP|]. destruct (pget (dangling_of r) name) as [l|] eqn:DG; [|reflexivity]. exfalso. destruct D as (D1 & _). destruct (D1 name l DG) as (n & T & A & _ & m & M1 & M2).
      apply AP. exists m. split; [|exact M2]. apply A in M1. eapply feeds_param; [exact (proj1 T)|exact M1].
  Qed.

  (** the entry of a name in the dictionary of unconnected inputs *)
  Lemma dangling_name : one_link s -> forall n p, free_input s n -> feeds s n p -> exists l, pget (dangling_of r) (prom_of s p) = Some l /\ forall x, In x l <-> feeds s n x.
  Proof.
    intros O n p FI F. pose proof (free_unconnected s r n O D FI) as NC. destruct D as (D1 & D2 & _). pose proof (D2 n (proj1 FI) (NC n (feeds_refl s n)) p F) as K. destruct (pget (dangling_of r) (prom_of s p)) as [l|] eqn:L; [|congruence]. exists l. split; [reflexivity|].
    destruct (D1 _ l L) as (n' & T' & A & C & m & M1 & M2). apply A in M1.
    assert (PP : In p (plist s)) by (eapply feeds_param; [exact (proj1 (proj1 FI))|exact F]). destruct (abs_p_of s d W E p PP) as (lp & LP). apply (abs_p_list s d W E) in LP. destruct LP as [LP1 LP2]. destruct lp as [|f lr]; [congruence|].
    destruct (first_fed s n p f lr O FI F (eq_sym LP2)) as [FF _].
    (* n' feeds f as well, since the name is that of m *)
    assert (NU : forall u, In u (ulist s) -> prom_of s u <> prom_of s f).
    { intros u Hu Kc. destruct (first_fed s n p f lr O FI F (eq_sym LP2)) as [_ PF]. apply (proj2 FI p u F Hu). eapply feeds_step; [|constructor]. right. left. split; [exact Hu|]. split; [exact PP|congruence]. }
    assert (PM : In m (plist s)) by (eapply feeds_param; [exact (proj1 T')|exact M1]).
    assert (FM : feeds s n' f).
    { assert (IM : In m (f :: lr)) by (rewrite LP2; apply filter_In; split; [exact PM|apply peqb_eq; exact M2]). destruct IM as [ ->|IM]; [exact M1|].
      assert (PF : prom_of s f = prom_of s p) by (eapply first_fed; eauto). assert (L1 : link s f m) by (right; right; split; [exact NU|exists lr; rewrite PF; auto]).
      destruct (feeds_last s n' m M1) as [ ->|(b & B1 & B2)]; [exfalso; exact (proj2 T' f L1)|]. rewrite (O f b m L1 B2). exact B1. }
    rewrite (unique_top s n n' f O (proj1 FI) T' FF FM). exact A.
  Qed.
  Lemma free_name : forall n p, free_input s n -> feeds s n p -> ~ unknown_name s (prom_of s p).
  Proof.
    intros n p FI F (u & Hu & K). apply (proj2 FI p u F Hu). eapply feeds_step; [|constructor]. right. left. split; [exact Hu|]. split; [eapply feeds_param; [exact (proj1 (proj1 FI))|exact F]|exact K].
  Qed.
  Lemma unfed_unchanged : forall (w w' : world V) n, one_link s -> free_input s n -> uvec w' = uvec w -> heap w' = heap w ->
      (forall q, ~ feeds s n q -> pcell w' q = pcell w q) ->
      forall name, (forall x, feeds s n x -> prom_of s x <> name) -> get d r w' name = get d r w name.
  Proof.
    intros w w' n O FI HU HH HC name HN. unfold get. destruct (pget (abs_u d) name) as [u|]; [rewrite HU; reflexivity|]. destruct (root_param r name) eqn:RP.
    - rewrite (HC name); [unfold content; rewrite HH; reflexivity|]. intros K. exact (free_unconnected s r n O D FI name K (root_param_connected name RP)).
    - pose proof (abs_p_name name) as AP. destruct (pget (abs_p d) name) as [[|p lp]|]; [reflexivity| |reflexivity]. destruct AP as (_ & _ & PN). rewrite (HC p); [unfold content; rewrite HH; reflexivity|]. intros K. exact (HN p K PN).
  Qed.
  Lemma fed_read : forall (w : world V) n v, one_link s -> free_input s n -> (forall x, feeds s n x -> content w (pcell w x) = v) ->
      forall x, feeds s n x -> unshadowed s (prom_of s x) -> get d r w (prom_of s x) = Ok v.
  Proof.
    intros w n v O FI HV x F US. destruct (get_cases w (prom_of s x)) as [[K _]|[(_ & RP & G)|[(_ & _ & p & l & FL & PP & IP & G)|(_ & _ & NP & _)]]].
    - exfalso. exact (free_name n x FI F K).
    - exfalso. pose proof (root_param_connected _ RP) as C.
      set (y := prom_of s x) in *. pose proof (CP y C) as IP. pose proof (US IP) as PY.
      assert (PX : In x (plist s)) by (eapply feeds_param; [exact (proj1 (proj1 FI))|exact F]). destruct (abs_p_of s d W E x PX) as (lp & LP). apply (abs_p_list s d W E) in LP. destruct LP as [LP1 LP2]. destruct lp as [|f lr]; [congruence|].
      destruct (first_fed s n x f lr O FI F (eq_sym LP2)) as [FF PF].
      apply (free_unconnected s r n O D FI y); [|exact C]. assert (IM : In y (f :: lr)) by (rewrite LP2; apply filter_In; split; [exact IP|apply peqb_eq; exact PY]). destruct IM as [<-|IM]; [exact FF|].
      apply feeds_snoc with (b := f); [exact FF|]. right. right. split; [|exists lr; rewrite PF; auto]. intros u Hu K. apply (free_name n x FI F). exists u. split; [exact Hu|congruence].
    - rewrite G. f_equal. apply HV. eapply first_fed; eauto.
    - exfalso. apply NP. exists x. split; [eapply feeds_param; [exact (proj1 (proj1 FI))|exact F]|reflexivity].
  Qed.
End Root.

(** C134: values of design variables and objectives under MPI. *)
From Verif Require Import Base BaseFacts MpvModel MpvSpec.
Local Open Scope list_scope.
Local Open Scope nat_scope.

Section Step.
  Context {V A : Type}.
  Lemma heads_map : forall (l : list nat) (r : nat) (s : nat -> option V) (c : nat -> option V -> prog V A), heads (map (fun i => Bcast r (s i) (c i)) l) = Some (map (fun i => (r, s i, c i)) l).
  Proof. induction l as [|i l IH]; intros r s c; [reflexivity|]. cbn. rewrite IH. reflexivity. Qed.
  Lemma step_bcast : forall P r (s : nat -> option V) (c : nat -> option V -> prog V A), r < P -> step (map (fun i => Bcast r (s i) (c i)) (seq 0 P)) = Some (map (fun i => c i (s r)) (seq 0 P)).
  Proof.
    intros P r s c H. unfold step. rewrite heads_map. assert (N : nth_error (seq 0 P) r = Some r). { rewrite (nth_error_nth' _ 0) by (rewrite seq_length; exact H). rewrite seq_nth by exact H. reflexivity. }
    revert N. generalize (seq 0 P) as L. intros [|i l] N; [destruct r; discriminate N|]. cbn [map].
    match goal with |- context [forallb ?p ?q] => replace (forallb p q) with true by (symmetry; apply forallb_forall; intros h I; apply in_map_iff in I; destruct I as (j & <- & _); cbn; apply Nat.eqb_refl) end. cbv iota.
    change ((r, s i, c i) :: map (fun i => (r, s i, c i)) l) with (map (fun i => (r, s i, c i)) (i :: l)). rewrite nth_error_map, N. cbn [option_map map snd]. rewrite map_map. reflexivity.
  Qed.
  Lemma exec_trans : forall (a b c : list (prog V A)), exec a b -> exec b c -> exec a c.
  Proof. intros a b c H. revert c. induction H as [ps|ps qs rs S0 H IH]; intros c H2; [exact H2|]. econstructor; [exact S0|]. apply IH. exact H2. Qed.
End Step.

Section Facts.
  Context {K V : Type} (owner : K -> nat) (dat : nat -> K -> option V) (pick scale : K -> V -> res V).
  (** alone a process has everything *)
  Definition holder (nproc : nat) (k : K) : nat := if 1 <? nproc then owner k else 0.
  Notation at_ P ks acc := (map (fun rank => get_vars owner dat pick scale P rank ks acc) (seq 0 P)).
  Notation holds P := (holds (holder P) dat pick).
  Notation values P := (values (holder P) dat pick scale).
  Lemma holds_iff : forall P k w, holds P k w <-> bind (local dat (holder P k) k) (pick k) = Ok w.
  Proof. intros P k w. unfold MpvSpec.holds, local. destruct (dat (holder P k) k) as [v|]; cbn; split; [intros (v' & [= <-] & E); exact E|intros E; exists v; auto|intros (v & Q & _); discriminate Q|discriminate]. Qed.
  (** the next variable *)
  Lemma one : forall P k w ks acc, 0 < P -> (1 < P -> owner k < P) -> holds P k w -> exec (at_ P (k :: ks) acc) (map (fun rank => match scale k w with Err e => Ret (Err e) | Ok x => get_vars owner dat pick scale P rank ks (acc ++ [(k, x)]) end) (seq 0 P)).
  Proof.
    intros P k w ks acc P0 Ho H. apply holds_iff in H. unfold holder in H. destruct (Nat.ltb_spec 1 P) as [L|L].
    - specialize (Ho L). econstructor; [|constructor]. set (rest := fun (rank : nat) (v : option V) => match v with Some v => match scale k v with Err e => Ret (Err e) | Ok x => get_vars owner dat pick scale P rank ks (acc ++ [(k, x)]) end | None => Ret (Err TypeError) end).
      rewrite (map_ext_in _ (fun rank => Bcast (owner k) (if rank =? owner k then Some w else None) (rest rank))).
      + rewrite (step_bcast P (owner k) (fun rank => if rank =? owner k then Some w else None) rest Ho). rewrite Nat.eqb_refl. reflexivity.
      + intros i I. cbn [get_vars]. rewrite (proj2 (Nat.ltb_lt 1 P) L). destruct (Nat.eqb_spec i (owner k)) as [->|_]; [rewrite H; reflexivity|reflexivity].
    - assert (P = 1) by lia. subst P. cbn [seq map]. cbn [get_vars]. rewrite H. cbn. constructor.
  Qed.
  (** All processes get the same dictionary: the values held by the owners, scaled. *)
  Theorem C134_agree : forall P ks l, 0 < P -> (1 < P -> forall k, In k ks -> owner k < P) -> values P ks l -> exec (get_desvars owner dat pick scale P ks) (map (fun _ => Ret (Ok l)) (seq 0 P)).
  Proof.
    intros P ks l P0 Ho H. unfold get_desvars. change l with ([] ++ l). generalize (@nil (K * V)) as acc. induction H as [|k w x ks l Hw Hx H IH]; intros acc.
    - rewrite app_nil_r. constructor.
    - eapply exec_trans; [apply one; [exact P0|intros L; apply (Ho L); left; reflexivity|exact Hw]|]. rewrite Hx. replace (acc ++ (k, x) :: l) with ((acc ++ [(k, x)]) ++ l) by (rewrite <- app_assoc; reflexivity). apply IH. intros L q Hq. apply (Ho L). right. exact Hq.
  Qed.
  Theorem C134_objectives : forall rt P ks l, 0 < P -> (1 < P -> forall k, In k ks -> owner k < P) -> values P ks l -> exec (get_objectives owner dat pick scale rt P ks) (map (fun _ => Ret (Ok l)) (seq 0 P)).
  Proof. intros rt. exact C134_agree. Qed.
  (** A value that cannot be scaled stops all processes alike. *)
  Theorem C134_scale : forall P ks l k w e rest, 0 < P -> (1 < P -> forall q, In q (ks ++ k :: rest) -> owner q < P) -> values P ks l -> holds P k w -> scale k w = Err e -> exec (get_desvars owner dat pick scale P (ks ++ k :: rest)) (map (fun _ => Ret (Err e)) (seq 0 P)).
  Proof.
    intros P ks l k w e rest P0 Ho H Hk He. unfold get_desvars. generalize (@nil (K * V)) as acc. induction H as [|q w' x ks l Hw Hx H IH]; intros acc; cbn [app].
    - eapply exec_trans; [apply one; [exact P0|intros L; apply (Ho L); left; reflexivity|exact Hk]|]. rewrite He. constructor.
    - eapply exec_trans; [apply one; [exact P0|intros L; apply (Ho L); left; reflexivity|exact Hw]|]. rewrite Hx. apply IH. intros L p Hp. apply (Ho L). right. exact Hp.
  Qed.
  (** But indices out of range stop the owner only: it raises, the others wait for its broadcast,
      and nothing goes on. *)
  Theorem C134_index_refuted : forall P ks l k v e rest, 1 < P -> (forall q, In q (ks ++ k :: rest) -> owner q < P) -> values P ks l -> dat (owner k) k = Some v -> pick k v = Err e ->
    exists qs, exec (get_desvars owner dat pick scale P (ks ++ k :: rest)) qs /\ nth_error qs (owner k) = Some (Ret (Err e)) /\ step qs = None
      /\ forall i, i < P -> i <> owner k -> exists c, nth_error qs i = Some (Bcast (owner k) None c).
  Proof.
    intros P ks l k v e rest L Ho H Hk He. unfold get_desvars. generalize (@nil (K * V)) as acc. induction H as [|q w' x ks l Hw Hx H IH]; intros acc; cbn [app].
    - assert (N : forall i, i < P -> nth_error (seq 0 P) i = Some i) by (intros i Hi; rewrite (nth_error_nth' _ 0) by (rewrite seq_length; exact Hi); rewrite seq_nth by exact Hi; reflexivity). assert (Hr : owner k < P) by (apply Ho; left; reflexivity). exists (at_ P (k :: rest) acc). split; [constructor|].
      assert (R : nth_error (at_ P (k :: rest) acc) (owner k) = Some (Ret (Err e))). { rewrite nth_error_map, (N _ Hr). cbn [option_map get_vars]. rewrite (proj2 (Nat.ltb_lt 1 P) L), Nat.eqb_refl. unfold local. rewrite Hk. cbn [bind]. rewrite He. reflexivity. }
      split; [exact R|]. split.
      + unfold step. assert (X : forall (ps : list (prog V (list (K * V)))) i r, nth_error ps i = Some (Ret r) -> heads ps = None). { induction ps as [|p ps IHp]; intros [|i] r Q; cbn in Q; try discriminate Q; [injection Q as ->; reflexivity|]. cbn. destruct p; [reflexivity|]. rewrite (IHp i r Q). reflexivity. } rewrite (X _ _ _ R). reflexivity.
      + intros i Hi Ne. rewrite nth_error_map, (N _ Hi). cbn [option_map get_vars]. rewrite (proj2 (Nat.ltb_lt 1 P) L). destruct (Nat.eqb_spec i (owner k)) as [|_]; [contradiction|]. eexists. reflexivity.
    - destruct (IH ltac:(intros p Hp; apply Ho; right; exact Hp) (acc ++ [(q, x)])) as (qs & E & R). exists qs. split; [|exact R]. eapply exec_trans; [apply one; [lia|intros _; apply Ho; left; reflexivity|exact Hw]|]. rewrite Hx. exact E.
  Qed.
  (** "'array' to return a flat ndarray": the same dictionary *)
  Theorem C134_array_refuted : forall P ks, get_objectives owner dat pick scale "array" P ks = get_objectives owner dat pick scale "dict" P ks.
  Proof. reflexivity. Qed.
End Facts.
Print Assumptions C134_agree.
Print Assumptions C134_objectives.
Print Assumptions C134_scale.
Print Assumptions C134_index_refuted.
Print Assumptions C134_array_refuted.

(** two processes, two variables, each of them at one process *)
Definition mpv_dat (rank k : nat) : option (list nat) := if rank =? k then Some [10 * k; 10 * k + 1] else None.
Definition mpv_pick (i : nat) (k : nat) (v : list nat) : res (list nat) := match nth_error v i with Some x => Ok [x] | None => Err IndexError end.
Example C134_ex : values (holder (fun k => k) 2) mpv_dat (mpv_pick 1) (fun _ v => Ok (map (Nat.mul 2) v)) [0; 1] [(0, [2]); (1, [22])]
  /\ exec (get_desvars (fun k => k) mpv_dat (mpv_pick 1) (fun _ v => Ok (map (Nat.mul 2) v)) 2 [0; 1]) [Ret (Ok [(0, [2]); (1, [22])]); Ret (Ok [(0, [2]); (1, [22])])]
  /\ step (get_desvars (fun k => k) mpv_dat (mpv_pick 2) (fun _ v => Ok v) 2 [0; 1]) = None.
Proof.
  assert (H : values (holder (fun k => k) 2) mpv_dat (mpv_pick 1) (fun _ v => Ok (map (Nat.mul 2) v)) [0; 1] [(0, [2]); (1, [22])]).
  { econstructor; [exists [0; 1]; split; reflexivity|reflexivity|]. econstructor; [exists [10; 11]; split; reflexivity|reflexivity|constructor]. }
  split; [exact H|]. split; [|reflexivity]. apply (C134_agree (fun k => k) mpv_dat (mpv_pick 1) (fun _ v => Ok (map (Nat.mul 2) v)) 2 [0; 1]); [lia| |exact H]. intros _ k [<-|[<-|[]]]; lia.
Qed.

(** C138: the dump of a vector. *)
From Verif Require Import Base BaseFacts VdpModel VdpSpec.
Local Open Scope list_scope.
Local Open Scope nat_scope.

Lemma slen_app : forall a b : string, String.length (a ++ b) = String.length a + String.length b.
Proof. induction a as [|x a IH]; intros b; cbn; [reflexivity|]. rewrite IH. reflexivity. Qed.
Lemma spaces_blanks : forall n, blanks n = spaces n.
Proof. induction n as [|n IH]; [reflexivity|]. cbn. rewrite IH. reflexivity. Qed.
Lemma spaces_len : forall n, String.length (spaces n) = n.
Proof. induction n as [|n IH]; [reflexivity|]. cbn. rewrite IH. reflexivity. Qed.
Lemma left_ok : forall wid s, String.length s <= wid -> at_left wid s (left_in wid s).
Proof. intros wid s H. exists (wid - String.length s). unfold left_in. rewrite spaces_blanks. split; [reflexivity|]. rewrite slen_app, spaces_len. lia. Qed.
Lemma right_ok : forall wid s, String.length s <= wid -> at_right wid s (right_in wid s).
Proof. intros wid s H. exists (wid - String.length s). unfold right_in. rewrite spaces_blanks. split; [reflexivity|]. rewrite slen_app, spaces_len. lia. Qed.
Lemma max_of_le : forall l x, In x l -> x <= max_of l.
Proof. induction l as [|y l IH]; intros x H; [destruct H|]. destruct H as [<-|H]; cbn; [lia|]. specialize (IH x H). unfold max_of in *. lia. Qed.
Lemma values_ok : forall l, (forall e, In e l -> e_remote e = false) -> values l = Ok (map e_repr l).
Proof. induction l as [|e l IH]; intros H; [reflexivity|]. cbn [values]. unfold value. rewrite (H e (or_introl eq_refl)). cbn [bind]. rewrite IH by (intros x J; apply H; right; exact J). reflexivity. Qed.
Lemma values_remote : forall l e, In e l -> e_remote e = true -> values l = Err RuntimeError.
Proof.
  induction l as [|x l IH]; intros e H R; [destruct H|]. cbn [values]. unfold value. destruct (e_remote x) eqn:X; [reflexivity|]. destruct H as [<-|H]; [congruence|]. cbn [bind]. rewrite (IH e H R). reflexivity.
Qed.
Lemma Forall2_map : forall {A B} (P : A -> B -> Prop) (f : A -> B) l, (forall x, In x l -> P x (f x)) -> Forall2 P l (map f l).
Proof. intros A B P f. induction l as [|x l IH]; intros H; cbn; constructor; [apply H; left; reflexivity|]. apply IH. intros y J. apply H. right. exact J. Qed.

(** On one process: a row for every variable, in order, then those passed by object, in columns. *)
Theorem C138_table : forall dat, (forall e, In e dat -> e_remote e = false) -> exists wn ws wv rows objs,
  dump dat = (rows ++ objs, Ok tt)
  /\ Forall2 (fun e line => row wn ws wv (e_name e) (match e_slice e with Some s => s | None => EmptyString end) (e_repr e) line) (filter (fun e => negb (e_pbo e)) dat) rows
  /\ Forall2 (fun e line => obj_row wn ws (e_name e) (e_repr e) line) (filter e_pbo dat) objs.
Proof.
  intros dat H. unfold dump. rewrite (values_ok dat H). cbv zeta.
  set (wn := match dat with [] => 10 | _ => max_of (map (fun e => String.length (e_name e)) dat) end). set (wv := match map e_repr dat with [] => 1 | _ => max_of (map String.length (map e_repr dat)) end).
  set (ws := max_of (flat_map (fun e => match e_slice e with Some s => [String.length s] | None => [] end) dat ++ [if existsb e_pbo dat then 8 else 1])).
  assert (Hn : forall e, In e dat -> String.length (e_name e) <= wn). { intros e J. unfold wn. destruct dat as [|d dat']; [destruct J|]. apply max_of_le. apply in_map_iff. exists e. split; [reflexivity|exact J]. }
  assert (Hv : forall e, In e dat -> String.length (e_repr e) <= wv). { intros e J. unfold wv. destruct dat as [|d dat']; [destruct J|]. apply max_of_le. rewrite map_map. apply in_map_iff. exists e. split; [reflexivity|exact J]. }
  assert (Hs : forall e, In e dat -> String.length (slice_text e) <= ws). { intros e J. unfold slice_text. destruct (e_slice e) as [s|] eqn:E; [|cbn; lia]. apply max_of_le. apply in_or_app. left. apply in_flat_map. exists e. split; [exact J|]. rewrite E. left. reflexivity. }
  assert (Ho : forall e, In e dat -> e_pbo e = true -> 8 <= ws). { intros e J P. apply max_of_le. apply in_or_app. right. left. rewrite (proj2 (existsb_exists e_pbo dat) (ex_intro _ e (conj J P))). reflexivity. }
  clearbody wn wv ws. exists wn, ws, wv. eexists. eexists. split; [reflexivity|].
  assert (F1 : filter (fun e => negb (e_pbo e || e_remote e)) dat = filter (fun e => negb (e_pbo e)) dat) by (apply filter_ext_in; intros e J; rewrite (H e J), orb_false_r; reflexivity).
  assert (F2 : filter (fun e => e_pbo e && negb (e_remote e)) dat = filter e_pbo dat) by (apply filter_ext_in; intros e J; rewrite (H e J), andb_true_r; reflexivity). rewrite F1, F2.
  split; apply Forall2_map; intros e J; apply filter_In in J; destruct J as (J & P).
  - exists (left_in wn (e_name e)), (left_in ws (slice_text e)), (right_in wv (e_repr e)). split; [apply left_ok, Hn, J|]. split; [apply left_ok, Hs, J|]. split; [apply right_ok, Hv, J|reflexivity].
  - exists (left_in wn (e_name e)), (left_in ws "(by obj)"). split; [apply left_ok, Hn, J|]. split; [apply left_ok, (Ho e J P)|reflexivity].
Qed.
(** so that all rows have the same length *)
Theorem C138_aligned : forall dat l l', (forall e, In e dat -> e_remote e = false /\ e_pbo e = false) -> In l (fst (dump dat)) -> In l' (fst (dump dat)) -> String.length l = String.length l'.
Proof.
  intros dat l l' H Hl Hl'. destruct (C138_table dat (fun e J => proj1 (H e J))) as (wn & ws & wv & rows & objs & E & R & O). rewrite E in Hl, Hl'. cbn [fst] in Hl, Hl'.
  assert (N : filter e_pbo dat = []) by (clear - H; induction dat as [|e dat IH]; [reflexivity|]; cbn; rewrite (proj2 (H e (or_introl eq_refl))); apply IH; intros x J; apply H; right; exact J). rewrite N in O. inversion O; subst. rewrite app_nil_r in Hl, Hl'.
  assert (K : forall es ls x, Forall2 (fun e line => row wn ws wv (e_name e) (match e_slice e with Some s => s | None => EmptyString end) (e_repr e) line) es ls -> In x ls -> String.length x = wn + S (ws + S wv)).
  { intros es ls x F. induction F as [|e y es ls Hy F IH]; intros J; [destruct J|]. destruct J as [->|J]; [|exact (IH J)]. destruct Hy as (a & b & c & (? & _ & La) & (? & _ & Lb) & (? & _ & Lc) & ->). rewrite slen_app. cbn. rewrite slen_app. cbn. lia. }
  rewrite (K _ _ _ R Hl), (K _ _ _ R Hl'). reflexivity.
Qed.
(** With a variable of another process nothing is written, though such variables are left out of the
    rows: their values are read for the width of the column. *)
Theorem C138_remote_refuted : forall dat e, In e dat -> e_remote e = true -> dump dat = ([], Err RuntimeError).
Proof. intros dat e J R. unfold dump. rewrite (values_remote dat e J R). reflexivity. Qed.
Print Assumptions C138_table.
Print Assumptions C138_aligned.
Print Assumptions C138_remote_refuted.

Local Open Scope string_scope.
Local Open Scope list_scope.
Definition vdp_x := mkEntry "x" (Some "[0:1]") "3.0" false false.
Definition vdp_long := mkEntry "long" (Some "[1:12]") "array" false false.
Definition vdp_f := mkEntry "f" None "FileRef" true false.
Definition vdp_r := mkEntry "r" None "" false true.
Example C138_ex : dump [vdp_x; vdp_f; vdp_long] = (["x    [0:1]        3.0"; "long [1:12]     array"; "f    (by obj) FileRef"], Ok tt)
  /\ (forall e, In e [vdp_x; vdp_f; vdp_long] -> e_remote e = false) /\ dump [vdp_x; vdp_r] = ([], Err RuntimeError).
Proof. split; [reflexivity|]. split; [|reflexivity]. intros e [<-|[<-|[<-|[]]]]; reflexivity. Qed.

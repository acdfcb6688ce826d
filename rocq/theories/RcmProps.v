(** C136: messages for return codes. *)
From Verif Require Import Base BaseFacts RcmModel RcmSpec.
Local Open Scope list_scope.
Local Open Scope string_scope.
Local Open Scope Z_scope.

Lemma prefix_sig : forall name, prefix "SIG" name = true <-> exists r, name = "SIG" ++ r.
Proof.
  intros name. split; [|intros (r & ->); cbn; destruct r; reflexivity]. intros H. destruct name as [|a name]; [discriminate H|]. cbn [prefix] in H. destruct (ascii_dec "S" a) as [<-|]; [|discriminate H]. destruct name as [|b name]; [discriminate H|]. cbn [prefix] in H. destruct (ascii_dec "I" b) as [<-|]; [|discriminate H]. destruct name as [|c name]; [discriminate H|]. cbn [prefix] in H. destruct (ascii_dec "G" c) as [<-|]; [|discriminate H]. exists name. reflexivity.
Qed.
(** the loop gives the first attribute with that number *)
Lemma loop_first : forall pre name post sig, prefix "SIG" name = true -> (forall n, In (n, sig) pre -> prefix "SIG" n = false) -> signal_loop (pre ++ (name, sig) :: post)%list sig = ": " ++ name.
Proof.
  intros pre name post sig Hn. induction pre as [|[n z] pre IH]; intros H; cbn [app signal_loop].
  - rewrite Hn, Z.eqb_refl. reflexivity.
  - assert (R : signal_loop (pre ++ (name, sig) :: post)%list sig = ": " ++ name) by (apply IH; intros m I; apply H; right; exact I). destruct (Z.eqb_spec z sig) as [->|_]; [rewrite (H n (or_introl eq_refl)); exact R|]. destruct (prefix "SIG" n); exact R.
Qed.
Lemma loop_cases : forall attrs sig, (exists name, In (name, sig) attrs /\ prefix "SIG" name = true /\ signal_loop attrs sig = ": " ++ name) \/ ((forall name, In (name, sig) attrs -> prefix "SIG" name = false) /\ signal_loop attrs sig = "").
Proof.
  intros attrs sig. induction attrs as [|[n z] attrs IH]; [right; split; [intros name []|reflexivity]|]. cbn [signal_loop].
  assert (K : (prefix "SIG" n = true /\ z = sig) \/ (prefix "SIG" n = false \/ z <> sig)) by (destruct (prefix "SIG" n), (Z.eq_dec z sig); tauto). destruct K as [(P & ->)|K].
  - left. exists n. rewrite P, Z.eqb_refl. split; [left; reflexivity|split; reflexivity].
  - assert (R : (if prefix "SIG" n then if z =? sig then ": " ++ n else signal_loop attrs sig else signal_loop attrs sig) = signal_loop attrs sig) by (destruct K as [-> | K]; [reflexivity|destruct (Z.eqb_spec z sig); [contradiction|destruct (prefix "SIG" n); reflexivity]]). rewrite R.
    destruct IH as [(name & I & P & E)|(H & E)]; [left; exists name; split; [right; exact I|split; assumption]|]. right. split; [|exact E]. intros name [[= -> ->]|I]; [destruct K as [K|K]; [exact K|contradiction]|exact (H name I)].
Qed.

Section Facts.
  Variables (strerror : Z -> string) (win32 : bool) (nsig : Z) (attrs : list (string * Z)).
  Notation msg := (error_message strerror win32 nsig attrs).
  (** Success has no message, a status that of the system. *)
  Theorem C136_status : msg 0 = "" /\ forall code, 0 < code -> msg code = ": " ++ strerror code.
  Proof. split; [reflexivity|]. intros code H. unfold error_message. destruct (Z.eqb_spec code 0); [lia|]. destruct (Z.ltb_spec 0 code); [reflexivity|lia]. Qed.
  Lemma msg_signal : forall sig, win32 = false -> 0 < sig < nsig -> msg (- sig) = signal_loop attrs sig.
  Proof. intros sig W H. unfold error_message. destruct (Z.eqb_spec (- sig) 0); [lia|]. destruct (Z.ltb_spec 0 (- sig)); [lia|]. rewrite W. cbn [negb]. rewrite Z.opp_involutive. destruct (Z.ltb_spec sig nsig); [reflexivity|lia]. Qed.
  (** A command ended by a signal: the message names a signal of that number, if there is one and
      no other constant has the same number. *)
  Theorem C136_signal : forall sig, win32 = false -> 0 < sig < nsig -> (exists name, In (name, sig) attrs /\ is_signal name) ->
    (forall r, In ("SIG" ++ r, sig) attrs -> is_signal ("SIG" ++ r)) -> names_signal attrs sig (msg (- sig)).
  Proof.
    intros sig W H (name & I & (c & r & -> & _)) U. rewrite (msg_signal sig W H). destruct (loop_cases attrs sig) as [(n & J & P & ->)|(N & _)].
    - exists n. split; [exact J|]. split; [|reflexivity]. apply prefix_sig in P. destruct P as (q & ->). exact (U q J).
    - exfalso. specialize (N _ I). cbn in N. discriminate N.
  Qed.
  (** But another constant with that number, which comes first, is named instead. *)
  Theorem C136_constant_refuted : forall sig pre r post, win32 = false -> 0 < sig < nsig -> attrs = (pre ++ (("SIG_" ++ r)%string, sig) :: post)%list -> (forall q, ~ In ("SIG" ++ q, sig) pre) ->
    msg (- sig) = ": SIG_" ++ r /\ ~ names_signal attrs sig (msg (- sig)).
  Proof.
    intros sig pre r post W H E N. assert (M : msg (- sig) = ": SIG_" ++ r). { rewrite (msg_signal sig W H), E. apply (loop_first pre ("SIG_" ++ r) post sig); [cbn; destruct r; reflexivity|]. intros n I. destruct (prefix "SIG" n) eqn:P; [|reflexivity]. apply prefix_sig in P. destruct P as (q & ->). destruct (N q I). }
    split; [exact M|]. rewrite M. intros (name & _ & (c & q & -> & D) & [= <- _]). contradiction.
  Qed.
  (** No message: a signal without a name, a number that is not one of a signal, another system. *)
  Theorem C136_unnamed_refuted : forall sig, 0 < sig -> (win32 = true \/ nsig <= sig \/ forall r, ~ In ("SIG" ++ r, sig) attrs) -> msg (- sig) = "".
  Proof.
    intros sig H C. destruct (Bool.bool_dec win32 true) as [W|W]; [unfold error_message; destruct (Z.eqb_spec (- sig) 0); [lia|]; destruct (Z.ltb_spec 0 (- sig)); [lia|]; rewrite W; reflexivity|]. apply Bool.not_true_is_false in W.
    destruct (Z_lt_le_dec sig nsig) as [L|L]; [|unfold error_message; destruct (Z.eqb_spec (- sig) 0); [lia|]; destruct (Z.ltb_spec 0 (- sig)); [lia|]; rewrite W; cbn [negb]; rewrite Z.opp_involutive; destruct (Z.ltb_spec sig nsig); [lia|reflexivity]].
    rewrite (msg_signal sig W (conj H L)). destruct C as [C|[C|C]]; [congruence|lia|]. destruct (loop_cases attrs sig) as [(n & I & P & _)|(_ & E)]; [|exact E]. apply prefix_sig in P. destruct P as (q & ->). destruct (C q I).
  Qed.
  (** The text of CalledProcessError has two colons for every failure with a message. *)
  Theorem C136_colons_refuted : forall code, 0 < code -> called_tail (msg code) = ": : " ++ strerror code.
  Proof. intros code H. rewrite (proj2 C136_status code H). reflexivity. Qed.
End Facts.
Print Assumptions C136_status.
Print Assumptions C136_signal.
Print Assumptions C136_constant_refuted.
Print Assumptions C136_unnamed_refuted.
Print Assumptions C136_colons_refuted.

(** the beginning of the module of Python 3.12 on Linux, in its order: SIGKILL is named, the number
    of SIGHUP is named SIG_UNBLOCK, and 40 has no name *)
Definition rcm_attrs : list (string * Z) := [("SIG_BLOCK", 0); ("SIG_UNBLOCK", 1); ("SIG_SETMASK", 2); ("SIGHUP", 1); ("SIGINT", 2); ("SIGQUIT", 3); ("SIGKILL", 9); ("SIG_DFL", 0); ("SIG_IGN", 1)].
Example C136_ex : let msg := error_message (fun _ => "No such file") false 65 rcm_attrs in
  names_signal rcm_attrs 9 (msg (-9)) /\ msg (-9) = ": SIGKILL" /\ msg (-1) = ": SIG_UNBLOCK" /\ ~ names_signal rcm_attrs 1 (msg (-1)) /\ msg (-40) = "" /\ msg 2 = ": No such file".
Proof.
  cbv zeta. split; [|split; [reflexivity|split; [reflexivity|split; [|split; reflexivity]]]].
  - apply (C136_signal (fun _ => "No such file") false 65 rcm_attrs 9); [reflexivity|lia| |].
    + exists "SIGKILL". split; [unfold rcm_attrs; do 6 right; left; reflexivity|]. exists "K"%char, "ILL". split; [reflexivity|discriminate].
    + intros r I. unfold rcm_attrs in I. do 6 (destruct I as [I|I]; [discriminate I|]). destruct I as [I|I]; [|do 2 (destruct I as [I|I]; [discriminate I|]); destruct I]. injection I as I. rewrite <- I. exists "K"%char, "ILL". split; [reflexivity|discriminate].
  - apply (C136_constant_refuted (fun _ => "No such file") false 65 rcm_attrs 1 [("SIG_BLOCK", 0)] "UNBLOCK" _ eq_refl ltac:(lia) eq_refl). intros q [[=]|[]].
Qed.

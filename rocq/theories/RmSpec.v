(** Specification for C103: which variables a recorder should store in an
    iteration when several processes share the variables of a system. *)
From Verif Require Import Base RecordModel RmModel.
Local Open Scope string_scope.

Section RmSpec.
  Context {V : Type}.
  Variable matches : string -> string -> bool.

  (** the options of a recorder choose the name *)
  Definition wanted (o : rec_opts) (names : list string) (n : string) : Prop :=
    In n names /\
    (exists pat, In pat (ro_includes o) /\ matches n pat = true) /\
    (forall pat, In pat (ro_excludes o) -> matches n pat = false).

  (** process k is the first one to which the variable is local *)
  Definition first_at (locals : list (list string)) (n : string) (k : nat) : Prop :=
    (exists l, nth_error locals k = Some l /\ In n l) /\
    (forall j l, (j < k)%nat -> nth_error locals j = Some l -> ~ In n l).

  (** v is the value of n on the first process that has it *)
  Definition owner_value (ds : list (dict V)) (n : string) (v : V) : Prop :=
    exists k d, nth_error ds k = Some d /\ In (n, v) d /\
      forall j d', (j < k)%nat -> nth_error ds j = Some d' -> ~ In n (map fst d').

  (** a dictionary holds the chosen names, each once, with the right values *)
  Definition holds_exactly (d : dict V) (chosen : string -> Prop) (value : string -> V -> Prop) : Prop :=
    NoDup (map fst d) /\ (forall n, In n (map fst d) <-> chosen n) /\
    (forall n v, In (n, v) d -> value n v).

  Definition kept (on : bool) (x : option (dict V)) (chosen : string -> Prop) (value : string -> V -> Prop) : Prop :=
    if on then exists d, x = Some d /\ holds_exactly d chosen value else x = None.

  (** the whole of the chosen variables *)
  Definition whole_entry (o : rec_opts) (pn un : list string) (it : coord * list (vecs V)) (e : entry V) : Prop :=
    let vs := snd it in
    en_coord e = fst it /\
    kept (ro_params o) (en_p e) (wanted o pn) (owner_value (map ve_p vs)) /\
    kept (ro_unknowns o) (en_u e) (wanted o un) (owner_value (map ve_u vs)) /\
    kept (ro_resids o) (en_r e) (wanted o un) (owner_value (map ve_r vs)).

  (** the share of process k: the chosen variables that it is the first to have *)
  Definition share_entry (o : rec_opts) (pn un : list string) (lp lu : list (list string)) (k : nat)
      (it : coord * list (vecs V)) (e : entry V) : Prop :=
    let vs := snd it in
    en_coord e = fst it /\
    kept (ro_params o) (en_p e) (fun n => wanted o pn n /\ first_at lp n k) (owner_value (map ve_p vs)) /\
    kept (ro_unknowns o) (en_u e) (fun n => wanted o un n /\ first_at lu n k) (owner_value (map ve_u vs)) /\
    kept (ro_resids o) (en_r e) (fun n => wanted o un n /\ first_at lu n k) (owner_value (map ve_r vs)).

  (** the names of the variables of a system and which are local where: params
      and unknowns have different names, and every variable is local somewhere *)
  Record laid_out (pn un : list string) (lp lu : list (list string)) : Prop := {
    lo_len : length lp = length lu;
    lo_disj : forall n, In n pn -> ~ In n un;
    lo_lp : forall l n, In l lp -> In n l -> In n pn;
    lo_lu : forall l n, In l lu -> In n l -> In n un;
    lo_np : Forall (@NoDup string) lp;
    lo_nu : Forall (@NoDup string) lu;
    lo_p : forall n, In n pn -> exists l, In l lp /\ In n l;
    lo_u : forall n, In n un -> exists l, In l lu /\ In n l }.

  (** the vectors of the processes hold the local variables *)
  Definition vectors_of (lp lu : list (list string)) (vs : list (vecs V)) : Prop :=
    map (fun v => map fst (ve_p v)) vs = lp /\
    map (fun v => map fst (ve_u v)) vs = lu /\
    map (fun v => map fst (ve_r v)) vs = lu.

  (** the names that a manager has kept from earlier setups still belong to
      its process *)
  Definition no_stale (lp lu : list (list string)) (k : nat) (m : mgr V) : Prop :=
    (forall n, In n (mg_vp m) -> first_at lp n k) /\
    (forall n, In n (mg_vu m) -> first_at lu n k) /\
    (forall n, In n (mg_vr m) -> first_at lu n k).

  Definition config (m : mgr V) : list (rec_opts * bool) :=
    map (fun r => (rc_opts r, rc_par r)) (mg_recs m).
  Definition logs (m : mgr V) : list (list (entry V)) := map rc_log (mg_recs m).

  (** recorder i of a process has one more entry for each iteration, in order *)
  Definition grown (rel : coord * list (vecs V) -> entry V -> Prop) (its : list (coord * list (vecs V)))
      (before after : list (entry V)) : Prop :=
    exists es, after = (before ++ es)%list /\ Forall2 rel its es.
End RmSpec.

(** what recorder i of a process has stored *)
Definition log_of {V} (m : mgr V) (i : nat) : list (entry V) := nth i (logs m) [].

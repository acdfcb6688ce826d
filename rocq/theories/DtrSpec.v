(** What data transfer between processes should do. *)
From Coq Require Import Permutation.
From Verif Require Import Base DtrModel.
Local Open Scope string_scope.
Local Open Scope nat_scope.
Local Open Scope list_scope.

(** the unknown is spread over the processes *)
Definition spread (w : world) (u : nat) : bool := existsb (fun r => u_local (U w r u) && u_dist (U w r u)) (seq 0 (nranks w)).
(** a variable that is not spread is the same in all processes that have it *)
Definition copies (w : world) (u n : nat) : Prop := forall r, r < nranks w -> u_local (U w r u) = true -> u_size (U w r u) = n.

Section Vec.
  Context {A : Type}.
  (** the part of the local array of the process [r] that is the variable [i] *)
  Definition value (S : list (list nat)) (v : list (list A)) (r i : nat) : list A := firstn (cell S r i) (skipn (list_sum (firstn i (row S r))) (nth r v [])).
  Definition shaped (S : list (list nat)) (v : list (list A)) : Prop := map (fun x : list A => length x) v = map (fun l => list_sum l) S.
  (** the whole of an unknown: the parts of all processes, or the copy of the lowest one that has it *)
  Definition whole (w : world) (vu : list (list A)) (u : nat) : list A :=
    if spread w u then flat_map (fun r => value (u_sizes w) vu r u) (seq 0 (nranks w))
    else match u_owner w u with Some r => value (u_sizes w) vu r u | None => [] end.
End Vec.
(** number of entries of the whole *)
Definition whole_size (w : world) (u : nat) : nat :=
  if spread w u then list_sum (map (fun r => cell (u_sizes w) r u) (seq 0 (nranks w)))
  else match u_owner w u with Some r => u_size (U w r u) | None => 0 end.
(** the entries of the source a parameter takes in a process *)
Definition taken (w : world) (r p : nat) : list nat := match p_idx (P w r p) with Some l => l | None => seq 0 (p_size (P w r p)) end.

(** A connection forward: some process has the source; where the parameter is, it is known
    whether the source is spread, and the indices fit. *)
Definition fwd_ok (w : world) (c : conn) : Prop :=
  u_owner w (c_u c) <> None /\ (spread w (c_u c) = false -> exists n, copies w (c_u c) n) /\
  forall r, r < nranks w -> p_local (P w r (c_p c)) = true ->
    u_dist (U w r (c_u c)) = spread w (c_u c) /\ length (taken w r (c_p c)) = p_size (P w r (c_p c)) /\
    (forall k, In k (taken w r (c_p c)) -> k < whole_size w (c_u c)).

(** Backward. [given]: the target has indices. *)
Definition rev_ok (w : world) (c : conn) (given : bool) : Prop :=
  u_owner w (c_u c) <> None /\ p_owner w (c_p c) <> None /\ (spread w (c_u c) = false -> exists n, copies w (c_u c) n) /\
  (forall r, r < nranks w -> is_some (p_idx (P w r (c_p c))) = given) /\
  (forall r, r < nranks w -> u_dist (U w r (c_u c)) = spread w (c_u c)) /\
  (forall r, r < nranks w -> p_local (P w r (c_p c)) = true -> length (taken w r (c_p c)) = p_size (P w r (c_p c)) /\ (forall k, In k (taken w r (c_p c)) -> k < whole_size w (c_u c))) /\
  (** without indices every process knows the size, and takes all *)
  (given = false -> forall r, r < nranks w -> p_size (P w r (c_p c)) = whole_size w (c_u c)) /\
  (** the process that sends the derivative of a target without indices has part of the source *)
  (given = false -> spread w (c_u c) = true -> forall r, p_owner w (c_p c) = Some r -> u_local (U w r (c_u c)) = true) /\
  (** a source of a target with indices is spread or in one process only *)
  (given = true -> spread w (c_u c) = false -> forall r, r < nranks w -> u_local (U w r (c_u c)) = true -> u_owner w (c_u c) = Some r).

Section Add.
  Context {A : Type}.
  Variable zero : A.
  Variable add : A -> A -> A.
  Definition total (l : list A) : A := fold_right add zero l.
  (** the position of a local entry in the whole *)
  Definition position (w : world) (r u k : nat) : nat := if spread w u then start (u_sizes w) r u + k else k.
  (** what the target of a connection adds to an entry of the source: the derivatives, in all
      processes, of the entries taken from there; those of a target without indices are the
      same everywhere and are counted once *)
  Definition share (w : world) (given : bool) (vp : list (list A)) (c : conn) (r k : nat) : A :=
    let at_ q := total (map (fun jk => nth (fst jk) (value (p_sizes w) vp q (c_p c)) zero)
                            (filter (fun jk => snd jk =? position w r (c_u c) k) (combine (seq 0 (length (taken w q (c_p c)))) (taken w q (c_p c))))) in
    if given then total (map at_ (filter (fun q => p_local (P w q (c_p c))) (seq 0 (nranks w))))
    else match p_owner w (c_p c) with Some q => at_ q | None => zero end.
End Add.

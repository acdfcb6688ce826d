(** Data transfer between processes: openmdao/core/group.py (_get_global_idxs 1402-1466,
    _setup_data_transfer 1496-1607, _transfer_data 1627-1635, _get_owning_ranks 1645-1664),
    openmdao/core/petsc_impl.py (_get_flattened_sizes 189-204 and 299-311,
    PetscDataTransfer.__init__ 355-391, transfer 416-437).

    A world is the metadata every process has of the variables in a group's unknowns and params
    vectors; variables are numbered by their position in these vectors, which is the same in all
    processes.  A PETSc vector is the concatenation of the local arrays of all processes;
    Scatter.scatter copies (or adds) the entries at corresponding positions of two index sets, in
    any order.  Not modelled: imaginary parts, variables passed by object (PboModel.v), the
    selection of relevant variables (a variable of interest has vectors, hence a world, of its own). *)
From Verif Require Import Base.
Local Open Scope string_scope.
Local Open Scope nat_scope.
Local Open Scope list_scope.

(** metadata of an unknown in a process: not meta['remote'], 'src_indices' in meta, meta['size'] *)
Record umeta : Type := mkU { u_local : bool; u_dist : bool; u_size : nat }.
(** of a parameter: meta['src_indices'] *)
Record pmeta : Type := mkP { p_local : bool; p_idx : option (list nat); p_size : nat }.
Record world : Type := mkWorld { w_u : list (list umeta); w_p : list (list pmeta) }.
Definition nranks (w : world) : nat := length (w_u w).
Definition U (w : world) (r i : nat) : umeta := nth i (nth r (w_u w) []) (mkU false false 0).
Definition P (w : world) (r i : nat) : pmeta := nth i (nth r (w_p w) []) (mkP false None 0).

(** _get_flattened_sizes: (rank x var) tables *)
Definition u_sizes (w : world) : list (list nat) := map (map (fun m => if u_local m then u_size m else 0)) (w_u w).
Definition p_sizes (w : world) : list (list nat) := map (map (fun m => if p_local m then p_size m else 0)) (w_p w).
(** _get_owning_ranks: the lowest rank where the variable is local *)
Definition u_owner (w : world) (i : nat) : option nat := find (fun r => u_local (U w r i)) (seq 0 (nranks w)).
Definition p_owner (w : world) (i : nat) : option nat := find (fun r => p_local (P w r i)) (seq 0 (nranks w)).

Definition row (S : list (list nat)) (r : nat) : list nat := nth r S [].
Definition cell (S : list (list nat)) (r i : nat) : nat := nth i (row S r) 0.
(** np.sum(sizes[:r]) + np.sum(sizes[r, :i]) *)
Definition offset (S : list (list nat)) (r i : nat) : nat := list_sum (map (fun l => list_sum l) (firstn r S)) + list_sum (firstn i (row S r)).
(** np.sum(u_sizes[:irank, ivar]), 1435 *)
Definition start (S : list (list nat)) (r i : nat) : nat := list_sum (map (fun l => nth i l 0) (firstn r S)).
(** 1432-1451 for one index; an index found in no process keeps what np.empty contains *)
Definition new_index (S : list (list nat)) (i : nat) (junk k : nat) : nat :=
  fold_left (fun acc r => if (start S r i <=? k) && (k <? start S r i + cell S r i) then k - start S r i + offset S r i else acc) (seq 0 (length S)) junk.

Inductive mode : Type := Fwd | Rev.
Definition is_some {A : Type} (o : option A) : bool := match o with Some _ => true | None => false end.
Definition owning (o : option nat) : res nat := match o with Some r => Ok r | None => Err KeyError end.
(** _get_global_idxs in the process [iproc]; short-circuit evaluation as in 1414-1416 *)
Definition global_idxs (w : world) (junk : nat) (md : mode) (iproc u p : nat) : res (list nat * list nat) :=
  let um := U w iproc u in
  let pm := P w iproc p in
  let pdist := is_some (p_idx pm) in
  let udist := u_dist um in
  let! skip := match md with
               | Fwd => Ok (negb (p_local pm))
               | Rev => if negb pdist && negb (u_local um) then Ok true
                        else if udist && negb pdist then let! o := owning (p_owner w p) in Ok (negb (iproc =? o)) else Ok false
               end in
  if skip : bool then Ok ([], [])
  else
    let arg := match p_idx pm with Some l => l | None => seq 0 (p_size pm) end in
    if udist || pdist then
      let! p_rank := match md with Rev => if p_local pm then Ok iproc else owning (p_owner w p) | Fwd => Ok iproc end in
      if pdist && negb (p_rank =? iproc) then Ok ([], [])
      else Ok (map (new_index (u_sizes w) u junk) arg, map (fun j => offset (p_sizes w) p_rank p + j) (seq 0 (length arg)))
    else
      let! u_rank := match md with Fwd => owning (u_owner w u) | Rev => Ok iproc end in
      let! p_rank := match md with Rev => owning (p_owner w p) | Fwd => Ok iproc end in
      Ok (map (fun k => k + offset (u_sizes w) u_rank u) arg, map (fun j => offset (p_sizes w) p_rank p + j) (seq 0 (length arg))).

(** a connection of variables passed by vector, with the subsystems they belong to *)
Record conn : Type := mkConn { c_u : nat; c_p : nat; c_src : string; c_tgt : string }.
Definition sys_of (md : mode) (c : conn) : string := match md with Fwd => c_tgt c | Rev => c_src c end.
(** the keys of xfer_dict, in order of insertion *)
Fixpoint keys (seen : list string) (l : list string) : list string :=
  match l with [] => [] | x :: r => if existsb (String.eqb x) seen then keys seen r else x :: keys (x :: seen) r end.
(** 1549-1605: the connections of the transfer stored under a name *)
Definition xfer (md : mode) (name : string) (conns : list conn) : list conn :=
  let of_sys s := filter (fun c => String.eqb (sys_of md c) s) conns in
  if String.eqb name "" then flat_map of_sys (keys [] (map (sys_of md) conns)) else of_sys name.

(** the index sets of a process, as pairs of corresponding positions *)
Fixpoint rank_pairs (w : world) (junk : nat) (md : mode) (iproc : nat) (cs : list conn) : res (list (nat * nat)) :=
  match cs with
  | [] => Ok []
  | c :: r => let! st := global_idxs w junk md iproc (c_u c) (c_p c) in let! l := rank_pairs w junk md iproc r in Ok (combine (fst st) (snd st) ++ l)
  end.
Fixpoint pairs_from (w : world) (junk : nat) (md : mode) (cs : list conn) (ranks : list nat) : res (list (nat * nat)) :=
  match ranks with [] => Ok [] | r :: rs => let! a := rank_pairs w junk md r cs in let! b := pairs_from w junk md cs rs in Ok (a ++ b) end.

Section Vec.
  Context {A : Type}.
  Variable zero : A.
  Variable add : A -> A -> A.
  Fixpoint put_at (n : nat) (x : A) (l : list A) : list A := match l, n with [], _ => [] | _ :: r, 0 => x :: r | y :: r, S m => y :: put_at m x r end.
  (** scatter(u, p, False, False) and scatter(p, u, True, True) *)
  Definition copy_pairs (l : list (nat * nat)) (x y : list A) : list A := fold_left (fun y p => put_at (snd p) (nth (fst p) x zero) y) l y.
  Definition add_pairs (l : list (nat * nat)) (x y : list A) : list A := fold_left (fun x p => put_at (fst p) (add (nth (fst p) x zero) (nth (snd p) y zero)) x) l x.
  Fixpoint split (ns : list nat) (l : list A) : list (list A) := match ns with [] => [] | n :: r => firstn n l :: split r (skipn n l) end.
  (** one transfer: Scatter.create fails for positions outside the vectors (386-391); [order] is
      the order in which PETSc treats the pairs.  The result are the new unknowns and params. *)
  Definition transfer (w : world) (junk : nat) (order : list (nat * nat) -> list (nat * nat)) (md : mode) (name : string) (conns : list conn)
      (vu vp : list (list A)) : res (list (list A) * list (list A)) :=
    let! l := pairs_from w junk md (xfer md name conns) (seq 0 (nranks w)) in
    if forallb (fun p => (fst p <? length (concat vu)) && (snd p <? length (concat vp))) l then
      match md with
      | Fwd => Ok (vu, split (map (fun v : list A => length v) vp) (copy_pairs (order l) (concat vu) (concat vp)))
      | Rev => Ok (split (map (fun v : list A => length v) vu) (add_pairs (order l) (concat vu) (concat vp)), vp)
      end
    else Err RuntimeError.
End Vec.

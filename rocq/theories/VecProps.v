(** Property theorems for system vectors: C23-C25. *)
From Coq Require Import Lqa Qfield.
From Verif Require Import Base VecModel VecSpec VecProofs.
Local Open Scope nat_scope.
Local Open Scope string_scope.

(** C23: any history of reads and writes gives what separate cells would give *)
Theorem C23_separate_cells : forall A O (zero : A) rel byobjs (vars : list (vmeta A O)) (acts : list (action A O)),
    NoDup (map v_name vars) -> Forall good_var vars ->
    let '(w, m) := setup zero rel byobjs vars in
    snd (vec_run w m (map (fun a => ([], a)) acts)) =
    snd (spec_run (store_of byobjs zero rel vars) (map (fun a => ([], a)) acts)).
Proof. exact @separate_cells. Qed.
Print Assumptions C23_separate_cells.

(** every index of the vector belongs to exactly one variable *)
Theorem C23_one_owner : forall A O (zero : A) rel byobjs (vars : list (vmeta A O)) i,
    NoDup (map v_name vars) -> Forall good_var vars ->
    let w := fst (setup zero rel byobjs vars) in
    i < w_size w -> exists n, owns w n i /\ forall n', owns w n' i -> n' = n.
Proof. exact @one_owner. Qed.
Print Assumptions C23_one_owner.

Theorem C23_inside : forall A O (zero : A) rel byobjs (vars : list (vmeta A O)) n i,
    NoDup (map v_name vars) -> Forall good_var vars ->
    let w := fst (setup zero rel byobjs vars) in owns w n i -> i < w_size w.
Proof. exact @owner_inside. Qed.
Print Assumptions C23_inside.

(** the ranges follow the declaration order of the relevant variables *)
Theorem C23_declaration_order : forall A O (zero : A) rel byobjs (vars : list (vmeta A O)) k k' n n' i i',
    NoDup (map v_name vars) -> Forall good_var vars ->
    let w := fst (setup zero rel byobjs vars) in
    let names := map v_name (filter (fun m => rel (v_name m)) vars) in
    k < k' -> nth_error names k = Some n -> nth_error names k' = Some n' -> owns w n i -> owns w n' i' -> i < i'.
Proof. exact @owner_order. Qed.
Print Assumptions C23_declaration_order.

(** a local numeric variable owns as many entries as its size, others none *)
Theorem C23_range_size : forall A O (zero : A) rel byobjs (vars : list (vmeta A O)) x,
    NoDup (map v_name vars) -> Forall good_var vars -> In x vars -> rel (v_name x) = true ->
    let w := fst (setup zero rel byobjs vars) in
    exists a, forall i, owns w (v_name x) i <->
      (v_pbo x = false /\ v_remote x = false /\ a <= i < a + v_size x).
Proof. exact @range_size. Qed.
Print Assumptions C23_range_size.

Definition ex_vars : list (vmeta Z string) :=
  [ mkVar "a" 1 true false false [5%Z] None; mkVar "b" 3 false false false [1%Z; 2%Z; 3%Z] None;
    mkVar "o" 0 false true false [] (Some "obj"); mkVar "far" 2 false false true [0%Z; 0%Z] None;
    mkVar "c" 2 false false false [7%Z; 8%Z] None ].
Definition ex_all : string -> bool := fun _ => true.

Example C23_ex :
  let '(w, m) := setup 0%Z ex_all true ex_vars in
  w_size w = 6 /\
  snd (vec_run w m (map (fun a => ([], a))
     [ASet "b" (VArr [10; 20; 30]%Z); ASet "b" (VNum 3%Z); AGet "b"; AGet "a"; AGet "c"; ASet "o" (VObj "new");
      AGet "o"; AGet "far"; AGet "zzz"; ASet "c" (VArr [4]%Z); AGet "c"; ASet "c" (VArr [1; 2; 3]%Z)])) =
  [Ok None; Err AttributeError; Ok (Some (VArr [10; 20; 30]%Z)); Ok (Some (VNum 5%Z)); Ok (Some (VArr [7; 8]%Z)); Ok None;
   Ok (Some (VObj "new")); Err RuntimeError; Err KeyError; Ok None; Ok (Some (VArr [4; 4]%Z)); Err ValueError].
Proof. vm_compute. split; reflexivity. Qed.

(** C24: any history of reads and writes through any nesting of views gives what
    the corresponding accesses to the root variables would give *)
Theorem C24_views_alias : forall A O (zero : A) rel byobjs (vars : list (vmeta A O)) (es : list (event A O)),
    NoDup (map v_name vars) -> Forall good_var vars ->
    Forall (fun e => good_chain (fst (setup zero rel byobjs vars)) (fst e)) es ->
    let '(w, m) := setup zero rel byobjs vars in
    snd (vec_run w m es) = snd (spec_run (store_of byobjs zero rel vars) es).
Proof. exact @refine_all. Qed.
Print Assumptions C24_views_alias.

(** views of the groups of a tree (each a run of consecutive variables of its
    parent) always exist, at any depth *)
Theorem C24_tree_views : forall A O (zero : A) rel byobjs (vars : list (vmeta A O)) chain,
    NoDup (map v_name vars) -> Forall good_var vars ->
    tree_chain (map v_name (filter (fun m => rel (v_name m)) vars)) chain ->
    good_chain (fst (setup zero rel byobjs vars)) chain.
Proof. exact @tree_views. Qed.
Print Assumptions C24_tree_views.

(** after any history the raw vector of such a view is the concatenation of the
    values of its variables *)
Theorem C24_view_vec : forall A O (zero : A) rel byobjs (vars : list (vmeta A O)) es chain v,
    NoDup (map v_name vars) -> Forall good_var vars ->
    (forall e, In e ((chain, AGet "") :: es) -> tree_chain (map v_name (filter (fun m => rel (v_name m)) vars)) (fst e)) ->
    let '(w, m) := setup zero rel byobjs vars in
    view_chain w chain = Ok v ->
    w_vec v (fst (vec_run w m es)) = all_numbers v (fst (vec_run w m es)).
Proof. exact @view_vec. Qed.
Print Assumptions C24_view_vec.

(** assigning the raw vector of a view changes nothing outside it *)
Theorem C24_vec_write : forall A O (zero : A) rel byobjs (vars : list (vmeta A O)) es xs chain v n,
    NoDup (map v_name vars) -> Forall good_var vars ->
    (forall e, In e ((chain, AGet "") :: es) -> tree_chain (map v_name (filter (fun m => rel (v_name m)) vars)) (fst e)) ->
    let '(w, m0) := setup zero rel byobjs vars in
    let m := fst (vec_run w m0 es) in
    view_chain w chain = Ok v -> length xs = w_size v ->
    all_numbers v (w_vec_set v m xs) = xs /\
    ((forall k, root_name chain k = Some n -> sget (w_dat v) k = None) ->
     w_get w (w_vec_set v m xs) n = w_get w m n).
Proof. exact @vec_write. Qed.
Print Assumptions C24_vec_write.

Definition ex_chain : list (list (string * string)) :=
  [[("b", "g.b"); ("o", "g.o"); ("far", "g.far"); ("c", "g.c")]; [("g.far", "far"); ("g.c", "x")]].
Example C24_ex :
  let '(w, m) := setup 0%Z ex_all true ex_vars in
  tree_chain (map v_name ex_vars) ex_chain /\
  snd (vec_run w m
     [(ex_chain, ASet "x" (VArr [40; 50]%Z)); ([], AGet "c"); ([], AGet "b"); ([], ASet "c" (VArr [6; 9]%Z));
      (ex_chain, AGet "x"); (firstn 1 ex_chain, ASet "g.o" (VObj "other")); ([], AGet "o"); (ex_chain, AGet "g.c")]) =
  [Ok None; Ok (Some (VArr [40; 50]%Z)); Ok (Some (VArr [1; 2; 3]%Z)); Ok None; Ok (Some (VArr [6; 9]%Z)); Ok None;
   Ok (Some (VObj "other")); Err KeyError].
Proof.
  vm_compute. split; [|reflexivity]. split; [exists ["a"], []; reflexivity|]. split.
  - repeat constructor; simpl; intuition discriminate.
  - split; [exists ["g.b"; "g.o"], []; reflexivity|]. split; [|exact I]. repeat constructor; simpl; intuition discriminate.
Qed.

Local Open Scope Q_scope.
(** C25: the limited step lies in [0, alpha], respects the bounds and, unless the
    entry sits on a bound and points back inside, is the largest such step; an
    entry on a bound gets step 0.  Missing from the full statement: entries
    leaving a bound (C25_stuck_refuted), variables with a 'remote' or
    'pass_by_obj' metadata key (C25_ignored_refuted) and two-dimensional
    variables (C25_two_dim_error). *)
Theorem C25_step_partial : forall vars a0s out k j x e a0,
    limit_all vars (map Fin a0s) = Ok out ->
    length a0s = list_sum (map (fun x => length (d_val x)) vars) ->
    Forall good_dvar vars -> nth_error vars k = Some x -> d_remote_key x = false -> d_pbo_key x = false ->
    dentry x j e -> nth_error a0s (vec_index vars k j) = Some a0 -> 0 <= a0 -> within e (moved e 0) ->
    exists a, nth_error out (vec_index vars k j) = Some (Fin a) /\ 0 <= a <= a0 /\ within e (moved e a) /\
              (on_bound e -> a == 0) /\ (~ leaving_bound e -> largest_step e a0 a).
Proof. exact step_safe. Qed.
Print Assumptions C25_step_partial.

(** an entry outside a bound gets the step to that bound, whatever the incoming step *)
Theorem C25_outside_returns : forall vars al out k j x lo up v d a0,
    limit_all vars al = Ok out ->
    length al = list_sum (map (fun x => length (d_val x)) vars) ->
    Forall good_dvar vars -> nth_error vars k = Some x -> d_remote_key x = false -> d_pbo_key x = false ->
    dentry x j (lo, up, v, d) -> nth_error al (vec_index vars k j) = Some a0 -> ~ d == 0 ->
    (forall l u, lo = Some l -> up = Some u -> l <= u) ->
    (forall u, up = Some u -> u < v -> exists a, nth_error out (vec_index vars k j) = Some (Fin a) /\ v + a * d == u) /\
    (forall l, lo = Some l -> v < l -> exists a, nth_error out (vec_index vars k j) = Some (Fin a) /\ v + a * d == l).
Proof. exact step_outside. Qed.
Print Assumptions C25_outside_returns.

Theorem C25_defined : forall vars al, Forall (fun x => (d_ndim x < 2)%nat) vars -> exists out, limit_all vars al = Ok out.
Proof. exact limit_defined. Qed.
Print Assumptions C25_defined.

Theorem C25_stuck_refuted : exists x e a0 a, good_dvar x /\ dentry x 0 e /\ within e (moved e 0) /\ 0 <= a0 /\
    limit_all [x] [Fin a0] = Ok [Fin a] /\ ~ largest_step e a0 a.
Proof. exact step_stuck. Qed.
Print Assumptions C25_stuck_refuted.

Theorem C25_ignored_refuted : exists x e a0 a, good_dvar x /\ dentry x 0 e /\ within e (moved e 0) /\ 0 <= a0 /\
    d_pbo_key x = true /\ limit_all [x] [Fin a0] = Ok [Fin a] /\ ~ within e (moved e a).
Proof. exact step_ignored. Qed.
Print Assumptions C25_ignored_refuted.

Theorem C25_two_dim_error : forall x vars al, (2 <= d_ndim x)%nat -> d_remote_key x = false -> d_pbo_key x = false ->
    (d_upper x <> None \/ d_lower x <> None) -> limit_all (x :: vars) al = Err ValueError.
Proof. exact limit_two_dim. Qed.
Print Assumptions C25_two_dim_error.

Example C25_outside_ex :
  limit_all [mkD false false 1 (Some [1; 10]) (Some [0; -10]) [2; -12] [2; 4]] [Fin 1; Fin 1] =
  Ok [Fin ((1 + -2) / 2); Fin ((-10 - -12) / 4)].
Proof. vm_compute. reflexivity. Qed.

Example C25_ex :
  limit_all [mkD false false 1 (Some [1; 10]) (Some [0; -10]) [1 # 2; 3] [2; -26]; mkD false false 0 None None [7] [1]]
            [Fin 1; Fin 1; Fin 1] = Ok [Fin ((1 + (- 1 # 2)) / 2); Fin ((-10 - 3) / -26); Fin 1].
Proof. vm_compute. reflexivity. Qed.

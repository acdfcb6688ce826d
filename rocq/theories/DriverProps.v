(** Property theorems C09 to C13: design variables, constraints and scaling. *)
From Coq Require Import Permutation Lqa.
From Verif Require Import Base DriverModel DriverSpec DriverProofs.
Open Scope Q_scope.

(** C09 (flat or whole variables): setting scaled values and reading the
    design variable back gives the same values, and nothing else changes.
    Missing from the full property: index lists on variables presented as
    scalars or as two-dimensional arrays (refuted below). *)
Theorem C09_round_trip_partial : forall v m ks vals,
    (0 < length (flat v))%nat ->
    (vkind_of v = KFlat \/ m_indices m = None) ->
    (vkind_of v = KScalar -> length (flat v) = 1%nat) ->
    selection (length (flat v)) m ks -> NoDup ks ->
    fits (m_scaler m) (length ks) -> fits (m_adder m) (length ks) -> nonzero (m_scaler m) ->
    length vals = length ks ->
    exists v' w,
      set_desvar v m (NpArr vals) None = Ok v' /\
      get_distrib_var v' m = Ok w /\ same_values w vals /\
      vkind_of v' = vkind_of v /\ length (flat v') = length (flat v) /\
      (forall k, ~ In k ks -> nth_error (flat v') k = nth_error (flat v) k).
Proof. exact desvar_round_trip. Qed.
Print Assumptions C09_round_trip_partial.

(** what is read is (x + adder)*scaler, entry by entry *)
Theorem C09_read_is_scaled_value : forall v m ks,
    selection (length (flat v)) m ks -> fits (m_scaler m) (length ks) -> fits (m_adder m) (length ks) ->
    exists w, get_distrib_var v m = Ok w /\ length w = length ks /\
      forall i k x, nth_error ks i = Some k -> nth_error (flat v) k = Some x ->
        exists y, nth_error w i = Some y /\ y == (x + entry (m_adder m) i) * entry (m_scaler m) i.
Proof. exact get_entries. Qed.
Print Assumptions C09_read_is_scaled_value.

Ltac addr := unfold selection; simpl; repeat (apply Forall2_cons || apply Forall2_nil); split; lia.

(** a 2x2 variable with indices [0;1]: rows are written, entries are read *)
Theorem C09_matrix_indices_refuted : exists v m vals v' w,
    vkind_of v = KShape 2 2 /\ selection (length (flat v)) m [0%nat; 1%nat] /\
    fits (m_scaler m) 2 /\ fits (m_adder m) 2 /\ nonzero (m_scaler m) /\
    set_desvar v m (NpArr vals) None = Ok v' /\ get_distrib_var v' m = Ok w /\
    same_values w vals /\ nth_error (flat v') 3 <> nth_error (flat v) 3.
Proof.
  exists (mkVar (KShape 2 2) [1; 2; 3; 4]), (mkMeta (Num 1) (Num 0) (Some [0; 1]%Z)), [7; 8],
         (mkVar (KShape 2 2) [7; 8; 7; 8]), [7; 8].
  split; [reflexivity|]. split; [addr|].
  repeat split; try (vm_compute; reflexivity); try (simpl; discriminate).
  repeat constructor; reflexivity.
Qed.
Print Assumptions C09_matrix_indices_refuted.

(** the value read back can also be wrong *)
Theorem C09_matrix_indices_readback_refuted : exists v m vals v' w,
    vkind_of v = KShape 2 2 /\ selection (length (flat v)) m [1%nat; 0%nat] /\
    fits (m_scaler m) 2 /\ fits (m_adder m) 2 /\ nonzero (m_scaler m) /\
    set_desvar v m (NpArr vals) None = Ok v' /\ get_distrib_var v' m = Ok w /\
    ~ same_values w vals.
Proof.
  exists (mkVar (KShape 2 2) [1; 2; 3; 4]), (mkMeta (Num 1) (Num 0) (Some [1; 0]%Z)), [7; 8],
         (mkVar (KShape 2 2) [7; 8; 7; 8]), [8; 7].
  split; [reflexivity|]. split; [addr|].
  repeat split; try (vm_compute; reflexivity); try (simpl; discriminate).
  intros H. inversion H as [|a b c d H1 H2]; subst. discriminate H1.
Qed.
Print Assumptions C09_matrix_indices_readback_refuted.

(** a scalar variable with indices [0] cannot be set at all *)
Theorem C09_scalar_indices_refuted : exists v m vals,
    selection (length (flat v)) m [0%nat] /\ fits (m_scaler m) 1 /\ fits (m_adder m) 1 /\
    nonzero (m_scaler m) /\ length vals = 1%nat /\
    set_desvar v m (NpArr vals) None = Err TypeError.
Proof.
  exists (mkVar KScalar [1]), (mkMeta (Num 1) (Num 0) (Some [0]%Z)), [7].
  split; [addr|]. repeat split. simpl. discriminate.
Qed.
Print Assumptions C09_scalar_indices_refuted.

Example C09_ex :
  let v := mkVar KFlat [1; 2; 3; 4] in
  let m := mkMeta (Arr [2; 4]) (Num 1) (Some [3; -4]%Z) in
  (0 < length (flat v))%nat /\ selection (length (flat v)) m [3%nat; 0%nat] /\
  fits (m_scaler m) 2 /\ fits (m_adder m) 2 /\ nonzero (m_scaler m) /\ NoDup [3%nat; 0%nat].
Proof.
  simpl. split; [lia|]. split; [addr|].
  repeat split; try lia; repeat constructor; simpl; try discriminate; intuition discriminate.
Qed.

(** C10: with a positive scaler the scaled value is within the scaled bounds
    exactly when the value is within the declared bounds *)
Theorem C10_positive_scaler_partial : forall fmax lower upper adder scaler x,
    0 < scaler -> - fmax <= x -> x <= fmax ->
    (within lower upper x <->
     scaled_lower fmax lower adder scaler <= scaled_value x adder scaler /\
     scaled_value x adder scaler <= scaled_upper fmax upper adder scaler).
Proof. exact bounds_positive_scaler. Qed.
Print Assumptions C10_positive_scaler_partial.

(** with a negative scaler the roles of the stored bounds are exchanged *)
Theorem C10_negative_scaler_swaps : forall fmax lower upper adder scaler x,
    scaler < 0 -> - fmax <= x -> x <= fmax ->
    (within lower upper x <->
     scaled_upper fmax upper adder scaler <= scaled_value x adder scaler /\
     scaled_value x adder scaler <= scaled_lower fmax lower adder scaler).
Proof. exact bounds_negative_scaler. Qed.
Print Assumptions C10_negative_scaler_swaps.

(** so the full property fails: no feasible value satisfies the stored bounds *)
Theorem C10_negative_scaler_refuted : exists fmax lower upper adder scaler x,
    ~ scaler == 0 /\ - fmax <= x /\ x <= fmax /\ within lower upper x /\
    ~ (scaled_lower fmax lower adder scaler <= scaled_value x adder scaler /\
       scaled_value x adder scaler <= scaled_upper fmax upper adder scaler).
Proof.
  exists 100, (Some 0), (Some 10), 0, (-1), 5. unfold within.
  repeat split; try (vm_compute; discriminate); try (vm_compute; reflexivity).
  intros [H _]. vm_compute in H. apply H. reflexivity.
Qed.
Print Assumptions C10_negative_scaler_refuted.

Example C10_ex : 0 < 2 /\ - 100 <= 5 /\ 5 <= 100 /\ within (Some 0) None 5.
Proof. unfold within. repeat split; lra. Qed.

(** C11: a non-zero index changes exactly the addressed entry.  Missing:
    index 0. *)
Theorem C11_indexed_set_partial : forall v m x i k,
    vkind_of v = KFlat -> i <> 0%Z -> addresses (length (flat v)) i k ->
    fits (m_scaler m) (length (flat v)) -> fits (m_adder m) (length (flat v)) -> nonzero (m_scaler m) ->
    exists v' y,
      set_desvar v m (NpFloat x) (Some i) = Ok v' /\ vkind_of v' = KFlat /\
      nth_error (flat v') k = Some y /\ (y + entry (m_adder m) k) * entry (m_scaler m) k == x /\
      (forall j, j <> k -> nth_error (flat v') j = nth_error (flat v) j).
Proof. exact set_one_entry. Qed.
Print Assumptions C11_indexed_set_partial.

(** index 0 is treated as no index *)
Theorem C11_index_zero_is_no_index : forall v m x,
    set_desvar v m x (Some 0%Z) = set_desvar v m x None.
Proof. exact index_zero_is_no_index. Qed.
Print Assumptions C11_index_zero_is_no_index.

(** so it overwrites the other entries, or fails for a Python float *)
Theorem C11_index_zero_refuted : exists v m x,
    vkind_of v = KFlat /\ addresses (length (flat v)) 0 0 /\ nonzero (m_scaler m) /\
    (exists v', set_desvar v m (NpFloat x) (Some 0%Z) = Ok v' /\
                nth_error (flat v') 1 <> nth_error (flat v) 1) /\
    set_desvar v m (PyFloat x) (Some 0%Z) = Err AttributeError.
Proof.
  exists (mkVar KFlat [1; 2; 3]), (mkMeta (Num 1) (Num 0) None), 9.
  split; [reflexivity|]. split; [split; simpl; lia|]. split; [simpl; discriminate|]. split; [|reflexivity].
  exists (mkVar KFlat [9; 9; 9]). split; [reflexivity|]. simpl. discriminate.
Qed.
Print Assumptions C11_index_zero_refuted.

Example C11_ex :
  let v := mkVar KFlat [1; 2; 3] in let m := mkMeta (Arr [2; 3; 4]) (Num 5) None in
  addresses (length (flat v)) (-1) 2 /\ fits (m_scaler m) 3 /\ nonzero (m_scaler m).
Proof. simpl. split; [split; [lia|right; reflexivity]|]. split; [reflexivity|]. repeat constructor; discriminate. Qed.

(** C12: a call is accepted exactly when it is legal and its name is new; an
    accepted constraint stores the scaled bounds *)
Theorem C12_call_accepted_iff_legal : forall s cons a, consistent a ->
    (legal s a /\ ~ In (c_name a) (dkeys cons) ->
       exists k, add_constraint s cons a = Ok (cons ++ [(c_name a, k)]) /\
         forall n b, fits (c_adder a) n -> fits (c_scaler a) n -> fits b n ->
           (c_lower a = Some b -> exists y, k_lower k = Some y /\
              forall i, (i < n)%nat -> entry y i == (entry b i + entry (c_adder a) i) * entry (c_scaler a) i) /\
           (c_upper a = Some b -> exists y, k_upper k = Some y /\
              forall i, (i < n)%nat -> entry y i == (entry b i + entry (c_adder a) i) * entry (c_scaler a) i) /\
           (c_equals a = Some b -> exists y, k_equals k = Some y /\
              forall i, (i < n)%nat -> entry y i == (entry b i + entry (c_adder a) i) * entry (c_scaler a) i)) /\
    (~ (legal s a /\ ~ In (c_name a) (dkeys cons)) -> add_constraint s cons a = Err RuntimeError).
Proof. exact constraint_call. Qed.
Print Assumptions C12_call_accepted_iff_legal.

(** after any sequence of calls, a query reports exactly the accepted
    constraints of the requested kind, once each, in order, with their scaled
    values *)
Theorem C12_query_reports_accepted : forall s l vars ct lt r lb wb,
    (forall a, lb a = true <-> legal s a) -> (forall a, wb a = true <-> wanted ct lt a) ->
    (forall a, In a l -> consistent a) ->
    get_constraints vars ct lt (add_constraints s [] l) = Ok r ->
    map fst r = map c_name (filter wb (accepted s [] l lb)) /\ NoDup (map fst r) /\
    (forall n x, In (n, x) r -> exists a v,
        In a (accepted s [] l lb) /\ c_name a = n /\ wanted ct lt a /\ vars n = Some v /\
        forall ks, selection (length (flat v)) (mkMeta (c_scaler a) (c_adder a) (truthy_list (c_indices a))) ks ->
          fits (c_scaler a) (length ks) -> fits (c_adder a) (length ks) ->
          length x = length ks /\
          forall i k y, nth_error ks i = Some k -> nth_error (flat v) k = Some y ->
            exists z, nth_error x i = Some z /\ z == (y + entry (c_adder a) i) * entry (c_scaler a) i).
Proof. exact constraints_reported. Qed.
Print Assumptions C12_query_reports_accepted.

(** 'eq' and 'ineq' split 'all', and so do linear and nonlinear *)
Theorem C12_eq_ineq_partition : forall vars lt cons r,
    get_constraints vars CAll lt cons = Ok r ->
    exists re ri, get_constraints vars CEq lt cons = Ok re /\
      get_constraints vars CIneq lt cons = Ok ri /\ Permutation (re ++ ri) r.
Proof. exact get_constraints_split. Qed.
Print Assumptions C12_eq_ineq_partition.

Theorem C12_linear_nonlinear_partition : forall vars ct cons r,
    get_constraints vars ct LAll cons = Ok r ->
    exists rl rn, get_constraints vars ct LLinear cons = Ok rl /\
      get_constraints vars ct LNonlinear cons = Ok rn /\ Permutation (rl ++ rn) r.
Proof. exact get_constraints_split_linear. Qed.
Print Assumptions C12_linear_nonlinear_partition.

Example C12_ex :
  let s := mkSupports true true false in
  let a := mkConArgs "f" None None (Some (Num 3)) false None (Num 1) (Num 2) in
  let b := mkConArgs "g" (Some (Num 0)) None None true None (Num 0) (Num 1) in
  let c := mkConArgs "h" (Some (Num 0)) (Some (Num 1)) None true None (Num 0) (Num 1) in
  legal s a /\ legal s b /\ ~ legal s c /\ consistent a /\
  exists r, get_constraints (fun _ => Some (mkVar KFlat [1; 2])) CEq LAll (add_constraints s [] [a; b; c; a]) = Ok r
            /\ map fst r = ["f"%string].
Proof.
  cbv zeta. split; [left; repeat split; discriminate|]. split.
  - right. split; [reflexivity|]. split; [left; discriminate|]. split; [reflexivity|].
    intros _ H. exfalso. apply H. reflexivity.
  - split.
    + intros [(H & _)|(_ & _ & _ & H)]; [apply H; reflexivity|].
      assert (Hf : false = true) by (apply H; discriminate). discriminate.
    + split; [exists 1%nat; simpl; repeat split; intros b Hb; inversion Hb; exact I|].
      eexists. split; reflexivity.
Qed.

(** C13: with scalar scalers, and no variable that is both objective and
    constraint, the gradient handed to the optimizer is the derivative of the
    scaled response with respect to the scaled design variable, in every mode *)
Theorem C13_scalar_scalers_partial :
  let right g := forall desvars objs cons f x sf sx af ax nf nx J j i,
    NoDup (map fst desvars) -> NoDup (map fst (objs ++ cons)) ->
    In (x, Num sx) desvars -> In (f, Num sf) (objs ++ cons) -> ~ sx == 0 ->
    exists G, g (sget (dv_conversions desvars) x) (sget (fn_conversions objs cons) f) nf nx J j i = Ok G /\
      forall f0 d1 d2,
        scaled_value (f0 + J j i * d2) af sf - scaled_value (f0 + J j i * d1) af sf
        == G * (scaled_value d2 ax sx - scaled_value d1 ax sx) in
  right grad_fwd /\ right grad_rev /\ right grad_fd.
Proof. exact gradient_scalar_right. Qed.
Print Assumptions C13_scalar_scalers_partial.

(** array scalers: forward mode applies the design variable's scaler along
    the response axis *)
Theorem C13_array_scaler_fwd_refuted : exists sx J,
    let desvars := [("x"%string, Arr sx)] in let funs := [("f"%string, Num 1)] in
    length sx = 2%nat /\ Forall (fun s => ~ s == 0) sx /\
    (exists G, grad_fwd (sget (dv_conversions desvars) "x") (sget (fn_conversions funs []) "f") 2 2 J 0 1 = Ok G /\
               ~ G == J 0%nat 1%nat / nth 1 sx 0) /\
    grad_fwd (sget (dv_conversions desvars) "x") (sget (fn_conversions funs []) "f") 3 2 J 0 1 = Err ValueError.
Proof.
  exists [2; 4], (fun _ _ => 1). simpl. split; [reflexivity|]. split; [repeat constructor; discriminate|].
  split; [|reflexivity]. eexists. split; [reflexivity|]. vm_compute. discriminate.
Qed.
Print Assumptions C13_array_scaler_fwd_refuted.

(** reverse mode applies the response's scaler along the design variable axis *)
Theorem C13_array_scaler_rev_refuted : exists sf J,
    let desvars := [("x"%string, Num 1)] in let funs := [("f"%string, Arr sf)] in
    length sf = 2%nat /\
    (exists G, grad_rev (sget (dv_conversions desvars) "x") (sget (fn_conversions [] funs) "f") 2 2 J 0 1 = Ok G /\
               ~ G == J 0%nat 1%nat * nth 0 sf 0) /\
    grad_rev (sget (dv_conversions desvars) "x") (sget (fn_conversions [] funs) "f") 2 3 J 0 1 = Err ValueError.
Proof.
  exists [2; 4], (fun _ _ => 1). simpl. split; [reflexivity|].
  split; [|reflexivity]. eexists. split; [reflexivity|]. vm_compute. discriminate.
Qed.
Print Assumptions C13_array_scaler_rev_refuted.

(** and so does finite difference *)
Theorem C13_array_scaler_fd_refuted : exists sf J,
    let desvars := [("x"%string, Num 1)] in let funs := [("f"%string, Arr sf)] in
    length sf = 2%nat /\
    (exists G, grad_fd (sget (dv_conversions desvars) "x") (sget (fn_conversions [] funs) "f") 2 2 J 0 1 = Ok G /\
               ~ G == J 0%nat 1%nat * nth 0 sf 0) /\
    grad_fd (sget (dv_conversions desvars) "x") (sget (fn_conversions [] funs) "f") 2 3 J 0 1 = Err ValueError.
Proof.
  exists [2; 4], (fun _ _ => 1). simpl. split; [reflexivity|].
  split; [|reflexivity]. eexists. split; [reflexivity|]. vm_compute. discriminate.
Qed.
Print Assumptions C13_array_scaler_fd_refuted.

(** one variable as objective (scaler 10) and constraint (scaler 2): the
    objective's gradient is scaled with the constraint's scaler *)
Theorem C13_double_role_refuted : exists so sc J G,
    grad_fwd None (sget (fn_conversions [("f"%string, Num so)] [("f"%string, Num sc)]) "f") 1 1 J 0 0 = Ok G /\
    ~ G == J 0%nat 0%nat * so.
Proof.
  exists 10, 2, (fun _ _ => 1). eexists. split; [reflexivity|]. vm_compute. discriminate.
Qed.
Print Assumptions C13_double_role_refuted.

Example C13_ex :
  NoDup (map fst [("x"%string, Num 2)]) /\
  NoDup (map fst ([("f"%string, Num 3)] ++ [("g"%string, Num (1#2))])) /\ ~ 2 == 0.
Proof. simpl. repeat split; repeat constructor; simpl; try (intuition discriminate). Qed.

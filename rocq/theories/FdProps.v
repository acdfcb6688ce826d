(** Property theorems for finite differences and complex step: C26, C27, C60. *)
From Coq Require Import Field_theory Qcanon SpecFloat.
From Verif Require Import Base TransferModel FdModel FdSpec FdProofs FdProofs2.
Local Open Scope nat_scope.
Local Open Scope string_scope.

(** C26: any system which evaluates polynomials of the stepped inputs: degree 1
    for forward and backward differences (of a consistent state), degree 2 for
    central ones. *)
Theorem C26_fd_exact : forall F (F0 F1 : F) fadd fmul fsub fopp fdiv finv flt,
    field_theory F0 F1 fadd fmul fsub fopp fdiv finv eq ->
    forall total run ins asked phi s0, evaluates F0 total run ins asked phi s0 ->
    in_vectors ins s0 -> not_inputs total ins asked s0 -> NoDup ins ->
    forall outs passes, (forall k, asked_by outs k -> asked k) -> NoDup (map o_name outs) ->
    (forall o q, In o outs -> In q passes -> q_name q <> o_name o) ->
    forall params, steps_inputs ins params -> NoDup (map f_name params) -> fadd F1 F1 <> F0 ->
    forall e, (forall k x, asked k -> phi k x = peval fadd fmul fopp (at_list F0 x) (e k)) ->
    forall f o c idx t row j,
    In f params -> In o outs -> nth_error (f_idxs f) c = Some idx -> nth_error (o_rows o) t = Some row ->
    nth_error ins j = Some (f_where f, f_start f + idx) ->
    f_step f <> F0 -> (f_relative f = true -> flt F0 (f_step f) = true) ->
    pdeg (e (o_start o + row)) <= deg_bound (f_form f) ->
    (f_form f <> Central -> nth (o_start o + row) (res_of total s0) F0 = phi (o_start o + row) (inputs F0 ins s0)) ->
    jac_entry (fst (fd_serial F0 F1 fadd fmul fsub fopp finv flt total run outs passes params s0)) (o_name o) (f_name f) t c =
    Some (peval fadd fmul fopp (at_list F0 (inputs F0 ins s0)) (pderiv F0 F1 Nat.eqb j (e (o_start o + row)))).
Proof. exact @fd_exact. Qed.
Print Assumptions C26_fd_exact.

(** every block has one row per output entry and one column per stepped index *)
Theorem C26_block_shape : forall F (F0 F1 : F) fadd fmul fsub fopp fdiv finv flt,
    field_theory F0 F1 fadd fmul fsub fopp fdiv finv eq ->
    forall total run ins asked phi s0, evaluates F0 total run ins asked phi s0 ->
    in_vectors ins s0 -> not_inputs total ins asked s0 -> NoDup ins ->
    forall outs passes, (forall k, asked_by outs k -> asked k) -> NoDup (map o_name outs) ->
    (forall o q, In o outs -> In q passes -> q_name q <> o_name o) ->
    forall params, steps_inputs ins params -> NoDup (map f_name params) ->
    forall f o, In f params -> In o outs ->
    jac_shape (fst (fd_serial F0 F1 fadd fmul fsub fopp finv flt total run outs passes params s0)) (o_name o) (f_name f)
      (length (o_rows o)) (length (f_idxs f)).
Proof. exact @fd_block_shape. Qed.
Print Assumptions C26_block_shape.

(** an explicit component, with the run_model it really has *)
Theorem C26_component_exact : forall F (F0 F1 : F) fadd fmul fsub fopp fdiv finv flt,
    field_theory F0 F1 fadd fmul fsub fopp fdiv finv eq ->
    forall es outs params s0 f o c idx t row, fadd F1 F1 <> F0 ->
    Forall (vars_below (length (s_p s0))) es -> length es = length (s_u s0) ->
    s_r s0 = zip fsub (poly_out F0 fadd fmul fopp es (s_p s0)) (s_u s0) ->
    NoDup (map o_name outs) -> NoDup (map f_name params) ->
    (forall o row, In o outs -> In row (o_rows o) -> o_start o + row < length es) ->
    (forall f, In f params -> f_where f = InP /\ f_step f <> F0 /\ (f_relative f = true -> flt F0 (f_step f) = true) /\
                             forall idx, In idx (f_idxs f) -> f_start f + idx < length (s_p s0)) ->
    In f params -> In o outs -> nth_error (f_idxs f) c = Some idx -> nth_error (o_rows o) t = Some row ->
    pdeg (nth (o_start o + row) es (PC F0)) <= deg_bound (f_form f) ->
    jac_entry (fst (fd_serial F0 F1 fadd fmul fsub fopp finv flt false
                      (comp_apply fadd fsub fopp (poly_out F0 fadd fmul fopp es)) outs [] params s0)) (o_name o) (f_name f) t c =
    Some (peval fadd fmul fopp (at_list F0 (s_p s0)) (pderiv F0 F1 Nat.eqb (f_start f + idx) (nth (o_start o + row) es (PC F0)))).
Proof. exact @comp_fd. Qed.
Print Assumptions C26_component_exact.

(** ... and nothing changed: parameters, unknowns and residuals, for every
    function, form, step and any number of parallel processes *)
Theorem C26_component_restored : forall F (F0 F1 : F) fadd fmul fsub fopp fdiv finv flt,
    field_theory F0 F1 fadd fmul fsub fopp fdiv finv eq ->
    forall f outs passes params s0 num id,
    (forall x, length x = length (s_p s0) -> length (f x) = length (s_u s0)) ->
    l_st (fd_local F0 F1 fadd fmul fsub fopp finv flt false (comp_apply fadd fsub fopp f) num id outs passes params s0) = s0.
Proof. exact @comp_restored. Qed.
Print Assumptions C26_component_restored.

(** total derivatives of a group: independent variables, a transfer and a
    component.  The unknowns are restored. *)
Theorem C26_group_exact : forall F (F0 F1 : F) fadd fmul fsub fopp fdiv finv flt,
    field_theory F0 F1 fadd fmul fsub fopp fdiv finv eq ->
    forall n es outs passes params s0 f o c idx t row, fadd F1 F1 <> F0 ->
    Forall (vars_below n) es -> length (s_p s0) = n ->
    s_u s0 = (firstn n (s_u s0) ++ poly_out F0 fadd fmul fopp es (firstn n (s_u s0)))%list -> n <= length (s_u s0) ->
    NoDup (map o_name outs) -> NoDup (map f_name params) -> (forall o q, In o outs -> In q passes -> q_name q <> o_name o) ->
    (forall o row, In o outs -> In row (o_rows o) -> n <= o_start o + row < n + length es) ->
    (forall f, In f params -> f_where f = InU /\ f_step f <> F0 /\ (f_relative f = true -> flt F0 (f_step f) = true) /\
                             forall idx, In idx (f_idxs f) -> f_start f + idx < n) ->
    In f params -> In o outs -> nth_error (f_idxs f) c = Some idx -> nth_error (o_rows o) t = Some row ->
    pdeg (nth (o_start o + row - n) es (PC F0)) <= deg_bound (f_form f) ->
    let r := fd_serial F0 F1 fadd fmul fsub fopp finv flt true (group_solve n (poly_out F0 fadd fmul fopp es)) outs passes params s0 in
    jac_entry (fst r) (o_name o) (f_name f) t c =
      Some (peval fadd fmul fopp (at_list F0 (firstn n (s_u s0))) (pderiv F0 F1 Nat.eqb (f_start f + idx) (nth (o_start o + row - n) es (PC F0)))) /\
    s_u (snd r) = s_u s0.
Proof. exact @group_fd. Qed.
Print Assumptions C26_group_exact.

(** ... but the parameters keep the values of the last perturbed run *)
Theorem C26_group_params_refuted : forall F (F0 F1 : F) fadd fmul fsub fopp fdiv finv flt,
    field_theory F0 F1 fadd fmul fsub fopp fdiv finv eq ->
    forall x h, h <> F0 ->
    let f := mkFP "c.x" (Some "x") InU 0 [0] h false Forward in
    let s0 := mkSt [x] [x; x] [] in
    group_solve 1 (fun v => v) s0 = s0 /\
    s_p (snd (fd_serial F0 F1 fadd fmul fsub fopp finv flt true (group_solve 1 (fun v => v)) [mkFO "y" 1 [0]] [] [f] s0)) = [fadd x h] /\
    [fadd x h] <> s_p s0.
Proof. exact @params_perturbed. Qed.
Print Assumptions C26_group_params_refuted.

(** the inputs and the result vector of any system come back in exact arithmetic *)
Theorem C26_inputs_restored_partial : forall F (F0 F1 : F) fadd fmul fsub fopp fdiv finv flt,
    field_theory F0 F1 fadd fmul fsub fopp fdiv finv eq ->
    forall total run ins asked phi s0, evaluates F0 total run ins asked phi s0 ->
    in_vectors ins s0 -> not_inputs total ins asked s0 -> NoDup ins ->
    forall outs passes, (forall k, asked_by outs k -> asked k) -> NoDup (map o_name outs) ->
    (forall o q, In o outs -> In q passes -> q_name q <> o_name o) ->
    forall params, steps_inputs ins params -> NoDup (map f_name params) ->
    let s' := snd (fd_serial F0 F1 fadd fmul fsub fopp finv flt total run outs passes params s0) in
    inputs F0 ins s' = inputs F0 ins s0 /\ res_of total s' = res_of total s0.
Proof. exact @fd_keeps. Qed.
Print Assumptions C26_inputs_restored_partial.

(** in binary64 a parameter equal to 1.0 stepped by the default 1e-6 comes back
    as 0.9999999999999999 *)
Definition f64_add := SFadd 53 1024.
Definition f64_sub := SFsub 53 1024.
Definition f64_mul := SFmul 53 1024.
Definition f64_one : spec_float := S754_finite false 4503599627370496 (-52).
Definition f64_micro : spec_float := S754_finite false 4722366482869645 (-72).
Theorem C26_float_refuted :
    let x := f64_one in
    let f := mkFP "x" None InP 0 [0] f64_micro true Forward in
    let s' := snd (fd_serial (S754_zero false) f64_one f64_add f64_mul f64_sub SFopp (SFdiv 53 1024 f64_one) SFltb
                    false (comp_apply f64_add f64_sub SFopp (fun v => v)) [mkFO "y" 0 [0]] [] [f] (mkSt [x] [x] [S754_zero false])) in
    s_p s' = [S754_finite false 9007199254740991 (-53)] /\ s_p s' <> [x].
Proof. split; [vm_compute; reflexivity|vm_compute; discriminate]. Qed.
Print Assumptions C26_float_refuted.

(** an unknown which is itself the stepped variable: identity, when indices are
    given for it *)
Theorem C26_identity_partial : forall F (F0 F1 : F) fadd fmul fsub fopp finv flt total run outs passes,
    NoDup (map q_name passes) -> (forall o q, In o outs -> In q passes -> q_name q <> o_name o) ->
    forall params s0 f q l c idx t row,
    NoDup (map f_name params) -> In f params -> In q passes -> q_idxs q = Some l -> NoDup l ->
    nth_error (f_idxs f) c = Some idx -> nth_error l t = Some row ->
    jac_entry (fst (fd_serial F0 F1 fadd fmul fsub fopp finv flt total run outs passes params s0)) (q_name q) (f_name f) t c =
    Some (if (match f_src f with Some s => String.eqb (q_name q) s | None => false end && Nat.eqb row idx)%bool then F1 else F0).
Proof. exact @pass_identity. Qed.
Print Assumptions C26_identity_partial.

(** without indices the block of a variable of size 2 is a single 1 *)
Theorem C26_identity_refuted : forall F (F0 F1 : F) fadd fmul fsub fopp finv flt (x y h : F),
    let q := mkPass "x" 2 None in
    let f := mkFP "c.x" (Some "x") InU 0 [0; 1] h false Forward in
    dget key2_eqb (fst (fd_serial F0 F1 fadd fmul fsub fopp finv flt true (group_solve 2 (fun v => v)) [] [q] [f] (mkSt [x; y] [x; y; x; y] [])))
      ("x", "c.x") = Some [[F1]].
Proof. exact @pass_no_indices. Qed.
Print Assumptions C26_identity_refuted.

(** y = (x0*x1 + 3, x1*x1 - x0) at (2, 5), central differences with step 1/10 *)
Definition qc (a : Z) (b : positive) : Qc := Q2Qc (a # b).
Definition qlt (a b : Qc) : bool := match (this a ?= this b)%Q with Lt => true | _ => false end.
Definition ex_es : list (pexpr Qc nat) :=
  [PAdd (PMul (PV 0) (PV 1)) (PC (qc 3 1)); PAdd (PMul (PV 1) (PV 1)) (PNeg (PV 0))].
Definition ex_par := mkFP "x" None InP 0 [0; 1] (qc 1 10) true Central.
Definition ex_s0 := mkSt [qc 2 1; qc 5 1] [qc 13 1; qc 23 1] [qc 0 1; qc 0 1].
Definition ex_fd := fd_serial (qc 0 1) (qc 1 1) Qcplus Qcmult Qcminus Qcopp Qcinv qlt false
  (comp_apply Qcplus Qcminus Qcopp (poly_out (qc 0 1) Qcplus Qcmult Qcopp ex_es)) [mkFO "y" 0 [0; 1]] [] [ex_par] ex_s0.
Example C26_ex :
    Forall (vars_below 2) ex_es /\
    map (map this) (match dget key2_eqb (fst ex_fd) ("y", "x") with Some m => m | None => [] end) = [[5; -1 # 1]; [2; 10]]%Q /\
    map this (s_p (snd ex_fd)) = [2; 5]%Q /\ map this (s_u (snd ex_fd)) = [13; 23]%Q /\
    f_step ex_par <> qc 0 1 /\ qlt (qc 0 1) (f_step ex_par) = true.
Proof.
  split; [repeat constructor|]. split; [vm_compute; reflexivity|]. split; [vm_compute; reflexivity|]. split; [vm_compute; reflexivity|].
  split; [|reflexivity]. intros H. apply (f_equal this) in H. discriminate H.
Qed.

(** C27: every column is computed by exactly one of the processes, and nothing
    else is *)
Theorem C27_columns_once : forall F (F0 F1 : F) fadd fmul fsub fopp fdiv finv flt,
    field_theory F0 F1 fadd fmul fsub fopp fdiv finv eq ->
    forall total run ins asked phi s0, evaluates F0 total run ins asked phi s0 ->
    in_vectors ins s0 -> not_inputs total ins asked s0 -> NoDup ins ->
    forall outs passes, (forall k, asked_by outs k -> asked k) -> NoDup (map o_name outs) ->
    (forall o q, In o outs -> In q passes -> q_name q <> o_name o) ->
    forall params, steps_inputs ins params -> NoDup (map f_name params) ->
    forall num k f o c, 1 < num -> nth_error params k = Some f -> In o outs -> c < length (f_idxs f) ->
    exists id, id < num /\ dmem key3_eqb (l_cols (fd_local F0 F1 fadd fmul fsub fopp finv flt total run num id outs passes params s0)) (o_name o, f_name f, c) = true /\
      forall id', dmem key3_eqb (l_cols (fd_local F0 F1 fadd fmul fsub fopp finv flt total run num id' outs passes params s0)) (o_name o, f_name f, c) = true -> id' = id.
Proof. exact @columns_split. Qed.
Print Assumptions C27_columns_once.

Theorem C27_columns_only : forall F (F0 F1 : F) fadd fmul fsub fopp fdiv finv flt,
    field_theory F0 F1 fadd fmul fsub fopp fdiv finv eq ->
    forall total run ins asked phi s0, evaluates F0 total run ins asked phi s0 ->
    in_vectors ins s0 -> not_inputs total ins asked s0 -> NoDup ins ->
    forall outs passes, (forall k, asked_by outs k -> asked k) -> NoDup (map o_name outs) ->
    (forall o q, In o outs -> In q passes -> q_name q <> o_name o) ->
    forall params, steps_inputs ins params -> NoDup (map f_name params) ->
    forall num id u p c,
    dmem key3_eqb (l_cols (fd_local F0 F1 fadd fmul fsub fopp finv flt total run num id outs passes params s0)) (u, p, c) = true ->
    exists f o, In f params /\ In o outs /\ u = o_name o /\ p = f_name f /\ c < length (f_idxs f).
Proof. exact @columns_only. Qed.
Print Assumptions C27_columns_only.

(** the ids given to the ranks are all of 0..num-1 *)
Theorem C27_ids : forall num size, (1 <= num <= size)%Z ->
    exists ids, fd_ids num size = Ok ids /\ length ids = Z.to_nat size /\ (forall id, id < Z.to_nat num <-> In id ids).
Proof. exact fd_ids_cover. Qed.
Print Assumptions C27_ids.

(** every rank ends with the serial Jacobian, for any function *)
Theorem C27_parallel_is_serial_partial : forall F (F0 F1 : F) fadd fmul fsub fopp fdiv finv flt,
    field_theory F0 F1 fadd fmul fsub fopp fdiv finv eq ->
    forall total run ins asked phi s0, evaluates F0 total run ins asked phi s0 ->
    in_vectors ins s0 -> not_inputs total ins asked s0 -> NoDup ins ->
    forall outs passes params, (forall k, asked_by outs k -> asked k) -> NoDup (map o_name outs) ->
    (forall o q, In o outs -> In q passes -> q_name q <> o_name o) ->
    steps_inputs ins params -> NoDup (map f_name params) ->
    forall num size ids me, (1 <= num <= size)%Z -> fd_ids num size = Ok ids -> me < Z.to_nat size ->
    forall f o, In f params -> In o outs ->
    exists m, dget key2_eqb (fd_parallel F0 F1 fadd fmul fsub fopp finv flt total run (Z.to_nat num) ids outs passes params s0 me) (o_name o, f_name f) = Some m /\
              dget key2_eqb (fst (fd_serial F0 F1 fadd fmul fsub fopp finv flt total run outs passes params s0)) (o_name o, f_name f) = Some m.
Proof. exact @parallel_serial. Qed.
Print Assumptions C27_parallel_is_serial_partial.

(** identity blocks are not exchanged: with two processes each has half of it *)
Theorem C27_identity_refuted : forall F (F0 F1 : F) fadd fmul fsub fopp finv flt (x y h : F),
    let q := mkPass "x" 2 (Some [0; 1]) in
    let f := mkFP "c.x" (Some "x") InU 0 [0; 1] h false Forward in
    let s0 := mkSt [x; y] [x; y; x; y] [] in
    dget key2_eqb (fd_parallel F0 F1 fadd fmul fsub fopp finv flt true (group_solve 2 (fun v => v)) 2 [0; 1] [] [q] [f] s0 0)
      ("x", "c.x") = Some [[F1; F0]; [F0; F0]] /\
    dget key2_eqb (fst (fd_serial F0 F1 fadd fmul fsub fopp finv flt true (group_solve 2 (fun v => v)) [] [q] [f] s0))
      ("x", "c.x") = Some [[F1; F0]; [F0; F1]].
Proof. exact @pass_parallel. Qed.
Print Assumptions C27_identity_refuted.

Definition ex_par_fd me := fd_parallel (qc 0 1) (qc 1 1) Qcplus Qcmult Qcminus Qcopp Qcinv qlt false
  (comp_apply Qcplus Qcminus Qcopp (poly_out (qc 0 1) Qcplus Qcmult Qcopp ex_es)) 2 [0; 0; 1] [mkFO "y" 0 [0; 1]] [] [ex_par] ex_s0 me.
Example C27_ex : fd_ids 2 3 = Ok [0; 0; 1] /\
    map (fun me => map (map this) (match dget key2_eqb (ex_par_fd me) ("y", "x") with Some m => m | None => [] end)) [0; 1; 2]
    = [ [[5; -1 # 1]; [2; 10]]; [[5; -1 # 1]; [2; 10]]; [[5; -1 # 1]; [2; 10]] ]%Q.
Proof. split; vm_compute; reflexivity. Qed.

(** C60: complex step of a component, polynomials of degree at most 2 *)
Theorem C60_component_exact : forall F (F0 F1 : F) fadd fmul fsub fopp fdiv finv,
    field_theory F0 F1 fadd fmul fsub fopp fdiv finv eq ->
    forall es a n h s, h <> F0 -> Forall (fun ex => pdeg ex <= 2) es -> a + n <= length (s_p s) ->
    let '(s', m) := complex_step F0 fadd fmul fsub fopp finv (cpoly_out F0 fadd fmul fsub fopp es) a n h s in
    s_p s' = s_p s /\ s_u s' = s_u s /\
    m = map (fun i => map (fun ex => peval fadd fmul fopp (at_list F0 (s_p s)) (pderiv F0 F1 Nat.eqb (a + i) ex)) es) (seq 0 n).
Proof. exact @complex_step_exact. Qed.
Print Assumptions C60_component_exact.

(** the residuals, however, are overwritten with zeros *)
Theorem C60_resids_zeroed : forall F (F0 F1 : F) fadd fmul fsub fopp fdiv finv,
    field_theory F0 F1 fadd fmul fsub fopp fdiv finv eq ->
    forall f a n h s, n <> 0 -> a + n <= length (s_p s) ->
    s_r (fst (complex_step F0 fadd fmul fsub fopp finv f a n h s)) = repeat F0 (length (s_u s)).
Proof. exact @complex_step_resids. Qed.
Print Assumptions C60_resids_zeroed.

(** ExecComp: every entry of the Jacobian is the derivative of the polynomial the
    assignments define *)
Theorem C60_execcomp_exact : forall F (F0 F1 : F) fadd fmul fsub fopp fdiv finv,
    field_theory F0 F1 fadd fmul fsub fopp fdiv finv eq ->
    forall unknowns params p i h pvals, sget params p = Some pvals -> i < length pvals -> h <> F0 ->
    forall code columns done k u t e, exec_column F0 fadd fmul fsub fopp finv unknowns params code h p i = Some columns ->
    sym_all unknowns params code [] = Some done -> nth_error (map fst unknowns) k = Some u ->
    sym_out unknowns params done u t = Some e -> pdeg e <= 2 ->
    exists col, nth_error columns k = Some (u, col) /\
      nth_error col t = Some (peval fadd fmul fopp (param_env F0 params) (pderiv F0 F1 pv_eqb (p, i) e)).
Proof. exact @exec_exact. Qed.
Print Assumptions C60_execcomp_exact.

(** y = x*x + z;  w = 3*y - x, at x = 2, z = 7: dy/dx = 4, dw/dx = 11 *)
Definition ex_code : list (@assignment Qc) :=
  [("y", [SAdd (SMul (SV "x" 0) (SV "x" 0)) (SV "z" 0)]); ("w", [SAdd (SMul (SC (qc 3 1)) (SV "y" 0)) (SNeg (SV "x" 0))])].
Example C60_ex :
    option_map (map (fun c => (fst c, map this (snd c))))
      (exec_column (qc 0 1) Qcplus Qcmult Qcminus Qcopp Qcinv [("y", [qc 0 1]); ("w", [qc 0 1])] [("x", [qc 2 1]); ("z", [qc 7 1])] ex_code (qc 1 8) "x" 0)
    = Some [("y", [4%Q]); ("w", [11%Q])] /\
    match sym_all [("y", [qc 0 1]); ("w", [qc 0 1])] [("x", [qc 2 1]); ("z", [qc 7 1])] ex_code [] with
    | Some done => option_map pdeg (sym_out [("y", [qc 0 1]); ("w", [qc 0 1])] [("x", [qc 2 1]); ("z", [qc 7 1])] done "w" 0)
    | None => None
    end = Some 2.
Proof. split; vm_compute; reflexivity. Qed.

(** Property theorems C14, C15 and C64: option dictionaries. *)
From Verif Require Import Base OptionsModel OptionsSpec OptionsProofs.

(** C14: after any history, each option stems from a successful add_option
    that was not followed by its removal, keeps that declaration, and its value
    satisfies it — up to NaN, which escapes the bounds *)
Theorem C14_values_satisfy_declaration_partial : forall ops, standard ops ->
    forall i d n x, nth_error (w_dicts (run start ops)) i = Some d -> sget (d_options d) n = Some x ->
    exists pre post v lo up vs lk,
      ops = pre ++ OAdd i n v lo up vs lk :: post /\
      snd (step (run start pre) (OAdd i n v lo up vs lk)) = Ok tt /\
      (forall q, In q post -> q <> ORemove i n) /\
      o_lower x = lo /\ o_upper x = up /\ o_values x = vs /\ o_lock x = lk /\
      satisfies_or_nan (mkDecl v lo up vs) (o_val x).
Proof.
  intros ops Hs i d n x Hd Hx.
  destruct (proj2 (options_satisfy ops Hs i d Hd) n x Hx)
    as (pre & post & v & lo & up & vs & lk & e & A & B & _ & C).
  exists pre, post, v, lo, up, vs, lk. split; [exact A|]. split; [exact B|]. exact C.
Qed.
Print Assumptions C14_values_satisfy_declaration_partial.

(** NaN is accepted by an option bounded by 0 and 1 *)
Theorem C14_nan_refuted : exists ops d x,
    standard ops /\ nth_error (w_dicts (run start ops)) 0 = Some d /\ sget (d_options d) "tol" = Some x /\
    ~ satisfies (mkDecl (VFloat 0) (o_lower x) (o_upper x) (o_values x)) (o_val x).
Proof.
  exists [ONew Plain; OAdd 0 "tol" (VFloat 0) (Some (VFloat 0)) (Some (VFloat 1)) None false; OSet 0 "tol" VNan].
  eexists. eexists. split; [|split; [reflexivity|split; [reflexivity|]]].
  - intros pre post i n v lo up vs lk d E Hd Hk Hn. exfalso.
    destruct pre as [|a pre]; simpl in E; [discriminate|]. injection E as _ E.
    destruct pre as [|b pre]; simpl in E.
    + injection E as _ <-. destruct Hn as [Hn|Hn]; discriminate.
    + injection E as _ E. destruct pre as [|c pre]; simpl in E; [discriminate|].
      injection E as _ E. destruct pre; discriminate.
  - simpl. intros [_ [H _]]. specialize (H (VFloat 0) eq_refl).
    destruct H as [(p & q & _ & H & _)|(s & t & H & _)]; discriminate.
Qed.
Print Assumptions C14_nan_refuted.

(** a value that satisfies the declaration is accepted, and only that option changes *)
Theorem C14_valid_assignment_accepted : forall w i d n o v,
    nth_error (w_dicts w) i = Some d -> d_kind d = Plain -> sget (d_options d) n = Some o ->
    (locked w d = false \/ o_lock o = false) ->
    satisfies (mkDecl (o_val o) (o_lower o) (o_upper o) (o_values o)) v ->
    snd (step w (OSet i n v)) = Ok tt /\
    exists d' o', nth_error (w_dicts (fst (step w (OSet i n v)))) i = Some d' /\
      sget (d_options d') n = Some o' /\ o_val o' = v /\
      (forall m, m <> n -> sget (d_options d') m = sget (d_options d) m) /\
      (forall j, j <> i -> nth_error (w_dicts (fst (step w (OSet i n v)))) j = nth_error (w_dicts w) j).
Proof. exact set_accepts. Qed.
Print Assumptions C14_valid_assignment_accepted.

(** a rejected operation leaves everything unchanged *)
Theorem C14_rejected_unchanged : forall w o e,
    (forall d, In d (w_dicts w) -> d_kind d = Deriv ->
       smem (d_options d) "step_size" = true /\ smem (d_options d) "check_step_size" = true) ->
    snd (step w o) = Err e -> fst (step w o) = w.
Proof. exact rejected_unchanged. Qed.
Print Assumptions C14_rejected_unchanged.

(** a locked option keeps its value as long as no dictionary is created and
    its own dictionary is not unlocked *)
Theorem C14_locked_option_partial : forall ops w i d n o,
    nth_error (w_dicts w) i = Some d -> locked w d = true ->
    (d_kind d = Plain \/ ~ (n = "step_size"%string \/ n = "check_step_size"%string)) ->
    sget (d_options d) n = Some o -> o_lock o = true ->
    Forall (keeps_lock i n) ops ->
    exists d' o', nth_error (w_dicts (run w ops)) i = Some d' /\
      sget (d_options d') n = Some o' /\ o_val o' = o_val o.
Proof.
  intros ops w i d n o H1 H2 H3 H4 H5 H6.
  destruct (locked_forever ops w i n (o_val o)
              (ex_intro _ d (ex_intro _ o (conj H1 (conj H2 (conj H3 (conj H4 (conj H5 eq_refl))))))) H6)
    as (d' & o' & A & _ & _ & B & _ & C).
  exists d', o'. repeat split; assumption.
Qed.
Print Assumptions C14_locked_option_partial.

(** creating any other dictionary unlocks every option *)
Theorem C14_locked_option_refuted : exists ops v,
    let w := run start [ONew Plain; OAdd 0 "mode" (VStr "fwd") None None None true; OLock] in
    snd (step w (OSet 0 "mode" v)) = Err RuntimeError /\
    (forall i n, ~ In (ORemove i n) ops) /\ (forall i b, ~ In (OInstance i b) ops) /\
    exists d' o', nth_error (w_dicts (run w (ops ++ [OSet 0 "mode" v]))) 0 = Some d' /\
      sget (d_options d') "mode" = Some o' /\ o_val o' <> VStr "fwd".
Proof.
  exists [ONew Plain], (VStr "rev"). split; [reflexivity|].
  split; [intros i n [H|[]]; discriminate|]. split; [intros i b [H|[]]; discriminate|].
  eexists. eexists. repeat split. simpl. discriminate.
Qed.
Print Assumptions C14_locked_option_refuted.

Example C14_ex :
  let w := run start [ONew Plain; OAdd 0 "maxiter" (VInt 10) (Some (VInt 0)) (Some (VInt 10)) None true] in
  exists d o, nth_error (w_dicts w) 0 = Some d /\ d_kind d = Plain /\ sget (d_options d) "maxiter" = Some o /\
    satisfies (mkDecl (o_val o) (o_lower o) (o_upper o) (o_values o)) (VInt 3) /\
    locked (run w [OLock]) d = true /\ snd (step w (OSet 0 "maxiter" (VInt 11))) = Err ValueError.
Proof.
  eexists. eexists. repeat split; intros l Hl; injection Hl as <-; left;
    (do 2 eexists; split; [reflexivity|]; split; [reflexivity|]; discriminate).
Qed.

(** C15: indexing, assignment and membership through a deprecated name behave
    as through the new name (plain dictionaries) *)
Theorem C15_alias_partial : forall d old new, sget (d_options d) old = None ->
    sget (d_deprecations d) old = Some new -> smem (d_options d) new = true ->
    getitem d old = getitem d new /\ (contains d old = true /\ contains d new = true) /\
    (d_kind d = Plain -> forall lk v, setitem lk d old v = setitem lk d new v).
Proof.
  intros d old new H1 H2 H3. split; [exact (alias_getitem d old new H1 H2 H3)|].
  split; [exact (alias_contains d old new H2 H3)|].
  intros Hk lk v. exact (alias_setitem lk d old new v Hk H1 H2 H3).
Qed.
Print Assumptions C15_alias_partial.

(** the [get] method raises KeyError for every deprecated name *)
Theorem C15_get_refuted : forall d old new default, sget (d_options d) old = None ->
    sget (d_deprecations d) old = Some new -> get d old default = Err KeyError.
Proof. exact alias_get_fails. Qed.
Print Assumptions C15_get_refuted.

(** in derivative options, assigning through the deprecated name 'force_fd'
    leaves a different step size than assigning 'type' *)
Theorem C15_deriv_alias_refuted : exists d v,
    nth_error (w_dicts (run start system_options)) 0 = Some d /\
    sget (d_deprecations d) "force_fd" = Some "type"%string /\
    snd (setitem false d "force_fd" v) = Ok tt /\ snd (setitem false d "type" v) = Ok tt /\
    getitem (fst (setitem false d "force_fd" v)) "step_size"
    <> getitem (fst (setitem false d "type" v)) "step_size".
Proof.
  eexists. exists (VStr "cs"). split; [vm_compute; reflexivity|].
  split; [vm_compute; reflexivity|]. split; [vm_compute; reflexivity|]. split; [vm_compute; reflexivity|].
  vm_compute. discriminate.
Qed.
Print Assumptions C15_deriv_alias_refuted.

(** the legacy fd_options view: force_fd reads back what was written *)
Theorem C15_legacy_force_fd : forall d b o, sget (d_options d) "type" = Some o ->
    o_values o = enum ["user"; "fd"; "cs"]%string ->
    fd_getitem (fst (fd_setitem false d "force_fd" (VBool b))) "force_fd" = Ok (VBool b).
Proof. exact legacy_force_fd. Qed.
Print Assumptions C15_legacy_force_fd.

(** but an accepted legacy 'extra_check_partials_form' cannot be read back *)
Theorem C15_legacy_read_refuted : exists d v,
    nth_error (w_dicts (run start system_options)) 0 = Some d /\
    snd (fd_setitem false d "extra_check_partials_form" v) = Ok tt /\
    fd_getitem (fst (fd_setitem false d "extra_check_partials_form" v)) "extra_check_partials_form" = Err KeyError.
Proof.
  eexists. exists (VStr "central"). split; [vm_compute; reflexivity|].
  split; vm_compute; reflexivity.
Qed.
Print Assumptions C15_legacy_read_refuted.

Example C15_ex :
  let d := nth 0 (w_dicts (run start [ONew Plain; OAdd 0 "maxiter" (VInt 10) None None None false;
                                      ODeprecate 0 "max_iter" "maxiter"])) (mkDict Plain [] [] None) in
  sget (d_options d) "max_iter" = None /\ sget (d_deprecations d) "max_iter" = Some "maxiter"%string /\
  smem (d_options d) "maxiter" = true.
Proof. repeat split. Qed.

(** C64: after any sequence of assignments to the derivative options of a
    system, accepted or rejected, the step sizes are the last valid ones
    assigned, or else the default of the last derivative type assigned *)
Theorem C64_step_size_follows_type : forall d l,
    nth_error (w_dicts (run start system_options)) 0 = Some d ->
    getitem (assign_all d l) "step_size" = Ok (snd (fold_left (expect_step "step_size" "type") l (false, step_fd))) /\
    getitem (assign_all d l) "check_step_size"
    = Ok (snd (fold_left (expect_step "check_step_size" "check_type") l (false, step_fd))).
Proof. exact step_size_follows. Qed.
Print Assumptions C64_step_size_follows_type.

Example C64_ex :
  snd (fold_left (expect_step "step_size" "type")
         [("type"%string, VStr "cs"); ("step_size"%string, VInt 3)] (false, step_fd)) = step_cs /\
  snd (fold_left (expect_step "step_size" "type")
         [("step_size"%string, VFloat (1#2)); ("type"%string, VStr "cs")] (false, step_fd)) = VFloat (1#2).
Proof. split; reflexivity. Qed.

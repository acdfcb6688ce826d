(** Property theorems for recording: C16-C19. *)
From Coq Require Import Permutation.
From Verif Require Import Base RecordModel RecordSpec RecordProofs.
Local Open Scope nat_scope.
Local Open Scope string_scope.

(** C16: the text key determines the iteration coordinate, for every rank,
    nesting depth and iteration numbers *)
Theorem C16_key_determines_coordinate : forall c c', legal_names c -> legal_names c' ->
    format_coord c = format_coord c' -> c = c'.
Proof. intros c c' L L'. apply format_inj; apply legal_no_bars; assumption. Qed.
Print Assumptions C16_key_determines_coordinate.

(** the same for any names without the separator *)
Theorem C16_key_determines_coordinate_gen : forall c c', no_bars c -> no_bars c' ->
    format_coord c = format_coord c' -> c = c'.
Proof. exact format_inj. Qed.
Print Assumptions C16_key_determines_coordinate_gen.

Example C16_ex :
  let c := fst (group_coord 0 "L-BFGS-B" [3] [1] [mkLevel "g1" NLGaussSeidel [12]; mkLevel "g2" Newton [1; 2]]) in
  format_coord c = "rank0:L-BFGS-B|3|root|1|g1|12|g1.g2|1-2" /\ legal_names c.
Proof. split; [reflexivity|]. repeat constructor. Qed.

(** C17: a recorder attached to any groups records, for a group whose ancestors
    below the first level and itself use RunOnce, exactly the selected
    variables with their values.  Missing: groups with other solvers below the
    first level, where the claim fails (next theorems). *)
Theorem C17_selected_partial :
  forall V m o gs rank driver it0 it1 chain params unknowns (vec : list (string * V)) k,
    NoDup (map g_path gs) ->
    In (mkG (snd (group_coord rank driver it0 it1 chain)) params unknowns) gs ->
    recorded o k = true -> dkeys vec = g_names (mkG "" params unknowns) k ->
    Forall (fun l => l_name l <> "") chain ->
    Forall (fun l => l_solver l = RunOnce) (tl chain) ->
    exists d, filter_vector (started m o gs) vec k (fst (group_coord rank driver it0 it1 chain)) = Ok d /\
      forall n v, sget d n = Some v <-> (selected m o n /\ sget vec n = Some v).
Proof.
  intros. eapply filter_vector_own; eauto.
  cbn [g_path]. rewrite group_path by assumption. apply key_iff; assumption.
Qed.
Print Assumptions C17_selected_partial.

(** the table is looked up under the group's own pathname exactly when all
    groups below the first level use RunOnce *)
Theorem C17_key_exact : forall rank driver it0 it1 chain, Forall (fun l => l_name l <> "") chain ->
    (get_pathname (fst (group_coord rank driver it0 it1 chain))
     = snd (group_coord rank driver it0 it1 chain)
     <-> Forall (fun l => l_solver l = RunOnce) (tl chain)).
Proof. intros. rewrite group_path by assumption. apply key_iff; assumption. Qed.
Print Assumptions C17_key_exact.

(** pathnames are the dotted names *)
Theorem C17_pathname : forall rank driver it0 it1 chain, Forall (fun l => l_name l <> "") chain ->
    snd (group_coord rank driver it0 it1 chain) = dotted chain.
Proof. exact group_path. Qed.
Print Assumptions C17_pathname.

(** the driver's own recorder and a recorder on the root solver use the root's table *)
Theorem C17_driver_key : forall rank driver it0,
    get_pathname (update_local_meta (create_local_meta rank None driver) it0) = "".
Proof. reflexivity. Qed.
Print Assumptions C17_driver_key.

(** a recorder attached to the solver of a group at depth 2 that iterates
    cannot record: KeyError *)
Theorem C17_nested_solver_refuted : exists m o chain,
    let gc := group_coord 0 "Driver" [0] [0] chain in
    let g := mkG (snd gc) [] ["y"] in
    recorded o KU = true /\ selected m o "y" /\
    filter_vector (started m o [g]) [("y", 1%Z)] KU (fst gc) = Err KeyError.
Proof.
  exists (fun _ _ => true), (mkOpts false true false ["*"] []),
    [mkLevel "g1" RunOnce [1]; mkLevel "g2" NLGaussSeidel [1]].
  split; [reflexivity|]. split; [|vm_compute; reflexivity].
  split; [exists "*"; simpl; auto|intros p []].
Qed.
Print Assumptions C17_nested_solver_refuted.

(** or silently records the selection of a different group *)
Theorem C17_wrong_group_refuted : exists m o chain g',
    let gc := group_coord 0 "Driver" [0] [0] chain in
    let g := mkG (snd gc) [] ["x"; "y"] in
    NoDup [g_path g; g_path g'] /\ recorded o KU = true /\ selected m o "y" /\
    filter_vector (started m o [g; g']) [("x", 2%Z); ("y", 1%Z)] KU (fst gc) = Ok [("x", 2%Z)].
Proof.
  exists (fun _ _ => true), (mkOpts false true false ["*"] []),
    [mkLevel "a" RunOnce [1]; mkLevel "b" NLGaussSeidel [1]], (mkG "a.a.b" [] ["x"]).
  split; [repeat constructor; simpl; intuition discriminate|]. split; [reflexivity|].
  split; [|vm_compute; reflexivity]. split; [exists "*"; simpl; auto|intros p []].
Qed.
Print Assumptions C17_wrong_group_refuted.

Example C17_ex :
  let chain := [mkLevel "g1" Newton [1]; mkLevel "g2" RunOnce [1]; mkLevel "g3" RunOnce [1]] in
  let gc := group_coord 0 "Driver" [0] [0] chain in
  let o := mkOpts false true false ["x"; "y"; "z"] ["y"] in
  filter_vector (started String.eqb o [mkG (snd gc) [] ["x"; "y"; "w"]])
    [("x", 1%Z); ("y", 2%Z); ("w", 3%Z)] KU (fst gc) = Ok [("x", 1%Z)].
Proof. reflexivity. Qed.

(** C18: variables that are read by value (scalars, converted arrays, objects)
    keep their recorded value whatever happens later.  Missing: plain array
    variables, for which the claim fails. *)
Theorem C18_by_value_partial : forall V g (s : inmem V) names n v later,
    In n names -> sget (im_mem s) n = Some v -> by_value (g n) ->
    im_read (im_run g (im_step g s (Record_ names)) later) (length (im_iters s)) n = Some v.
Proof. intros V. exact by_value_kept. Qed.
Print Assumptions C18_by_value_partial.

(** a recorded array always shows the current value instead *)
Theorem C18_array_shows_current : forall V g (s : inmem V) names n v later,
    In n names -> sget (im_mem s) n = Some v -> g n = GArray ->
    im_read (im_run g (im_step g s (Record_ names)) later) (length (im_iters s)) n
    = sget (im_mem (im_run g (im_step g s (Record_ names)) later)) n.
Proof. intros V. exact array_current. Qed.
Print Assumptions C18_array_shows_current.

Theorem C18_array_refuted : exists g (s : inmem (list Z)) names n v later,
    In n names /\ sget (im_mem s) n = Some v /\
    im_read (im_run g (im_step g s (Record_ names)) later) (length (im_iters s)) n <> Some v.
Proof.
  exists (fun _ => GArray), (mkInmem [("x", [1%Z; 2%Z])] []), ["x"], "x", [1%Z; 2%Z],
    [Write "x" [5%Z; 6%Z]; Record_ ["x"]].
  split; [simpl; auto|]. split; [reflexivity|]. vm_compute. discriminate.
Qed.
Print Assumptions C18_array_refuted.

Example C18_ex :
  let g := fun n => if String.eqb n "s" then GScalar else GArray in
  let s := mkInmem [("s", [1%Z]); ("x", [1%Z; 2%Z])] [] in
  let s' := im_run g (im_step g s (Record_ ["s"; "x"])) [Write "s" [3%Z]; Write "x" [3%Z; 4%Z]] in
  im_read s' 0 "s" = Some [1%Z] /\ im_read s' 0 "x" = Some [3%Z; 4%Z].
Proof. split; reflexivity. Qed.

(** C19: iterations recorded with distinct coordinates in a SQLite file are
    listed once each in order *)
Theorem C19_sqlite_keys : forall V D T o (l : list (event V D T)),
    Forall (fun e => no_bars (event_coord e)) l -> NoDup (iter_coords l) ->
    sq_keys (sq_write o l) = map format_coord (iter_coords l).
Proof. intros. apply sq_keys_all. split; assumption. Qed.
Print Assumptions C19_sqlite_keys.

(** each is read back with its values, success flag and message.  Missing: the
    derivatives, which are in the attribute _derivs instead of derivs. *)
Theorem C19_sqlite_case_partial : forall V D T o (l : list (event V D T)) i,
    Forall (fun e => no_bars (event_coord e)) l -> NoDup (iter_coords l) -> In (EIter i) l ->
    sq_get_case (sq_write o l) (format_coord (i_coord i))
    = Ok (mkCase (format_coord (i_coord i)) (Some (i_timestamp i)) (Some (i_success i)) (Some (i_msg i))
            (if ro_params o then Some (i_params i) else None)
            (if ro_unknowns o then Some (i_unknowns i) else None) None
            (if ro_resids o then Some (i_resids i) else None)
            (last_derivs coord_eqb l (i_coord i))).
Proof. intros. apply sq_case; auto using coord_eqb_spec. split; assumption. Qed.
Print Assumptions C19_sqlite_case_partial.

(** an integer id gives the case recorded at that position *)
Theorem C19_sqlite_by_index : forall V D T o (l : list (event V D T)) k i,
    Forall (fun e => no_bars (event_coord e)) l -> NoDup (iter_coords l) ->
    nth_error (iters l) k = Some i ->
    sq_get_case_int (sq_write o l) (Z.of_nat k) = sq_get_case (sq_write o l) (format_coord (i_coord i)).
Proof. intros. apply sq_case_int; auto. split; assumption. Qed.
Print Assumptions C19_sqlite_by_index.

(** the derivatives of a case read from a SQLite file are never there *)
Theorem C19_sqlite_derivs_lost : forall V D T o (l : list (event V D T)) id c,
    sq_get_case (sq_write o l) id = Ok c -> k_derivs c = None.
Proof. intros V D T. exact sq_never_derivs. Qed.
Print Assumptions C19_sqlite_derivs_lost.

Theorem C19_derivs_refuted : exists (l : list (event Z Z Z)) o c d,
    In (EDerivs (mkCoord 0 [("Driver", [1])]) 0%Z d) l /\
    sq_get_case (sq_write o l) "rank0:Driver|1" = Ok c /\ k_derivs c <> Some d.
Proof.
  exists [EIter (mkIter (mkCoord 0 [("Driver", [1])]) 0%Z 1 "" [] [("x", 2%Z)] []);
          EDerivs (mkCoord 0 [("Driver", [1])]) 0%Z 7%Z],
    (mkOpts false true false ["*"] []).
  eexists. exists 7%Z. split; [simpl; auto|]. split; [vm_compute; reflexivity|]. discriminate.
Qed.
Print Assumptions C19_derivs_refuted.

(** HDF5: the same keys (sorted) and values, but the time stamp, success flag
    and message are not read *)
Theorem C19_hdf5_case_partial : forall V D T o (l : list (event V D T)) f i,
    Forall (fun e => no_bars (event_coord e)) l -> NoDup (iter_coords l) ->
    h5_write o [] l = (f, Ok tt) -> In (EIter i) l ->
    Permutation (h5_keys f) (map format_coord (iter_coords l)) /\
    h5_get_case f (format_coord (i_coord i))
    = Ok (mkCase (format_coord (i_coord i)) None None None
            (if ro_params o then Some (i_params i) else None)
            (if ro_unknowns o then Some (i_unknowns i) else None) None
            (if ro_resids o then Some (i_resids i) else None) None).
Proof. intros V D T o l f i F N. apply h5_case. split; assumption. Qed.
Print Assumptions C19_hdf5_case_partial.

(** recording iterations with distinct coordinates in HDF5 succeeds *)
Theorem C19_hdf5_records : forall V D T o (l : list (event V D T)),
    Forall (fun e => no_bars (event_coord e)) l -> NoDup (iter_coords l) ->
    Forall (fun e => exists i, e = EIter i) l -> snd (h5_write o [] l) = Ok tt.
Proof. intros V D T o l F N. apply h5_ok. split; assumption. Qed.
Print Assumptions C19_hdf5_records.

Theorem C19_hdf5_success_refuted : exists (l : list (event Z Z Z)) o f i c,
    l = [EIter i] /\ h5_write o [] l = (f, Ok tt) /\
    h5_get_case f (format_coord (i_coord i)) = Ok c /\ k_success c <> Some (i_success i).
Proof.
  eexists. exists (mkOpts false true false ["*"] []). eexists.
  exists (mkIter (mkCoord 0 [("Driver", [1])]) 0%Z 0 "failed" [] [("x", 2%Z)] []). eexists.
  split; [reflexivity|]. split; [vm_compute; reflexivity|]. split; [vm_compute; reflexivity|]. discriminate.
Qed.
Print Assumptions C19_hdf5_success_refuted.

Example C19_ex :
  let i k := mkIter (T:=Z) (mkCoord 0 [("Driver", [k])]) 0%Z 1 "" [] [("x", Z.of_nat k)] [] in
  let l := [EIter (i 10); EIter (i 2); EDerivs (mkCoord 0 [("Driver", [2])]) 0%Z 7%Z] in
  sq_keys (sq_write (mkOpts false true false ["*"] []) l) = ["rank0:Driver|10"; "rank0:Driver|2"] /\
  NoDup (iter_coords l) /\ Forall (fun e => legal_names (event_coord e)) l /\
  last_derivs coord_eqb l (mkCoord 0 [("Driver", [2])]) = Some 7%Z /\
  snd (h5_write (mkOpts false true false ["*"] []) [] l) = Ok tt.
Proof.
  split; [reflexivity|]. split; [repeat constructor; simpl; intuition discriminate|].
  split; [repeat constructor|]. split; reflexivity.
Qed.

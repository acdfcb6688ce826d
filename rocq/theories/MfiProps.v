(** Training with several fidelities (C97). *)
From Verif Require Import Base BaseFacts MetaModel MetaSpec MetaProofs MfiModel MfiSpec MfiProofs.
Local Open Scope string_scope.
Local Open Scope nat_scope.
Local Open Scope list_scope.

(** Two levels, scalar inputs or one array input at the end ([floats_first]): every output's
    surrogate is trained on the points of both levels, level by level. *)
Theorem C97_two_levels_partial : forall st data n0 n1 X0 X1 Y0 Y1, f_params st <> [] -> NoDup (map fst (f_outputs st)) ->
    given (f_params st) data 0 n0 -> given (f_params st) data 1 n1 -> given (f_outputs st) data 0 n0 -> given (f_outputs st) data 1 n1 ->
    floats_first (f_params st) (at_level data 0) -> floats_first (f_params st) (at_level data 1) -> (f_warm st = true \/ 0 < n0 /\ 0 < n1) ->
    mholds st [X0; X1] (fun name => [Y0 name; Y1 name]) -> mtrained_well st data n0 n1 X0 X1 Y0 Y1.
Proof. exact mtrain_two. Qed.
Print Assumptions C97_two_levels_partial.

Definition ok_data (params outputs : list (string * nat)) (d : dict * (nat * nat)) : Prop :=
  given params (fst d) 0 (fst (snd d)) /\ given params (fst d) 1 (snd (snd d)) /\ given outputs (fst d) 0 (fst (snd d)) /\ given outputs (fst d) 1 (snd (snd d)) /\
  floats_first params (at_level (fst d) 0) /\ floats_first params (at_level (fst d) 1).
(** Warm restarts: after any number of trainings each level has every point it was ever given, in order. *)
Theorem C97_warm_history_partial : forall params outputs (l : list (dict * (nat * nat))), params <> [] -> NoDup (map fst outputs) -> Forall (ok_data params outputs) l ->
    let (st', os) := trainings (minit 2 params outputs true) (map fst l) in
    Forall (fun o => snd o = None) os /\ length os = length l /\
    f_in st' = [flat_map (fun d => points params (at_level (fst d) 0) (fst (snd d))) l; flat_map (fun d => points params (at_level (fst d) 1) (snd (snd d))) l] /\
    forall name sz, In (name, sz) outputs ->
      outs_of st' name = [Some (flat_map (fun d => map (fun v => flat v) (at_level (fst d) 0 name)) l); Some (flat_map (fun d => map (fun v => flat v) (at_level (fst d) 1 name)) l)].
Proof.
  intros params outputs l NP ND F.
  assert (G : forall l, Forall (ok_data params outputs) l -> forall st X0 X1 Y0 Y1, f_params st = params -> f_outputs st = outputs -> f_warm st = true -> mholds st [X0; X1] (fun name => [Y0 name; Y1 name]) ->
    let (st', os) := trainings st (map fst l) in
    Forall (fun o => snd o = None) os /\ length os = length l /\
    f_in st' = [X0 ++ flat_map (fun d => points params (at_level (fst d) 0) (fst (snd d))) l; X1 ++ flat_map (fun d => points params (at_level (fst d) 1) (snd (snd d))) l] /\
    forall name sz, In (name, sz) outputs ->
      outs_of st' name = [Some (Y0 name ++ flat_map (fun d => map (fun v => flat v) (at_level (fst d) 0 name)) l); Some (Y1 name ++ flat_map (fun d => map (fun v => flat v) (at_level (fst d) 1 name)) l)]).
  { clear l F. induction 1 as [|d l O F IH]; intros st X0 X1 Y0 Y1 EP EO EW H.
    - cbn [map trainings flat_map]. split; [constructor|]. split; [reflexivity|]. rewrite !app_nil_r. destruct H as [HX HY]. split; [exact HX|]. rewrite EO in HY. intros name sz I. rewrite !app_nil_r. exact (proj1 (HY name sz I)).
    - destruct O as (G0 & G1 & O0 & O1 & F0 & F1). subst params outputs.
      destruct (mtrain_two st (fst d) _ _ X0 X1 Y0 Y1 NP ND G0 G1 O0 O1 F0 F1 (or_introl EW) H) as (st1 & E & H1 & A1 & A2 & A3 & _).
      cbn [map trainings]. rewrite E. rewrite EW in *.
      specialize (IH st1 _ _ (fun name => grow true (Y0 name) (map (fun v => flat v) (at_level (fst d) 0 name))) (fun name => grow true (Y1 name) (map (fun v => flat v) (at_level (fst d) 1 name))) A1 A2 A3 H1).
      destruct (trainings st1 (map fst l)) as [st2 os]. destruct IH as (I1 & I2 & I3 & I4). split; [constructor; [reflexivity|exact I1]|]. split; [cbn [length]; rewrite I2; reflexivity|].
      cbn [flat_map]. unfold grow in *. rewrite <- !app_assoc in I3. split; [exact I3|]. intros name sz I. specialize (I4 name sz I). cbn beta in I4. rewrite <- !app_assoc in I4. exact I4. }
  specialize (G l F (minit 2 params outputs true) [] [] (fun _ => []) (fun _ => []) eq_refl eq_refl eq_refl). apply G.
  split; [reflexivity|]. intros name sz I. cbn [f_outputs minit] in I. split; [|reflexivity]. unfold outs_of. cbn [f_out minit].
  assert (E : sget (map (fun o : string * nat => (fst o, repeat (Some ([] : matrix)) 2)) outputs) name = Some (repeat (Some []) 2)); [|rewrite E; reflexivity].
  apply (in_dget String.eqb String.eqb_eq); [unfold dkeys; rewrite map_map; cbn [fst]; exact ND|]. apply in_map_iff. exists (name, sz). auto.
Qed.
Print Assumptions C97_warm_history_partial.

(** Numbers of points that differ within a level are refused before anything changes. *)
Theorem C97_mismatch : forall st data a b fi, length (f_in st) = 2 -> f_params st <> [] -> present2 data (f_params st ++ f_outputs st) -> fi < 2 ->
    In a (map fst (f_params st ++ f_outputs st)) -> In b (map fst (f_params st ++ f_outputs st)) -> length (at_level data fi a) <> length (at_level data fi b) ->
    mtrain st data = (st, ([], Some RuntimeError)).
Proof. exact mismatch. Qed.
Print Assumptions C97_mismatch.

(** With three levels or more nothing can be trained: whatever values the variables that were
    created for training have, the training looks for 'x_fi2_fi3' and fails, unless some
    variable is itself called 'x_fi2' or 'x_fi2_fi3'. *)
Theorem C97_three_levels_refuted : forall st data nfi p sz ps, length (f_in st) = nfi -> 3 <= nfi -> f_params st = (p, sz) :: ps ->
    (forall name, data name <> None -> In name (registered nfi (map fst (f_params st ++ f_outputs st)))) ->
    (forall v, In v (map fst (f_params st ++ f_outputs st)) -> v <> level_name p 1 /\ v <> level_name (level_name p 1) 2) ->
    mtrain st data = (st, ([], Some KeyError)).
Proof.
  intros st data nfi p sz ps L N EP D NV. apply (three_fail st data p sz ps EP); [rewrite L; exact N|].
  destruct (data (level_name (level_name p 1) 2)) eqn:E; [|reflexivity]. exfalso.
  assert (I : In (level_name (level_name p 1) 2) (registered nfi (map fst (f_params st ++ f_outputs st)))) by (apply D; congruence).
  unfold registered in I. apply in_flat_map in I. destruct I as (v & Iv & I). apply in_map_iff in I. destruct I as (fi & Ef & _). destruct (NV v Iv) as [A B]. destruct (level_three p v fi (eq_sym Ef)); contradiction.
Qed.
Print Assumptions C97_three_levels_refuted.

(** evidently given: one or two variables with values of the form [VFloat _] *)
Ltac giv := split; [let K := fresh in intros ? ? K; cbn [In f_params f_outputs minit] in K; repeat (destruct K as [K|K]; [injection K as <- <-; vm_compute; discriminate|]); destruct K
                   |let K := fresh in intros ? ? K; cbn [In f_params f_outputs minit] in K; repeat (destruct K as [K|K]; [injection K as <- <-; split; [reflexivity|]; split; [let I := fresh in intros ? I; vm_compute in I; repeat (destruct I as [<-|I]; [reflexivity|]); destruct I|left; let I := fresh in intros ? I; vm_compute in I; repeat (destruct I as [<-|I]; [reflexivity|]); destruct I]|]); destruct K].
(** Without warm restart a level without points has no outputs at all: the surrogate is given None. *)
Theorem C97_empty_level_refuted : exists st data n0 n1 X0 X1 Y0 Y1, f_params st <> [] /\ NoDup (map fst (f_outputs st)) /\
    given (f_params st) data 0 n0 /\ given (f_params st) data 1 n1 /\ given (f_outputs st) data 0 n0 /\ given (f_outputs st) data 1 n1 /\
    floats_first (f_params st) (at_level data 0) /\ floats_first (f_params st) (at_level data 1) /\
    mholds st [X0; X1] (fun name => [Y0 name; Y1 name]) /\
    snd (mtrain st data) = ([("y", ([[[1%Q]]; []], [Some [[2%Q]]; None]))], None).
Proof.
  exists (minit 2 [("x", 1)] [("y", 1)] false), (fun n => if String.eqb n "x" then Some [VFloat 1] else if String.eqb n "y" then Some [VFloat 2] else Some []), 1, 0, [], [], (fun _ => []), (fun _ => []).
  split; [discriminate|]. split; [repeat constructor; intros []|]. split; [giv|]. split; [giv|]. split; [giv|]. split; [giv|]. split; [intros n s v []|]. split; [intros n s v []|].
  split; [|reflexivity]. split; [reflexivity|]. intros name sz [I|[]]. injection I as <- <-. split; reflexivity.
Qed.
Print Assumptions C97_empty_level_refuted.

(** And if no level has points, the inputs are emptied while the outputs of the last training stay. *)
Theorem C97_no_points_refuted : exists st data st' X Y, given (f_params st) data 0 0 /\ given (f_params st) data 1 0 /\ given (f_outputs st) data 0 0 /\ given (f_outputs st) data 1 0 /\
    mholds st X Y /\ mtrain st data = (st', ([("y", ([[]; []], [Some [[2%Q]]; Some [[4%Q]]]))], None)).
Proof.
  exists (mkMfi [("x", 1)] [("y", 1)] false true [[[1%Q]]; [[3%Q]]] [("y", [Some [[2%Q]]; Some [[4%Q]]])]), (fun _ => Some []). eexists. exists [[[1%Q]]; [[3%Q]]], (fun _ => [[[2%Q]]; [[4%Q]]]).
  split; [giv|]. split; [giv|]. split; [giv|]. split; [giv|]. split; [|reflexivity]. split; [reflexivity|]. intros name sz [I|[]]. injection I as <- <-. split; reflexivity.
Qed.
Print Assumptions C97_no_points_refuted.

(** Two array inputs: the values of the second replace those of the first. *)
Theorem C97_two_arrays_refuted : exists st data, given (f_params st) data 0 1 /\ given (f_params st) data 1 1 /\ given (f_outputs st) data 0 1 /\ given (f_outputs st) data 1 1 /\
    points (f_params st) (at_level data 0) 1 = [[1; 2; 3; 4]]%Q /\
    snd (mtrain st data) = ([("y", ([[[3; 4; 0; 0]]; [[3; 4; 0; 0]]], [Some [[5]]; Some [[5]]]))], None)%Q.
Proof.
  exists (minit 2 [("a", 2); ("b", 2)] [("y", 1)] false), (fun n => if String.prefix "a" n then Some [VArr [1; 2]%Q] else if String.prefix "b" n then Some [VArr [3; 4]%Q] else Some [VFloat 5]).
  assert (A : forall fi, fi < 2 -> given [("a", 2); ("b", 2)] (fun n => if String.prefix "a" n then Some [VArr [1; 2]%Q] else if String.prefix "b" n then Some [VArr [3; 4]%Q] else Some [VFloat 5]) fi 1).
  { intros [|[|fi]] L; try lia; (split; [intros n s [I|[I|[]]]; injection I as <- <-; vm_compute; discriminate|]); intros n s [I|[I|[]]]; injection I as <- <-; (split; [reflexivity|]); (split; [|right]); intros v [<-|[]]; reflexivity. }
  split; [apply A; lia|]. split; [apply A; lia|]. split; [giv|]. split; [giv|]. split; reflexivity.
Qed.
Print Assumptions C97_two_arrays_refuted.

(** With one level the base class should do the training; but on the first warm restart the matrix
    of inputs is still a list, and the training fails where that of MetaModel succeeds. *)
Theorem C97_one_level_refuted : forall st data n X Y, m_params st <> [] -> m_warm st = true -> 0 < n -> NoDup (map fst (m_outputs st)) -> supplied (m_params st) data n -> supplied (m_outputs st) data n ->
    floats_first (m_params st) data -> holds st X Y ->
    trained_well st data n X Y /\ mtrain1 true st data = (st, ([], Some AttributeError)).
Proof.
  intros st data n X Y NP W N ND SP SO FF H. split; [apply train_ok; assumption|].
  unfold mtrain1. destruct (m_params st) as [|[p0 s0] ps] eqn:EP; [contradiction|]. rewrite W. cbn [andb].
  replace (forallb _ _) with true; [reflexivity|]. symmetry. apply forallb_forall. intros [v sz] I. cbn [fst]. apply Nat.eqb_eq. rewrite (proj1 (SP p0 s0 (or_introl eq_refl))).
  apply in_app_or in I. destruct I as [I|I]; [exact (proj1 (SP v sz I))|exact (proj1 (SO v sz I))].
Qed.
Print Assumptions C97_one_level_refuted.
(** Otherwise it is the training of MetaModel. *)
Theorem C97_one_level : forall st data listed, (listed = false \/ m_warm st = false) -> mtrain1 listed st data = train st data.
Proof.
  intros st data listed H. unfold mtrain1. destruct (m_params st) as [|[p0 s0] ps]; [reflexivity|]. destruct H as [->| ->]; [reflexivity|]. rewrite andb_false_r. reflexivity.
Qed.
Print Assumptions C97_one_level.

(** two trainings, the second a warm restart with points at the low fidelity only; an array output *)
Definition ex_d (s : Q) (hi : bool) : dict := fun n =>
  if String.eqb n "x" then Some (if hi then [VFloat s] else []) else if String.eqb n "x_fi2" then Some [VFloat (s + 1)%Q; VFloat (s + 2)%Q]
  else if String.eqb n "y" then Some (if hi then [VArr [s; 7]%Q] else []) else if String.eqb n "y_fi2" then Some [VArr [s; 8]%Q; VArr [s; 9]%Q] else None.
Example C97_ex : let '(st, os) := trainings (minit 2 [("x", 1)] [("y", 2)] true) [ex_d 10 true; ex_d 20 false] in
    map snd os = [None; None] /\ f_in st = [[[10]]; [[10 + 1]; [10 + 2]; [20 + 1]; [20 + 2]]]%Q /\ outs_of st "y" = [Some [[10; 7]]; Some [[10; 8]; [10; 9]; [20; 8]; [20; 9]]]%Q.
Proof.
  pose proof (C97_warm_history_partial [("x", 1)] [("y", 2)] [(ex_d 10 true, (1, 2)); (ex_d 20 false, (0, 2))] ltac:(discriminate) ltac:(repeat constructor; intros [])) as H. cbn [map fst] in H.
  destruct (trainings _ _) as [st os] eqn:E. destruct H as (A & B & C & D).
  { assert (GA : forall q b fi n, (fi = 0 /\ n = (if b : bool then 1 else 0) \/ fi = 1 /\ n = 2) -> given [("x", 1)] (ex_d q b) fi n /\ given [("y", 2)] (ex_d q b) fi n).
    { intros q b fi n K. assert (Hx : length (at_level (ex_d q b) fi "x") = n /\ length (at_level (ex_d q b) fi "y") = n) by (destruct K as [[-> ->]|[-> ->]], b; split; reflexivity).
      split; (split; intros m s [I|[]]; injection I as <- <-; [destruct K as [[-> ->]|[-> ->]]; vm_compute; discriminate|]).
      - split; [exact (proj1 Hx)|]. split; [|left]; intros v I; destruct K as [[-> _]|[-> _]], b; vm_compute in I; repeat (destruct I as [<-|I]; [reflexivity|]); destruct I.
      - split; [exact (proj2 Hx)|]. split; [|right]; intros v I; destruct K as [[-> _]|[-> _]], b; vm_compute in I; repeat (destruct I as [<-|I]; [reflexivity|]); destruct I. }
    assert (O : forall q b, ok_data [("x", 1)] [("y", 2)] (ex_d q b, ((if b : bool then 1 else 0), 2))).
    { intros q b. destruct (GA q b 0 _ (or_introl (conj eq_refl eq_refl))) as [P0 O0]. destruct (GA q b 1 2 (or_intror (conj eq_refl eq_refl))) as [P1 O1]. repeat (split; [assumption|]). split; intros n s v []. }
    constructor; [exact (O 10%Q true)|constructor; [exact (O 20%Q false)|constructor]]. }
  split; [|split; [exact C|exact (D "y" 2 (or_introl eq_refl))]]. destruct os as [|o1 [|o2 [|]]]; cbn in B; try discriminate. inversion A as [|? ? A1 A']; subst. inversion A' as [|? ? A2 _]; subst. cbn [map]. rewrite A1, A2. reflexivity.
Qed.
(** three levels: the values are all there, and yet *)
Example C97_three_ex : snd (mtrain (minit 3 [("x", 1)] [("y", 1)] false) (fun n => if existsb (String.eqb n) (registered 3 ["x"; "y"]) then Some [VFloat 1] else None)) = ([], Some KeyError).
Proof.
  rewrite (C97_three_levels_refuted _ _ 3 "x" 1 []); [reflexivity|reflexivity|lia|reflexivity| |].
  - intros name H. destruct (existsb _ _) eqn:E; [|contradiction]. apply existsb_exists in E. destruct E as (v & I & Ev). apply String.eqb_eq in Ev. subst v. exact I.
  - intros v [<-|[<-|[]]]; split; discriminate.
Qed.

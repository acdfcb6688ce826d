(** Property theorems for SubProblem: C94. *)
From Verif Require Import Base BaseFacts RunModel RunSpec RunProofs RunProofs2 RunProofs4 RunProofs5 RunProps SubpModel SubpSpec SubpProofs.
Local Open Scope string_scope.
Local Open Scope nat_scope.
Local Open Scope list_scope.

(** ** setup *)

(** A SubProblem is accepted exactly when every param is a dangling name of the wrapped
    problem or one of its unknowns that may be set, and every unknown exists there; each
    param is then mapped to what it stands for. *)
Theorem C94_setup_accepts : forall dangling unks params unknowns ps,
    sub_setup dangling unks params unknowns = Ok ps <->
    Forall2 (stands_for dangling unks) params ps /\ forall n, In n unknowns -> exists b, sget unks n = Some b.
Proof.
  intros dangling unks params unknowns ps. destruct (setup_cases dangling unks params unknowns) as [(qs & -> & F & U)|[(-> & n & K & D & N)|[(-> & _ & n & K & D & N)|(-> & (qs & F) & n & K & N)]]].
  - split.
    + intros E. injection E as <-. split; [exact F|]. intros n K. specialize (U n K). destruct (sget unks n) as [b|]; [exists b; reflexivity|congruence].
    + intros [G _]. f_equal. exact (stands_unique dangling unks params qs ps F G).
  - split; [discriminate|]. intros [F _]. destruct (stands_in dangling unks params ps n F K) as ([l|u] & S); cbn in S; [congruence|destruct S as (_ & _ & S); congruence].
  - split; [discriminate|]. intros [F _]. destruct (stands_in dangling unks params ps n F K) as ([l|u] & S); cbn in S; [congruence|destruct S as (_ & _ & S); congruence].
  - split; [discriminate|]. intros [_ U]. destruct (U n K) as (b & B). congruence.
Qed.
Print Assumptions C94_setup_accepts.

(** Otherwise: RuntimeError for a param the wrapped problem cannot be given, TypeError for
    one which an inner component would overwrite, KeyError for a missing unknown. *)
Theorem C94_setup_errors : forall dangling unks params unknowns e, sub_setup dangling unks params unknowns = Err e ->
    (e = RuntimeError /\ exists n, In n params /\ sget dangling n = None /\ sget unks n = None) \/
    (e = TypeError /\ exists n, In n params /\ sget dangling n = None /\ sget unks n = Some false) \/
    (e = KeyError /\ exists n, In n unknowns /\ sget unks n = None).
Proof.
  intros dangling unks params unknowns e. destruct (setup_cases dangling unks params unknowns) as [(qs & -> & F & U)|[(-> & R)|[(-> & _ & R)|(-> & _ & R)]]]; intros E; [discriminate|injection E as <-; auto..].
Qed.
Print Assumptions C94_setup_errors.

Example C94_setup_ex : let dangling := [("x", ["a.x"; "b.x"])] in let unks := [("p.k", true); ("b.z", false)] in
    sub_setup dangling unks ["x"; "p.k"] ["b.z"; "p.k"] = Ok [Inputs ["a.x"; "b.x"]; Output "p.k"] /\
    sub_setup dangling unks ["x"; "b.z"] ["b.z"] = Err TypeError /\ sub_setup dangling unks ["a.x"] ["b.z"] = Err RuntimeError /\
    sub_setup dangling unks ["x"] ["b.w"] = Err KeyError.
Proof. repeat split. Qed.

(** ** running *)
Section Props.
  Context {V : Type} (vadd vsub : V -> V -> V) (vopp : V -> V).
  Hypothesis RE : restores vadd vsub vopp.

  (** A call that completes leaves a solution of the wrapped model for the params it was
      given: the inputs they stand for hold them, the other inputs are as before, all
      connections and components are satisfied.  The params come out as they went in and
      the unknowns are those of the solution. *)
  Theorem C94_solves : forall (P : subp V) s p o, settable P -> runnable P -> length p = length (b_params P) -> sub_solve vadd vsub vopp P s p = Ok o ->
      solution P s p (o_inner o) /\ o_params o = p /\ o_unks o = map (uv (o_inner o)) (b_unks P).
  Proof. intros P s p o A B C D. destruct (solve_ok vadd vsub vopp RE P s p o A B C D) as (X & Y & Z & _). auto. Qed.

  (** Its unknowns are a function of its params: whatever calls came before since setup,
      failed ones included, the same params give the same unknowns. *)
  Theorem C94_function : forall (P : subp V) s0 s t p o o', settable P -> runnable P -> length p = length (b_params P) ->
      after vadd vsub vopp P s0 s -> after vadd vsub vopp P s0 t ->
      sub_solve vadd vsub vopp P s p = Ok o -> sub_solve vadd vsub vopp P t p = Ok o' ->
      o_unks o = o_unks o' /\ same_values (b_root P) (o_inner o) (o_inner o').
  Proof.
    intros P s0 s t p o o' SE RU L A1 A2 E1 E2. destruct (C94_solves P s p o SE RU L E1) as (S1 & _ & U1). destruct (C94_solves P t p o' SE RU L E2) as (S2 & _ & U2).
    assert (SV : same_values (b_root P) (o_inner o) (o_inner o')).
    { apply (solution_same P s0 p); try assumption; [apply (solution_others P s0 s)|apply (solution_others P s0 t)]; try assumption; apply (after_others vadd vsub vopp RE); assumption. }
    split; [|exact SV]. rewrite U1, U2. apply map_ext_in. intros u K. apply (proj2 SV). apply (se_unks P SE). exact K.
  Qed.

  (** Such calls complete when the components do not fail. *)
  Theorem C94_completes : forall (P : subp V) s p, legal_model (b_root P) (b_conns P) -> all_once (b_root P) -> (forall c, In c (comps (b_root P)) -> total c) ->
      exists o, sub_solve vadd vsub vopp P s p = Ok o.
  Proof. exact (solve_total vadd vsub vopp). Qed.

  (** After one run of a model with a SubProblem in it, its params and unknowns belong to a
      solution of the wrapped model. *)
  Theorem C94_nested_solves : forall root conns name pn un (P : subp V) s0 s s', let sub := sub_comp vadd vsub vopp name pn un P s0 in
      settable P -> runnable P -> length pn = length (b_params P) ->
      legal_model root conns -> parallel_independent conns root -> solvers_sweep root -> feed_forward root conns -> In sub (comps root) ->
      run_model vadd vsub vopp root conns s = Ok s' ->
      consistent conns s' /\ exists si, solution P s0 (map (pv s') pn) si /\ map (uv s') un = map (uv si) (b_unks P).
  Proof.
    intros root conns name pn un P s0 s s' sub SE RU LP LG PA SW FF SB R. destruct (ff_run vadd vsub vopp RE _ _ _ _ LG PA SW FF R) as [C S]. split; [exact C|].
    exact (inner_solution vadd vsub vopp RE name pn un P s0 SE RU LP s' (S sub SB)).
  Qed.

  (** The SubProblem is only a way of writing the model: with its components in the outer
      model, and the connections led to and from the variables it stands for, one run
      gives every variable the same value. *)
  Theorem C94_flat : forall root flat conns name pn un (P : subp V) s0 s s' t t', let sub := sub_comp vadd vsub vopp name pn un P s0 in
      settable P -> runnable P -> length pn = length (b_params P) -> length un = length (b_unks P) -> flat_map outs (b_params P) = [] ->
      legal_model root conns -> parallel_independent conns root -> solvers_sweep root -> feed_forward root conns -> (forall c, In c (comps root) -> explicit c \/ indep c) ->
      In sub (comps root) -> foreign root P -> flattens root flat sub P ->
      legal_model flat (flat_conns pn un P conns) -> parallel_independent (flat_conns pn un P conns) flat -> solvers_sweep flat -> feed_forward flat (flat_conns pn un P conns) ->
      flat_inputs root conns sub P s s0 t ->
      run_model vadd vsub vopp root conns s = Ok s' -> run_model vadd vsub vopp flat (flat_conns pn un P conns) t = Ok t' ->
      (forall c, In c (comps root) -> c_name c <> name -> (forall v, In v (c_params c) -> pv t' v = pv s' v) /\ forall u, In u (c_unks c) -> uv t' u = uv s' u) /\
      (forall i x y, nth_error un i = Some x -> nth_error (b_unks P) i = Some y -> uv t' y = uv s' x).
  Proof. exact (flat_run vadd vsub vopp RE). Qed.

  (** ** derivatives *)

  (** Derivatives asked for at the params of the last call are those of the wrapped model at
      its solution, under the pair of the names of output and input. *)
  Theorem C94_linearize : forall M (gradient : st V -> res (list (string * list (string * M)))) (P : subp V) s p o s' j,
      settable P -> runnable P -> length p = length (b_params P) -> sub_solve vadd vsub vopp P s p = Ok o -> sub_linearize gradient P (o_inner o) p = Ok (s', j) ->
      solution P s p s' /\ (forall v, pv s' v = pv (o_inner o) v) /\ (forall u, uv s' u = uv (o_inner o) u) /\
      exists g, gradient s' = Ok g /\
        (NoDup (map fst g) -> (forall u l, In (u, l) g -> NoDup (map fst l)) -> forall of wrt, dget kkeqb j (of, wrt) = match sget g of with Some l => sget l wrt | None => None end).
  Proof.
    intros M gradient P s p o s' j SE RU L E1 E2. destruct (C94_solves P s p o SE RU L E1) as (S & _ & _). unfold sub_linearize in E2. destruct (gradient (set_params P p (o_inner o))) as [g|e] eqn:G; [|discriminate]. cbn [bind] in E2. injection E2 as <- <-.
    pose proof S as (_ & _ & H & _). destruct (set_again P p (o_inner o) H) as (A & B & _). split; [apply (solution_ext P s p (o_inner o)); assumption|]. split; [exact A|]. split; [exact B|]. exists g. split; [exact G|]. intros N1 N2 of wrt. apply flat_get; assumption.
  Qed.

  (** ** residuals *)

  (** Evaluating the residuals ignores the unknowns of the component: the residuals become
      the inner ones plus the new unknowns, the unknowns the inner residuals negated. *)
  Theorem C94_apply_outcome : forall (P : subp V) s p u o, (forall r x, vsub x (vadd r x) = vopp r) -> sub_apply vadd vsub vopp P s p u = Ok o ->
      exists o1, sub_solve vadd vsub vopp P s p = Ok o1 /\ o_inner o = o_inner o1 /\ o_unks o = map vopp (o_resids o1) /\
        o_resids o = map (fun w => vadd (rv (o_inner o1) w) (uv (o_inner o1) w)) (b_unks P).
  Proof. exact (apply_values vadd vsub vopp). Qed.
End Props.
Print Assumptions C94_solves.
Print Assumptions C94_function.
Print Assumptions C94_completes.
Print Assumptions C94_nested_solves.
Print Assumptions C94_flat.
Print Assumptions C94_linearize.
Print Assumptions C94_apply_outcome.

(** ** a concrete SubProblem: the model of RunProps.v without p, so that x is dangling at a
    and b, and k is the output of an independent component *)
Local Open Scope Z_scope.
Definition sx_k : comp Z := mkC "k" [] ["k.k"] false (fun _ u => Ok u) None id_scale.
Definition sx_root : sys Z := Grp false run_once [Comp sx_k; Grp false run_once [Comp ex_a; Comp ex_b]].
Definition sx_conns : list (conn Z) := [mkK "b.y" "a.y" (fun v => 3 * v); mkK "b.k" "k.k" (fun v => v)].
Definition sx (params : list place) : subp Z := mkSub sx_root sx_conns params ["b.z"; "a.y"].
Definition sx1 := sx [Inputs ["a.x"; "b.x"]; Output "k.k"].
Definition sx2 := sx [Inputs ["a.x"; "b.x"]].
Lemma sx_legal : legal_model sx_root sx_conns.
Proof. split; try solve [fin]; intros k [<-|[<-|[]]]; solve [ends ex_a ex_b | ends sx_k ex_b]. Qed.
Lemma sx_ff : feed_forward sx_root sx_conns.
Proof.
  intros k [<-|[<-|[]]].
  - exists ex_a, ex_b. split; [|simpl; auto]. exists [sx_k], [], []. reflexivity.
  - exists sx_k, ex_b. split; [|simpl; auto]. exists [], [ex_a], []. reflexivity.
Qed.
Lemma sx_expl : forall c, In c (comps sx_root) -> explicit c \/ indep c.
Proof. intros c [<-|[<-|[<-|[]]]]; [right; intros p u; reflexivity|left; intros p u u'; reflexivity|left; intros p u u'; reflexivity]. Qed.
Lemma sx_runnable : forall params, runnable (sx params).
Proof. intros params. split; cbn [sx b_root b_conns]; [exact sx_legal|apply serial_independent; simpl; tauto|apply once_sweeps; simpl; tauto|exact sx_ff|exact sx_expl]. Qed.
Lemma sx_free : forall v, In v ["a.x"; "b.x"] -> In v (sys_params sx_root) /\ ~ In v (map k_tgt sx_conns).
Proof. intros v [<-|[<-|[]]]; (split; [simpl; tauto|simpl; intuition discriminate]). Qed.
Lemma sx1_settable : settable sx1.
Proof.
  split; cbn [sx1 sx b_root b_conns b_params b_unks flat_map ins outs app]; [fin|fin|exact sx_free| |simpl; tauto]. intros u [<-|[]]. exists sx_k. split; [simpl; tauto|]. split; [intros p u; reflexivity|left; reflexivity].
Qed.
Lemma sx2_settable : settable sx2.
Proof. split; cbn [sx2 sx b_root b_conns b_params b_unks flat_map ins outs app]; [fin|fin|exact sx_free|intros u []|simpl; tauto]. Qed.
Definition sx_solve := sub_solve Z.add Z.sub Z.opp.
Definition sx_start : st Z := mkS (fun _ => 77) (fun v => if String.eqb v "k.k" then 10 else 99) (fun _ => 0).
Definition zo (r : res (outcome Z)) : outcome Z := match r with Ok o => o | Err _ => mkO sx_start [] [] [] end.
Lemma zo_ok : forall r, (match r with Ok _ => true | Err _ => false end) = true -> r = Ok (zo r).
Proof. intros [s|e] H; [reflexivity|discriminate]. Qed.
Ltac zok := apply zo_ok; vm_compute; reflexivity.

Example C94_solves_ex : exists o, sx_solve sx1 sx_start [5; 4] = Ok o /\ o_unks o = [125; 10] /\ o_params o = [5; 4] /\ solution sx1 sx_start [5; 4] (o_inner o).
Proof.
  exists (zo (sx_solve sx1 sx_start [5; 4])). split; [zok|]. split; [vm_compute; reflexivity|]. split; [vm_compute; reflexivity|].
  apply (C94_solves Z.add Z.sub Z.opp z_restores sx1 sx_start [5; 4]); [exact sx1_settable|apply sx_runnable|reflexivity|zok].
Qed.
(** after a call with other params *)
Example C94_function_ex : let s := o_inner (zo (sx_solve sx1 sx_start [8; -1])) in
    exists o o', sx_solve sx1 sx_start [5; 4] = Ok o /\ sx_solve sx1 s [5; 4] = Ok o' /\ after Z.add Z.sub Z.opp sx1 sx_start s /\ o_unks o' = [125; 10] /\ o_unks o = o_unks o'.
Proof.
  intros s. exists (zo (sx_solve sx1 sx_start [5; 4])), (zo (sx_solve sx1 s [5; 4])). assert (E : sx_solve sx1 sx_start [5; 4] = Ok (zo (sx_solve sx1 sx_start [5; 4]))) by zok. assert (E' : sx_solve sx1 s [5; 4] = Ok (zo (sx_solve sx1 s [5; 4]))) by zok.
  assert (A : after Z.add Z.sub Z.opp sx1 sx_start s) by (apply (after_solve _ _ _ _ _ sx_start [8; -1]); [constructor|reflexivity|zok]).
  split; [exact E|]. split; [exact E'|]. split; [exact A|]. split; [vm_compute; reflexivity|].
  apply (C94_function Z.add Z.sub Z.opp z_restores sx1 sx_start sx_start s [5; 4]); [exact sx1_settable|apply sx_runnable|reflexivity|constructor|exact A|exact E|exact E'].
Qed.

(** *** in an outer model: p.x -> sub.x, c.w; sub.z -> c.z (doubled) *)
Definition sx_c : comp Z := mkC "c" ["c.w"; "c.z"] ["c.y"] false (fun p _ => match p with [w; z] => Ok [z - w] | _ => Err ValueError end) None id_scale.
Definition sx_sub := sub_comp Z.add Z.sub Z.opp "sub" ["sub.x"] ["sub.z"; "sub.y"] sx2 sx_start.
Definition so_root : sys Z := Grp false run_once [Comp ex_p; Comp sx_sub; Comp sx_c].
Definition so_conns : list (conn Z) := [mkK "sub.x" "p.x" (fun v => v + 1); mkK "c.w" "p.x" (fun v => v); mkK "c.z" "sub.z" (fun v => 2 * v)].
Definition so_flat : sys Z := Grp false run_once [Comp ex_p; Comp sx_k; Grp false run_once [Comp ex_a; Comp ex_b]; Comp sx_c].
Definition so_fconns := flat_conns ["sub.x"] ["sub.z"; "sub.y"] sx2 so_conns.
Lemma so_legal : legal_model so_root so_conns.
Proof. split; try solve [fin]; intros k [<-|[<-|[<-|[]]]]; solve [ends ex_p sx_sub | ends ex_p sx_c | ends sx_sub sx_c]. Qed.
Lemma so_ff : feed_forward so_root so_conns.
Proof.
  intros k [<-|[<-|[<-|[]]]].
  - exists ex_p, sx_sub. split; [|simpl; auto]. exists [], [], [sx_c]. reflexivity.
  - exists ex_p, sx_c. split; [|simpl; auto]. exists [], [sx_sub], []. reflexivity.
  - exists sx_sub, sx_c. split; [|simpl; auto]. exists [ex_p], [], []. reflexivity.
Qed.
Lemma so_expl : forall c, In c (comps so_root) -> explicit c \/ indep c.
Proof. intros c [<-|[<-|[<-|[]]]]; [right; intros p u; reflexivity|left; intros p u u'; reflexivity|left; intros p u u'; reflexivity]. Qed.
Lemma sf_conns : so_fconns = [mkK "a.x" "p.x" (fun v => v + 1); mkK "b.x" "p.x" (fun v => v + 1); mkK "c.w" "p.x" (fun v => v); mkK "c.z" "b.z" (fun v => 2 * v); mkK "b.y" "a.y" (fun v => 3 * v); mkK "b.k" "k.k" (fun v => v)].
Proof. reflexivity. Qed.
Ltac ends2 a b := exists a, b; simpl; repeat split; auto 12; discriminate.
Lemma sf_legal : legal_model so_flat so_fconns.
Proof. rewrite sf_conns. split; try solve [fin]; intros k [<-|[<-|[<-|[<-|[<-|[<-|[]]]]]]]; solve [ends2 ex_p ex_a | ends2 ex_p ex_b | ends2 ex_p sx_c | ends2 ex_b sx_c | ends2 ex_a ex_b | ends2 sx_k ex_b]. Qed.
Lemma sf_ff : feed_forward so_flat so_fconns.
Proof.
  rewrite sf_conns. intros k [<-|[<-|[<-|[<-|[<-|[<-|[]]]]]]].
  - exists ex_p, ex_a. split; [|simpl; auto]. exists [], [sx_k], [ex_b; sx_c]. reflexivity.
  - exists ex_p, ex_b. split; [|simpl; auto]. exists [], [sx_k; ex_a], [sx_c]. reflexivity.
  - exists ex_p, sx_c. split; [|simpl; auto]. exists [], [sx_k; ex_a; ex_b], []. reflexivity.
  - exists ex_b, sx_c. split; [|simpl; auto]. exists [ex_p; sx_k; ex_a], [], []. reflexivity.
  - exists ex_a, ex_b. split; [|simpl; auto]. exists [ex_p; sx_k], [], [sx_c]. reflexivity.
  - exists sx_k, ex_b. split; [|simpl; auto]. exists [ex_p], [ex_a], [sx_c]. reflexivity.
Qed.
Definition so_start : st Z := mkS (fun _ => 3) (fun v => if String.eqb v "p.x" then 5 else 1) (fun _ => 0).
Definition sf_start : st Z := mkS (fun _ => -3) (fun v => if String.eqb v "p.x" then 5 else if String.eqb v "k.k" then 10 else -1) (fun _ => 0).
Example C94_nested_ex : exists s', zrun so_root so_conns so_start = Ok s' /\ uv s' "sub.z" = 366 /\ uv s' "c.y" = 727 /\
    exists si, solution sx2 sx_start [6] si /\ [uv s' "sub.z"; uv s' "sub.y"] = [uv si "b.z"; uv si "a.y"].
Proof.
  exists (got (zrun so_root so_conns so_start)). split; [ok|]. split; [vm_compute; reflexivity|]. split; [vm_compute; reflexivity|].
  destruct (C94_nested_solves Z.add Z.sub Z.opp z_restores so_root so_conns "sub" ["sub.x"] ["sub.z"; "sub.y"] sx2 sx_start so_start (got (zrun so_root so_conns so_start))) as (_ & si & S & U);
    [exact sx2_settable|apply sx_runnable|reflexivity|exact so_legal|apply serial_independent; simpl; tauto|apply once_sweeps; simpl; tauto|exact so_ff|right; left; reflexivity|ok|].
  exists si. split; [|exact U]. replace [6] with (map (pv (got (zrun so_root so_conns so_start))) ["sub.x"]) by (vm_compute; reflexivity). exact S.
Qed.
Example C94_flat_ex : exists s' t', zrun so_root so_conns so_start = Ok s' /\ zrun so_flat so_fconns sf_start = Ok t' /\
    uv t' "c.y" = uv s' "c.y" /\ uv t' "b.z" = uv s' "sub.z" /\ uv t' "a.y" = uv s' "sub.y" /\ uv t' "c.y" = 727.
Proof.
  set (s' := got (zrun so_root so_conns so_start)). set (t' := got (zrun so_flat so_fconns sf_start)). exists s', t'. assert (E1 : zrun so_root so_conns so_start = Ok s') by ok. assert (E2 : zrun so_flat so_fconns sf_start = Ok t') by ok.
  destruct (C94_flat Z.add Z.sub Z.opp z_restores so_root so_flat so_conns "sub" ["sub.x"] ["sub.z"; "sub.y"] sx2 sx_start so_start s' sf_start t') as [A B];
    try solve [exact sx2_settable|apply sx_runnable|reflexivity|exact so_legal|exact sf_legal|apply serial_independent; simpl; tauto|apply once_sweeps; simpl; tauto|exact so_ff|exact sf_ff|exact so_expl|right; left; reflexivity|exact E1|exact E2].
  - split; intros v K K2; simpl in K, K2; intuition congruence.
  - intros c. split.
    + intros [<-|[<-|[<-|[<-|[<-|[]]]]]]; simpl; try (left; split; [tauto|discriminate]); right; tauto.
    + intros [[[<-|[<-|[<-|[]]]] N]|[<-|[<-|[<-|[]]]]]; simpl; try tauto.
  - split; [|split; [|split; [|split]]].
    + intros c v [<-|[<-|[<-|[]]]] N K NT; simpl in K; try tauto. destruct K as [<-|[<-|[]]]; exfalso; apply NT; simpl; tauto.
    + intros c u [<-|[<-|[<-|[]]]] N I K; [destruct K as [<-|[]]; reflexivity|exfalso; apply N; reflexivity|]. specialize (I [1; 1] [7]). discriminate.
    + intros [|[|i]] x pl v K1 K2 N K; try discriminate. injection K1 as <-. exfalso. apply N. simpl. tauto.
    + intros v K N1 N2. simpl in K, N1, N2. tauto.
    + intros c u [<-|[<-|[<-|[]]]] I K N; [destruct K as [<-|[]]; reflexivity| |]; [specialize (I [1] [7])|specialize (I [1; 1; 1] [7])]; discriminate.
  - split; [exact E1|]. split; [exact E2|]. split; [apply (A sx_c); [right; right; left; reflexivity|discriminate|left; reflexivity]|]. split; [apply (B 0%nat); reflexivity|]. split; [apply (B 1%nat); reflexivity|]. vm_compute. reflexivity.
Qed.

(** Derivatives asked for at params which the SubProblem has not been run with are those of
    a state which is no solution: linearize sets the params without running. *)
Theorem C94_stale_refuted : exists (P : subp Z) s p o q s' j, settable P /\ runnable P /\ length p = length (b_params P) /\ length q = length (b_params P) /\ sx_solve P s p = Ok o /\
    sub_linearize (fun s => Ok [("b.z", [("x", uv s "b.z")])]) P (o_inner o) q = Ok (s', j) /\ holds P s' q /\ ~ solution P s q s'.
Proof.
  exists sx2, sx_start, [5], (zo (sx_solve sx2 sx_start [5])), [6]. eexists _, _. split; [exact sx2_settable|]. split; [apply sx_runnable|]. split; [reflexivity|]. split; [reflexivity|]. split; [zok|]. split; [reflexivity|].
  split; [apply set_holds; [exact sx2_settable|reflexivity]|]. intros (_ & S & _). destruct (S ex_a) as (g & E); [right; left; reflexivity|]. vm_compute in E. discriminate.
Qed.
Print Assumptions C94_stale_refuted.

(** Evaluating the residuals of a SubProblem that holds its outputs does not give zero, and
    loses the outputs. *)
Theorem C94_residuals_refuted : exists (P : subp Z) s p o o', settable P /\ runnable P /\ length p = length (b_params P) /\ sx_solve P s p = Ok o /\
    sub_apply Z.add Z.sub Z.opp P (o_inner o) p (o_unks o) = Ok o' /\ o_unks o = [305; 10] /\ o_resids o = [0; 0] /\ o_unks o' = [0; 0] /\ o_resids o' = [305; 10].
Proof.
  exists sx2, sx_start, [5].
  exists (zo (sx_solve sx2 sx_start [5])), (zo (sub_apply Z.add Z.sub Z.opp sx2 (o_inner (zo (sx_solve sx2 sx_start [5]))) [5] (o_unks (zo (sx_solve sx2 sx_start [5]))))).
  split; [exact sx2_settable|]. split; [apply sx_runnable|]. split; [reflexivity|]. split; [zok|]. split; [zok|]. repeat split; vm_compute; reflexivity.
Qed.
Print Assumptions C94_residuals_refuted.

Example C94_linearize_ex : exists o s' j, sx_solve sx2 sx_start [5] = Ok o /\
    sub_linearize (fun s => Ok [("b.z", [("x", uv s "a.y" + 51)]); ("a.y", [("x", 2)])]) sx2 (o_inner o) [5] = Ok (s', j) /\
    dget kkeqb j ("b.z", "x") = Some 61 /\ dget kkeqb j ("a.y", "x") = Some 2 /\ dget kkeqb j ("x", "x") = None.
Proof. exists (zo (sx_solve sx2 sx_start [5])). eexists _, _. split; [zok|]. split; [reflexivity|]. vm_compute. auto. Qed.
Example C94_completes_ex : let P := mkSub (Grp false run_once [Comp ex_q; Comp ex_r]) [mkK "r.x" "q.x" Z.opp] [Output "q.x"] ["r.y"] in
    legal_model (b_root P) (b_conns P) /\ all_once (b_root P) /\ (forall c, In c (comps (b_root P)) -> total c) /\
    (let! o := sx_solve P sx_start [4] in Ok (o_unks o)) = Ok [-4].
Proof.
  intros P. split; [split; try solve [fin]; intros k [<-|[]]; ends ex_q ex_r|]. split; [simpl; tauto|]. split; [|vm_compute; reflexivity].
  intros c [<-|[<-|[]]] p u; (eexists; split; [vm_compute; reflexivity|]); [|reflexivity]. destruct u; reflexivity.
Qed.

(** C50: the data a metamodel is trained on. *)
From Verif Require Import Base BaseFacts MetaModel MetaSpec MetaProofs.
Local Open Scope string_scope.
Local Open Scope nat_scope.
Local Open Scope list_scope.

(** If every parameter but the last has float training values, the surrogates are trained
    on rows that are the concatenation of the values of all parameters, after the old
    rows in a warm restart. *)
Theorem meta_train_partial : forall st data n X Y, m_params st <> [] -> 0 < n -> NoDup (map fst (m_outputs st)) ->
    supplied (m_params st) data n -> supplied (m_outputs st) data n -> floats_first (m_params st) data ->
    holds st X Y -> trained_well st data n X Y.
Proof. exact train_ok. Qed.
Print Assumptions meta_train_partial.

(** The row of the r-th values is the one used for prediction at these values, for all
    layouts. *)
Theorem meta_layout : forall st data n r, supplied (m_params st) data n -> r < n ->
    params_to_inputs st (value_at data r) = Ok (point (m_params st) data r).
Proof.
  intros st data n r S L. unfold params_to_inputs. apply (to_inputs_ok (m_params st) (value_at data r) []). intros name sz I. destruct (S name sz I) as (Ld & Hs & _). apply Hs. apply nth_In. lia.
Qed.
Print Assumptions meta_layout.

(** Any history of trainings: the points of all the trainings since the last one that was
    not a warm restart, in order. *)
Record event : Type := mkEvent { e_warm : bool; e_data : string -> list tval; e_n : nat }.
Definition step (st : state) (e : event) : state :=
  fst (demand (mkMeta (m_params st) (m_outputs st) (e_warm e) true (m_in st) (m_out st)) (e_data e)).
Definition inputs_after (params : list (string * nat)) (X : list (list Q)) (e : event) : list (list Q) :=
  (if e_warm e then X else []) ++ points params (e_data e) (e_n e).
Definition outputs_after (name : string) (Y : list (list Q)) (e : event) : list (list Q) :=
  (if e_warm e then Y else []) ++ map (fun v => flat v) (e_data e name).
Theorem meta_history_partial : forall params outputs hist, params <> [] -> NoDup (map fst outputs) ->
    (forall e, In e hist -> 0 < e_n e /\ supplied params (e_data e) (e_n e) /\ supplied outputs (e_data e) (e_n e) /\ floats_first params (e_data e)) ->
    let st := fold_left step hist (mkMeta params outputs false true [] []) in
    m_in st = fold_left (inputs_after params) hist [] /\ forall name sz, In (name, sz) outputs -> out_of st name = fold_left (outputs_after name) hist [].
Proof.
  intros params outputs hist NP ND H.
  assert (G : forall hist st X Y, (forall e, In e hist -> 0 < e_n e /\ supplied params (e_data e) (e_n e) /\ supplied outputs (e_data e) (e_n e) /\ floats_first params (e_data e)) ->
              m_params st = params -> m_outputs st = outputs -> holds st X Y ->
              holds (fold_left step hist st) (fold_left (inputs_after params) hist X) (fun name => fold_left (outputs_after name) hist (Y name)) /\ m_outputs (fold_left step hist st) = outputs).
  { clear hist H. induction hist as [|e hist IH]; intros st X Y H EP EO HO; [split; [exact HO|exact EO]|]. cbn [fold_left].
    destruct (H e (or_introl eq_refl)) as (H1 & H2 & H3 & H4).
    destruct (train_ok (mkMeta (m_params st) (m_outputs st) (e_warm e) true (m_in st) (m_out st)) (e_data e) (e_n e) X Y) as (st' & E & HO' & P1 & P2 & P3 & P4); cbn [m_params m_outputs]; rewrite ?EP, ?EO; try assumption; [rewrite <- EO; exact HO|].
    assert (S : step st e = st') by (unfold step, demand; cbn [m_train]; rewrite E; reflexivity). rewrite S. cbn [m_params m_outputs m_warm] in *.
    apply (IH st' _ (fun name => outputs_after name (Y name) e)); [intros e' I; apply H; right; exact I|congruence|congruence|]. rewrite EP in HO'. exact HO'. }
  intros st. destruct (G hist (mkMeta params outputs false true [] []) [] (fun _ => []) H eq_refl eq_refl) as ((G1 & G2) & G3).
  - split; [reflexivity|]. intros name sz I. split; reflexivity.
  - split; [exact G1|]. intros name sz I. apply (G2 name sz). fold st in G3 |- *. rewrite G3. exact I.
Qed.
Print Assumptions meta_history_partial.

(** The Jacobian of the surrogate is cut into the columns of the parameters in the same
    layout: side by side, the parts are the whole. *)
Theorem meta_jac : forall params sjac r row, nth_error sjac r = Some row -> length row = width_of params ->
    flat_map (fun p => match nth_error (snd p) r with Some part => part | None => [] end) (jac_parts params 0 sjac) = row /\
    map fst (jac_parts params 0 sjac) = map fst params /\
    Forall2 (fun p q => forall part, nth_error (snd q) r = Some part -> length part = snd p) params (jac_parts params 0 sjac).
Proof.
  intros params sjac r row E L.
  assert (G : forall params idx, idx + width_of params = length row ->
    flat_map (fun p => match nth_error (snd p) r with Some part => part | None => [] end) (jac_parts params idx sjac) = skipn idx row /\
    map fst (jac_parts params idx sjac) = map fst params /\ Forall2 (fun p q => forall part, nth_error (snd q) r = Some part -> length part = snd p) params (jac_parts params idx sjac)).
  { clear params L. induction params as [|[name sz] ps IH]; intros idx L.
    - cbn in *. split; [|split; [reflexivity|constructor]]. symmetry. apply skipn_all2. lia.
    - change (width_of ((name, sz) :: ps)) with (sz + width_of ps) in L. cbn [jac_parts flat_map map fst snd]. destruct (IH (idx + sz)) as (I1 & I2 & I3); [lia|]. rewrite I1, I2.
      rewrite (map_nth_error _ _ _ E). split; [|split; [reflexivity|]].
      + rewrite <- (firstn_skipn sz (skipn idx row)) at 2. f_equal. assert (SK : forall (l : list Q) p q, skipn p (skipn q l) = skipn (q + p) l). { induction l as [|y l IHl]; intros p [|q]; cbn; try reflexivity; [rewrite !skipn_nil; reflexivity|]. apply IHl. } rewrite SK. reflexivity.
      + constructor; [|exact I3]. cbn [snd]. intros part P. rewrite (map_nth_error _ _ _ E) in P. injection P as <-. rewrite firstn_length, skipn_length. lia. }
  apply (G params 0). exact (eq_sym L).
Qed.
Print Assumptions meta_jac.

(** False for parameters that are not floats, because the column index is not advanced:
    of two array parameters of the same size, only the second reaches the surrogate, in
    the columns of the first, and the columns of the second are zero. *)
Theorem meta_two_arrays_refuted : forall sz (a b : list (list Q)) (y : list Q), 0 < length a -> length b = length a -> length y = length a ->
    (forall v, In v a -> length v = sz) -> (forall v, In v b -> length v = sz) ->
    let data := fun name => if String.eqb name "a" then map VArr a else if String.eqb name "b" then map VArr b else map VFloat y in
    exists st, train (mkMeta [("a", sz); ("b", sz)] [("y", 1)] false true [] []) data =
      (st, ([("y", (map (fun v => v ++ repeat 0%Q sz) b, map (fun q => [q]) y))], None)).
Proof.
  intros sz a b y N Lb Ly Ha Hb data. unfold train. cbn [m_params m_outputs m_warm m_in m_train m_out fst].
  assert (Da : data "a" = map VArr a) by reflexivity. assert (Db : data "b" = map VArr b) by reflexivity. assert (Dy : data "y" = map VFloat y) by reflexivity.
  rewrite Da, map_length. cbn [app forallb fst]. rewrite Da, Db, Dy, !map_length, Lb, Ly, Nat.eqb_refl. cbn [andb negb].
  replace (length a =? 0) with false by (symmetry; apply Nat.eqb_neq; lia).
  change (width_of [("a", sz); ("b", sz)]) with (sz + (sz + 0)). rewrite Nat.add_0_r.
  cbn [fill]. rewrite Da, Db.
  assert (FA : forall l, first_float (map VArr l) = false) by (intros [|? ?]; reflexivity). rewrite !FA.
  rewrite zeros_pad. rewrite (put_rows_ok 0 sz (sz + sz) (map VArr a) (repeat [] (length a))); [|rewrite repeat_length, map_length; reflexivity|intros p I; apply repeat_spec in I; subst p; reflexivity|intros v I; apply in_map_iff in I; destruct I as (w & <- & Iw); apply Ha; exact Iw|lia].
  replace (sz + sz - sz) with sz by lia.
  assert (E1 : map (fun p : list Q * tval => (fst p ++ flat (snd p)) ++ repeat 0%Q sz) (combine (repeat [] (length a)) (map VArr a)) = map (fun v => v ++ repeat 0%Q sz) a).
  { clear. induction a as [|v a IH]; [reflexivity|]. cbn [length repeat map combine fst snd flat app]. f_equal. exact IH. }
  rewrite E1.
  assert (OV : forall a b, length b = length a -> (forall v, In v a -> length v = sz) -> (forall v, In v b -> length v = sz) -> put_rows 0 sz (map VArr b) (map (fun v => v ++ repeat 0%Q sz) a) = (map (fun v => v ++ repeat 0%Q sz) b, None)).
  { clear. induction a as [|v a IH]; intros [|w b] L Ha Hb; try discriminate; [reflexivity|]. cbn [map put_rows flat]. unfold splice. rewrite Nat.sub_0_r, app_length, repeat_length, (Ha v (or_introl eq_refl)), (Hb w (or_introl eq_refl)), Nat.min_l, Nat.eqb_refl by lia.
    rewrite IH; [|injection L as L; exact L|intros q I; apply Ha; right; exact I|intros q I; apply Hb; right; exact I]. cbn [firstn app]. rewrite skipn_app, (skipn_all2 v) by (rewrite (Ha v (or_introl eq_refl)); lia). rewrite (Ha v (or_introl eq_refl)), Nat.add_0_l, Nat.sub_diag. reflexivity. }
  rewrite (OV a b Lb Ha Hb). cbn [train_outputs m_params m_outputs m_warm m_in m_train m_out]. unfold train_output. replace (length a =? 0) with false by (symmetry; apply Nat.eqb_neq; lia). cbn [m_warm]. rewrite Dy.
  rewrite (output_rows (map VFloat y) 1 (length a) N); [|rewrite map_length; exact Ly|intros v I; apply in_map_iff in I; destruct I as (w & <- & _); reflexivity|left; intros v I; apply in_map_iff in I; destruct I as (w & <- & _); reflexivity].
  cbn [fst snd]. rewrite map_map. eexists. reflexivity.
Qed.
Print Assumptions meta_two_arrays_refuted.
Theorem meta_layout_refuted : exists st data n X Y, m_params st <> [] /\ 0 < n /\ NoDup (map fst (m_outputs st)) /\
    supplied (m_params st) data n /\ supplied (m_outputs st) data n /\ holds st X Y /\ ~ trained_well st data n X Y.
Proof.
  exists (mkMeta [("i", 1); ("x", 1)] [("y", 1)] false true [] []), (fun name => if String.eqb name "i" then [VNum 1; VNum 2] else if String.eqb name "x" then [VFloat 3; VFloat 4] else [VFloat 5; VFloat 6]), 2, [], (fun _ => []).
  split; [discriminate|]. split; [lia|]. split; [cbn; repeat constructor; cbn; tauto|]. split; [|split; [|split]].
  - intros name sz [E|[E|[]]]; injection E as <- <-; (split; [reflexivity|]); (split; [intros v [<- |[<- |[]]]; reflexivity|]); [right|left]; intros v [<- |[<- |[]]]; reflexivity.
  - intros name sz [E|[]]; injection E as <- <-; (split; [reflexivity|]); (split; [intros v [<- |[<- |[]]]; reflexivity|]); left; intros v [<- |[<- |[]]]; reflexivity.
  - split; [reflexivity|]. intros; split; reflexivity.
  - intros (st' & E & _). vm_compute in E. discriminate.
Qed.
Print Assumptions meta_layout_refuted.

(** A training that fails on malformed data leaves its rows behind: a later warm restart
    with good data trains on a point that was never supplied. *)
Theorem meta_failed_refuted : exists st data1 data2 st1 st2 e,
    m_in st = [] /\ supplied (m_params st) data1 1 /\ supplied (m_params st) data2 1 /\ supplied (m_outputs st) data2 1 /\
    train st data1 = (st1, ([], Some e)) /\
    train st1 data2 = (st2, ([("y", ([[1]; [2]], [[0]; [5]]))], None))%Q.
Proof.
  exists (mkMeta [("x", 1)] [("y", 1)] true true [] []), (fun name => if String.eqb name "x" then [VFloat 1] else [VArr [3; 4]%Q]), (fun name => if String.eqb name "x" then [VFloat 2] else [VFloat 5]).
  do 3 eexists. split; [reflexivity|]. split; [|split; [|split; [|split; reflexivity]]].
  all: intros name sz [E|[]]; injection E as <- <-; (split; [reflexivity|]); (split; [intros v [<- |[]]; reflexivity|]); left; intros v [<- |[]]; reflexivity.
Qed.
Print Assumptions meta_failed_refuted.
(** New training data are not used until the flag is set again, whatever they are. *)
Theorem meta_stale : forall st data calls st' data', train st data = (st', (calls, None)) -> demand st' data' = (st', ([], None)).
Proof.
  intros st data calls st' data' E. unfold demand. assert (m_train st' = false) as ->; [|reflexivity]. unfold train in E. destruct (m_params st) as [|[p0 s0] ps]; [discriminate|].
  destruct (negb (forallb _ _)); [discriminate|]. destruct (if length (data p0) =? 0 then _ else _) as [M [e|]]; [discriminate|]. destruct (train_outputs _ _ _ _ _) as [st2 [c [e|]]]; cbn [snd] in E; [discriminate|]. injection E as <- _. reflexivity.
Qed.
Print Assumptions meta_stale.

(** a float and an array parameter, two outputs, and a warm restart *)
Definition ex_data (s : Q) (name : string) : list tval :=
  if String.eqb name "x" then [VFloat s; VFloat (s + 1)%Q] else if String.eqb name "a" then [VArr [s; 2%Q]; VArr [s; 3%Q]] else if String.eqb name "f" then [VFloat 7; VFloat 8] else [VArr [1%Q; s]; VArr [2%Q; s]].
Example ex_meta : let st := fold_left step [mkEvent false (ex_data 10) 2; mkEvent true (ex_data 20) 2] (mkMeta [("x", 1); ("a", 2)] [("f", 1); ("g", 2)] false true [] []) in
    m_in st = [[10; 10; 2]; [10 + 1; 10; 3]; [20; 20; 2]; [20 + 1; 20; 3]]%Q /\ out_of st "g" = [[1; 10]; [2; 10]; [1; 20]; [2; 20]]%Q.
Proof.
  destruct (meta_history_partial [("x", 1); ("a", 2)] [("f", 1); ("g", 2)] [mkEvent false (ex_data 10) 2; mkEvent true (ex_data 20) 2]) as (A & B).
  - discriminate.
  - cbn. repeat constructor; cbn; intuition discriminate.
  - intros e [<- |[<- |[]]]; cbn [e_n e_data]; (split; [lia|]); (split; [|split]).
    all: intros name sz.
    1, 2, 4, 5: intros [E|[E|[]]]; injection E as <- <-; (split; [reflexivity|]); (split; [intros v [<- |[<- |[]]]; reflexivity|]); first [left; intros v [<- |[<- |[]]]; reflexivity|right; intros v [<- |[<- |[]]]; reflexivity].
    all: intros v [E|[]]; injection E as <- <-; intros [<- |[<- |[]]]; reflexivity.
  - intros st. split; [exact A|]. exact (B "g" 2 (or_intror (or_introl eq_refl))).
Qed.

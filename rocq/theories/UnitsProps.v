(** Properties C01-C08: units. *)
From Verif Require Import Base UnitsModel UnitsSpec UnitsProofs UnitsLibProofs UnitsBaseProofs.
From Coq Require Import Permutation.
Open Scope Q_scope.
Open Scope string_scope.

(** Concrete units for the examples: powers over (m, kg, s, degK, rad) *)
Definition ex_K : punit := mkUnit 1 [0;0;0;1;0]%Z 0.
Definition ex_degC : punit := mkUnit 1 [0;0;0;1;0]%Z (27315 # 100).
Definition ex_degR : punit := mkUnit (5 # 9) [0;0;0;1;0]%Z 0.
Definition ex_degF : punit := mkUnit (5 # 9) [0;0;0;1;0]%Z (45967 # 100).
Definition ex_m : punit := mkUnit 1 [1;0;0;0;0]%Z 0.
Definition ex_kg : punit := mkUnit 1 [0;1;0;0;0]%Z 0.
Definition ex_s : punit := mkUnit 1 [0;0;1;0;0]%Z 0.
Definition ex_rad : punit := mkUnit 1 [0;0;0;0;1]%Z 0.
Definition ex_km : punit := mkUnit 1000 [1;0;0;0;0]%Z 0.
Definition ex_h : punit := mkUnit 3600 [0;0;1;0;0]%Z 0.
Definition ex_base : table :=
  [("m", ex_m); ("kg", ex_kg); ("s", ex_s); ("degK", ex_K); ("rad", ex_rad)].
Definition ex_names : list string := ["m"; "kg"; "s"; "degK"; "rad"].

(** *** C01 *)
Theorem C01_convert_units_preserves : forall u v x,
    same_dim u v -> scaled u -> scaled v ->
    exists y, convert_units x u v = Ok y /\ to_base v y == to_base u x.
Proof. exact convert_units_preserves. Qed.
Print Assumptions C01_convert_units_preserves.

Theorem C01_connected_parameter_preserves : forall u v x c,
    scaled u -> scaled v -> conversion_tuple_to u v = Ok c ->
    to_base v (get_param_units c x) == to_base u x.
Proof. exact param_conversion_preserves. Qed.
Print Assumptions C01_connected_parameter_preserves.

Example C01_ex : same_dim ex_degF ex_degC /\ scaled ex_degF /\ scaled ex_degC /\
  (exists y, convert_units 212 ex_degF ex_degC = Ok y /\ y == 100) /\
  (exists c, conversion_tuple_to ex_degF ex_degC = Ok c /\ get_param_units c 32 == 0).
Proof. repeat split; try discriminate; eexists; split; reflexivity. Qed.

(** *** C02 *)
Theorem C02_conversions_compose : forall u v w x,
    same_dim u v -> same_dim v w -> scaled u -> scaled v -> scaled w ->
    exists y z z', convert_units x u v = Ok y /\ convert_units y v w = Ok z /\
                   convert_units x u w = Ok z' /\ z == z'.
Proof. exact convert_units_compose. Qed.
Print Assumptions C02_conversions_compose.

Theorem C02_conversions_invert : forall u v x,
    same_dim u v -> scaled u -> scaled v ->
    exists y z, convert_units x u v = Ok y /\ convert_units y v u = Ok z /\ z == x.
Proof. exact convert_units_inverse. Qed.
Print Assumptions C02_conversions_invert.

Example C02_ex : same_dim ex_degF ex_degC /\ same_dim ex_degC ex_degR /\
  scaled ex_degF /\ scaled ex_degC /\ scaled ex_degR /\
  exists z, convert_units 50 ex_degF ex_degR = Ok z /\ z == 50967 # 100.
Proof. repeat split; try discriminate; eexists; split; reflexivity. Qed.

(** *** C03 *)
Theorem C03_conversion_refused_iff_dimension_differs : forall u v x,
    scaled u -> scaled v ->
    (convert_units x u v = Err TypeError <-> exists i, dim u i <> dim v i) /\
    ((forall i, dim u i = dim v i) -> exists y, convert_units x u v = Ok y).
Proof. exact convert_units_refused. Qed.
Print Assumptions C03_conversion_refused_iff_dimension_differs.

Example C03_ex : scaled ex_m /\ scaled ex_s /\ dim ex_m 0 <> dim ex_s 0 /\
  convert_units 1 ex_m ex_s = Err TypeError.
Proof. repeat split; discriminate. Qed.

(** *** C04 *)
Theorem C04_multiply : forall u v,
    comparable u v ->
    (offset u == 0 /\ offset v == 0 /\
     exists w, unit_mul u v = Ok w /\
       (forall x y, to_base w (x * y) == to_base u x * to_base v y) /\
       (forall i, dim w i = match dim u i, dim v i with
                            | Some a, Some b => Some (a + b)%Z | _, _ => None end))
    \/ ((~ offset u == 0 \/ ~ offset v == 0) /\ unit_mul u v = Err TypeError).
Proof. exact unit_mul_spec. Qed.
Print Assumptions C04_multiply.

Theorem C04_divide : forall u v,
    comparable u v -> scaled v ->
    (offset u == 0 /\ offset v == 0 /\
     exists w, unit_div u v = Ok w /\
       (forall x y, ~ y == 0 -> to_base w (x / y) == to_base u x / to_base v y) /\
       (forall i, dim w i = match dim u i, dim v i with
                            | Some a, Some b => Some (a - b)%Z | _, _ => None end))
    \/ ((~ offset u == 0 \/ ~ offset v == 0) /\ unit_div u v = Err TypeError).
Proof. exact unit_div_spec. Qed.
Print Assumptions C04_divide.

Theorem C04_power : forall u n,
    scaled u ->
    (offset u == 0 /\
     exists w, unit_pow u n = Ok w /\
       (forall x, to_base w (Qpower x n) == Qpower (to_base u x) n) /\
       (forall i, dim w i = option_map (fun a => (a * n)%Z) (dim u i)))
    \/ (~ offset u == 0 /\ unit_pow u n = Err TypeError).
Proof. exact unit_pow_spec. Qed.
Print Assumptions C04_power.

Theorem C04_multiply_by_number : forall u n,
    (offset u == 0 /\
     exists w, unit_mul_num u n = Ok w /\ same_dim w u /\
       forall x, to_base w x == to_base u (n * x))
    \/ (~ offset u == 0 /\ unit_mul_num u n = Err TypeError).
Proof. exact unit_mul_num_spec. Qed.
Print Assumptions C04_multiply_by_number.

Theorem C04_divide_by_number : forall u n,
    ~ n == 0 ->
    (offset u == 0 /\
     exists w, unit_div_num u n = Ok w /\ same_dim w u /\
       forall x, to_base w x == to_base u (x / n))
    \/ (~ offset u == 0 /\ unit_div_num u n = Err TypeError).
Proof. exact unit_div_num_spec. Qed.
Print Assumptions C04_divide_by_number.

(** a number divided by a unit: right for units without offset, *)
Theorem C04_number_by_unit_partial : forall u n,
    scaled u -> offset u == 0 ->
    exists w, unit_rdiv_num n u = Ok w /\
      (forall x, ~ x == 0 -> to_base w (/ x) == n / to_base u x) /\
      (forall i, dim w i = option_map Z.opp (dim u i)).
Proof. exact unit_rdiv_num_spec. Qed.
Print Assumptions C04_number_by_unit_partial.

(** but every offset unit is accepted too, although TypeError is required *)
Theorem C04_number_by_unit_refuted : exists u,
    scaled u /\ ~ offset u == 0 /\ (exists w, unit_rdiv_num 1 u = Ok w /\ offset w == 0).
Proof.
  exists ex_degC. split; [discriminate|split; [discriminate|]].
  exact (unit_rdiv_num_no_check ex_degC 1 ltac:(discriminate)).
Qed.
Print Assumptions C04_number_by_unit_refuted.

Example C04_ex : comparable ex_km ex_h /\ scaled ex_h /\
  (exists w, unit_div ex_km ex_h = Ok w /\ factor w == 5 # 18 /\ powers w = [1;0;-1;0;0]%Z) /\
  unit_mul ex_km ex_degC = Err TypeError /\ ~ (60 == 0).
Proof. repeat split; try discriminate. eexists; split; [reflexivity|split; reflexivity]. Qed.

(** *** C05 *)
(** Comparison agrees with the physical quantities for all values exactly when
    the two scales have the same zero point. *)
Theorem C05_comparison_exact_partial : forall u v,
    0 < factor u -> 0 < factor v ->
    (forall x y, exists r, qty_lt (mkQty x u) (mkQty y v) = Ok r) ->
    ((forall x y, qty_lt (mkQty x u) (mkQty y v) = Ok true <-> to_base u x < to_base v y)
     <-> offset u * factor u == offset v * factor v).
Proof. exact qty_lt_exact. Qed.
Print Assumptions C05_comparison_exact_partial.

Theorem C05_equality_without_offsets : forall u v x y,
    scaled u -> scaled v -> offset u == 0 -> offset v == 0 ->
    (qty_eq (mkQty x u) (mkQty y v) = true <-> same_dim u v /\ to_base u x == to_base v y).
Proof. exact qty_eq_exact. Qed.
Print Assumptions C05_equality_without_offsets.

(** Sums ([s = 1]) and differences ([s = -1]) denote the physical sum exactly
    when the second operand has no offset. *)
Theorem C05_sum_exact_partial : forall a b q s,
    scaled (qunit b) ->
    qty_sum a b 1 s = Ok q -> ~ s == 0 ->
    same_dim (qunit q) (qunit a) /\
    (to_base (qunit q) (value q) ==
       to_base (qunit a) (value a) + s * to_base (qunit b) (value b)
     <-> offset (qunit b) == 0).
Proof. exact qty_sum_exact. Qed.
Print Assumptions C05_sum_exact_partial.

(** 0 degC is reported equal to and not above 0 K, 10 degC below 20 K *)
Theorem C05_refuted : exists u v,
    qty_eq (mkQty 0 u) (mkQty 0 v) = true /\ ~ to_base u 0 == to_base v 0 /\
    qty_lt (mkQty 10 u) (mkQty 20 v) = Ok true /\ to_base v 20 < to_base u 10.
Proof.
  exists ex_degC, ex_K. split; [reflexivity|]. split; [discriminate|].
  split; reflexivity.
Qed.
Print Assumptions C05_refuted.

Example C05_ex : 0 < factor ex_km /\ 0 < factor ex_m /\ scaled ex_m /\
  (forall x y, exists r, qty_lt (mkQty x ex_km) (mkQty y ex_m) = Ok r) /\
  qty_lt (mkQty 1 ex_km) (mkQty 2000 ex_m) = Ok true /\
  (exists q, qty_sum (mkQty 1 ex_km) (mkQty 500 ex_m) 1 1 = Ok q /\ value q == 3 # 2).
Proof.
  repeat split; try discriminate.
  - intros x y. eexists. reflexivity.
  - eexists; split; reflexivity.
Qed.

(** *** C06 *)
(** The unit is not dimensionless and has no offset; [hist] is any history of
    earlier lookups. *)
Theorem C06_in_base_units_partial : forall px t bs hist q,
    knows_base_units t bs -> length (powers (qunit q)) = length bs ->
    (exists p, In p (powers (qunit q)) /\ p <> 0%Z) -> offset (qunit q) == 0 ->
    exists q', in_base_units px bs (find_units px (mkUState t []) hist) q = Ok q' /\
      to_base (qunit q') (value q') == to_base (qunit q) (value q) /\
      same_dim (qunit q') (qunit q) /\ factor (qunit q') == 1.
Proof. exact in_base_units_preserves. Qed.
Print Assumptions C06_in_base_units_partial.

Theorem C06_offset_refuted : exists q q',
    in_base_units [] ex_names (mkUState ex_base []) q = Ok q' /\
    ~ to_base (qunit q') (value q') == to_base (qunit q) (value q).
Proof.
  exists (mkQty 100 ex_degC). eexists. split; [reflexivity|]. discriminate.
Qed.
Print Assumptions C06_offset_refuted.

Theorem C06_dimensionless_refuted : exists q,
    offset (qunit q) == 0 /\ is_dimensionless (qunit q) = true /\
    in_base_units [] ex_names (mkUState ex_base []) q = Err TypeError.
Proof. exists (mkQty 3 (mkUnit 1 [0;0;0;0;0]%Z 0)). repeat split. Qed.
Print Assumptions C06_dimensionless_refuted.

Example C06_ex : knows_base_units ex_base ex_names /\
  (exists q', in_base_units [] ex_names (mkUState ex_base [])
      (mkQty 36 (mkUnit (5 # 18) [1;0;-2;0;0]%Z 0)) = Ok q' /\ value q' == 10 /\
      powers (qunit q') = [1;0;-2;0;0]%Z).
Proof.
  split.
  - intros i n Hi.
    do 5 (destruct i as [|i];
      [simpl in Hi; injection Hi as <-; eexists; split; [reflexivity|];
       split; [reflexivity|]; split; [reflexivity|]; split; [reflexivity|];
       intros j Hj; simpl in Hj; do 5 (destruct j as [|j]; [reflexivity|]); lia|]).
    simpl in Hi. destruct i; discriminate.
  - eexists; split; [reflexivity|split; reflexivity].
Qed.

(** *** C07 *)
Theorem C07_order_independent_partial : forall px order order' t0 ds ds' s,
    set_order order -> set_order order' -> NoDup (map def_name ds) ->
    (forall d, In d ds -> loadable t0 d) -> Permutation ds ds' ->
    update_library px order (mkUState t0 []) ds = Ok s ->
    exists s', update_library px order' (mkUState t0 []) ds' = Ok s' /\
               same_table (utable s) (utable s').
Proof. exact update_library_order_independent. Qed.
Print Assumptions C07_order_independent_partial.

Theorem C07_loads_iff_definable_partial : forall px order t0 ds,
    set_order order -> NoDup (map def_name ds) -> (forall d, In d ds -> loadable t0 d) ->
    ((exists s', update_library px order (mkUState t0 []) ds = Ok s') <->
     (exists L T, Permutation ds L /\ definable t0 L T)).
Proof. exact update_library_iff_definable. Qed.
Print Assumptions C07_loads_iff_definable_partial.

Theorem C07_table_satisfies_definitions_partial : forall px order t0 ds s,
    set_order order -> NoDup (map def_name ds) -> (forall d, In d ds -> loadable t0 d) ->
    update_library px order (mkUState t0 []) ds = Ok s ->
    (forall d, In d ds -> exists u, def_value (utable s) d = Ok u /\ sget (utable s) (def_name d) = Some u) /\
    (forall n, ~ In n (map def_name ds) -> sget (utable s) n = sget t0 n).
Proof. exact update_library_sound. Qed.
Print Assumptions C07_table_satisfies_definitions_partial.

Theorem C07_loading_terminates : forall px order s ds,
    set_order order -> update_library px order s ds <> Err RuntimeError.
Proof. exact update_library_terminates. Qed.
Print Assumptions C07_loading_terminates.

Definition ex_defs : list udef :=
  [DExpr "N" (UDiv (UMul (UName "kg") (UName "m")) (UPow (UName "s") 2));
   DExpr "J" (UMul (UName "N") (UName "m"));
   DOffset "degC" (UName "degK") 1 (27315 # 100)].

Definition ex_order : nat -> list udef -> list udef := fun _ l => rev l.

(** the offset unit with a base defined in the same file *)
Definition ex_defs_off : list udef :=
  [DExpr "degR" (UMul (UNum (5 # 9)) (UName "degK"));
   DOffset "degF" (UName "degR") 1 (45967 # 100)].

Theorem C07_offset_base_refuted : exists ds ds' s,
    Permutation ds ds' /\ NoDup (map def_name ds) /\
    update_library [] (fun _ l => l) (mkUState ex_base []) ds = Ok s /\
    update_library [] (fun _ l => l) (mkUState ex_base []) ds' = Err ValueError.
Proof.
  exists ex_defs_off, (rev ex_defs_off). eexists.
  split; [apply Permutation_rev|]. split.
  - repeat constructor; simpl; intuition discriminate.
  - split; reflexivity.
Qed.
Print Assumptions C07_offset_base_refuted.

(** a name that is defined stays as it is: another unit under the same name is
    refused; otherwise exactly that name is set *)
Theorem C07_redefinition : forall t name u,
    match sget t name with
    | Some old =>
        (factor old == factor u /\ powers old = powers u -> exists t', add_unit t name u = Ok t' /\
            sget t' name = Some u /\ forall n, n <> name -> sget t' n = sget t n) /\
        (~ (factor old == factor u /\ powers old = powers u) -> add_unit t name u = Err KeyError)
    | None => exists t', add_unit t name u = Ok t' /\ sget t' name = Some u /\ forall n, n <> name -> sget t' n = sget t n
    end.
Proof. exact redefinition. Qed.
Print Assumptions C07_redefinition.

Example C07_redefinition_ex : exists old, sget ex_base "degK" = Some old /\
    add_unit ex_base "degK" (mkUnit (2 * factor old) (powers old) 0) = Err KeyError /\
    is_ok (add_unit ex_base "degK" old) = true.
Proof. eexists. split; [reflexivity|]. split; reflexivity. Qed.

Example C07_ex : set_order ex_order /\ NoDup (map def_name ex_defs) /\
  (forall d, In d ex_defs -> loadable ex_base d) /\
  (exists s, update_library [] ex_order (mkUState ex_base []) (rev ex_defs) = Ok s /\
     exists u, sget (utable s) "J" = Some u /\ powers u = [2;1;-2;0;0]%Z).
Proof.
  split; [intros k l; apply Permutation_rev|]. split.
  - repeat constructor; simpl; intuition discriminate.
  - split.
    + intros d [<-|[<-|[<-|[]]]]; split; try reflexivity; try exact I.
      exists "degK", ex_K. split; reflexivity.
    + eexists; split; [reflexivity|]. eexists; split; reflexivity.
Qed.

(** *** C08 *)
(** Once a lookup has succeeded, the same lookup gives the same unit forever. *)
Theorem C08_found_units_are_stable : forall px t hist e u es,
    snd (find_unit px (find_units px (mkUState t []) hist) e) = Ok u ->
    snd (find_unit px
           (find_units px (fst (find_unit px (find_units px (mkUState t []) hist) e)) es) e)
    = Ok u.
Proof. exact find_unit_stable_hist. Qed.
Print Assumptions C08_found_units_are_stable.

(** Expressions over defined units never change their meaning. *)
Theorem C08_defined_units_are_history_independent : forall px t e v es,
    ueval t e = Ok v ->
    snd (find_unit px (find_units px (mkUState t []) es) e) = as_unit v.
Proof. exact find_unit_known_forever. Qed.
Print Assumptions C08_defined_units_are_history_independent.

(** Prefixed names: history independent as long as no proper tail of a name
    (after one or two letters) is itself a prefixed name looked up before. *)
Theorem C08_history_independent_partial : forall px t0 es e,
    (forall n k, In n (unames e) -> (k = 1 \/ k = 2)%nat ->
       In (sdrop k n) (flat_map unames (es ++ [e])) -> sget t0 (sdrop k n) <> None) ->
    snd (find_unit px (find_units px (mkUState t0 []) es) e)
    = snd (find_unit px (mkUState t0 []) e).
Proof. exact find_unit_history_independent. Qed.
Print Assumptions C08_history_independent_partial.

Definition ex_px : prefixes :=
  [("k", 1000); ("d", 1 # 10); ("da", 10); ("a", Qpower 10 (-18)); ("m", 1 # 1000)].

(** "dam" is 10 m, unless "am" was looked up before; "kkm" is an error, unless
    "km" was looked up before *)
Theorem C08_refuted : exists u v,
    snd (find_unit ex_px (mkUState ex_base []) (UName "dam")) = Ok u /\ factor u == 10 /\
    snd (find_unit ex_px (find_units ex_px (mkUState ex_base []) [UName "am"]) (UName "dam")) = Ok v /\
    factor v == Qpower 10 (-19) /\
    snd (find_unit ex_px (mkUState ex_base []) (UName "kkm")) = Err ValueError /\
    is_ok (snd (find_unit ex_px (find_units ex_px (mkUState ex_base []) [UName "km"]) (UName "kkm"))) = true.
Proof. eexists. eexists. repeat split. Qed.
Print Assumptions C08_refuted.

Example C08_ex :
  (forall n k, In n (unames (UDiv (UName "km") (UName "ms"))) -> (k = 1 \/ k = 2)%nat ->
     In (sdrop k n) (flat_map unames ([UName "dam"; UName "kg"] ++ [UDiv (UName "km") (UName "ms")])) ->
     sget ex_base (sdrop k n) <> None) /\
  (exists u, snd (find_unit ex_px (find_units ex_px (mkUState ex_base []) [UName "dam"; UName "kg"])
               (UDiv (UName "km") (UName "ms"))) = Ok u /\ factor u == 1000000).
Proof.
  split.
  - intros n k [<-|[<-|[]]] [-> | ->] Hin; simpl in Hin |- *;
      repeat (destruct Hin as [Hin|Hin]; [discriminate|]); try contradiction; discriminate.
  - eexists; split; reflexivity.
Qed.

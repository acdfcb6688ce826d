(** What total derivatives should be: the entries of the Jacobian, and the
    requests for which it can be computed. *)
From Verif Require Import Base GradModel LinModel LinSpec.
Local Open Scope string_scope.
Local Open Scope nat_scope.
Local Open Scope list_scope.

Section Spec.
  Context {F : Type} (F0 F1 : F) (fadd fmul : F -> F -> F) (fopp : F -> F).
  Notation prob := (prob (F:=F)).

  (** the positions of a variable's entries: those with the given indices, or all *)
  Definition wanted (p : prob) (idx : list (string * list Z)) (name : string) : list nat :=
    match p_var p name with
    | None => []
    | Some (start, size) =>
        match sget idx name with
        | Some l => map (fun z => start + Z.to_nat z) l
        | None => seq start size
        end
    end.
  (** the rows, or the columns, of the Jacobian: variable and position *)
  Definition layout (p : prob) (idx : list (string * list Z)) (names : list string) : list (string * nat) :=
    flat_map (fun n => map (pair n) (wanted p idx n)) names.

  (** a variable in the vectors; indices, if any, are in its range *)
  Definition var_ok (p : prob) (idx : list (string * list Z)) (n : string) : Prop :=
    exists start size, p_var p n = Some (start, size) /\ start + size <= p_len p /\
      forall l, sget idx n = Some l -> l <> [] /\ length l <= size /\ Forall (fun z => (0 <= z < Z.of_nat size)%Z) l.

  (** a variable of interest of the driver *)
  Definition of_interest (p : prob) (v : string) : Prop := In v (concat (p_pois p)) \/ In v (concat (p_qois p)).

  (** a group of variables that are solved for together is requested as a whole,
      by LinearGaussSeidel, and its members have the same number of entries *)
  Definition group_ok (p : prob) (idx : list (string * list Z)) (inputs grp : list string) : Prop :=
    (exists v, In v grp /\ In v inputs) ->
    NoDup grp /\ incl grp inputs /\ (length grp <= 1 \/ p_lgs p = true) /\
    (forall a b, In a grp -> In b grp -> length (wanted p idx a) = length (wanted p idx b)).

  Definition request_ok (p : prob) (fwd : bool) (indep unknown : list string) : Prop :=
    NoDup indep /\ NoDup unknown /\
    (forall n, In n indep -> var_ok p (p_poi p) n) /\ (forall n, In n unknown -> var_ok p (p_qoi p) n) /\
    p_keys p None = true /\
    (forall n, In n (if fwd then indep else unknown) -> of_interest p n -> p_keys p (Some n) = true) /\
    (forall grp, In grp (if fwd then p_pois p else p_qois p) ->
       if fwd then group_ok p (p_poi p) indep grp else group_ok p (p_qoi p) unknown grp).

  (** minus the unit vector *)
  Definition minus_unit (q : nat) : nat -> F := fun k => if k =? q then fopp F1 else F0.

  (** a variable with vectors of its own *)
  Definition keyed (p : prob) (v : string) : Prop :=
    p_lgs p = true /\ of_interest p v /\
    (p_reduce p = true \/ exists grp, In grp (p_pois p ++ p_qois p) /\ In v grp /\ 1 < length grp).

  (** the solver finds the total derivatives X (row: unknown, column: independent
      variable), or their transpose; irrelevant ones are zero *)
  Definition finds (p : prob) (fwd : bool) (indep unknown : list string) (X : nat -> nat -> F) : Prop :=
    forall v q u k key, In v indep -> In q (wanted p (p_poi p) v) -> In u unknown -> In k (wanted p (p_qoi p) u) ->
    key = None \/ key = Some (if fwd then v else u) /\ keyed p (if fwd then v else u) ->
    if p_rel p key (if fwd then u else v)
    then (if fwd then p_solve p true key (minus_unit q) k else p_solve p false key (minus_unit k) q) = X k q
    else X k q = F0.

  Definition scaled (s : option F) (x : F) : F := match s with Some a => fmul x a | None => x end.

  (** the Jacobian array *)
  Definition jacobian (p : prob) (indep unknown : list string) (dv cn : string -> option F) (X : nat -> nat -> F) (J : arr (F:=F)) : Prop :=
    a_rows J = length (layout p (p_qoi p) unknown) /\ a_cols J = length (layout p (p_poi p) indep) /\
    forall r c u k v q, nth_error (layout p (p_qoi p) unknown) r = Some (u, k) ->
      nth_error (layout p (p_poi p) indep) c = Some (v, q) -> a_at J r c = scaled (cn u) (scaled (dv v) (X k q)).

  (** a pair the sparsity dictionary asks for *)
  Definition asked (sparsity : option (list (string * list string))) (u v : string) : Prop :=
    match sparsity with None => True | Some d => exists l, sget d u = Some l /\ In v l end.
  (** the Jacobian dictionary: a block for each pair that is asked for, and nothing else *)
  Definition jacobian_dict (p : prob) (indep unknown : list string) (dv cn : string -> option F)
      (sparsity : option (list (string * list string))) (X : nat -> nat -> F) (J : jdict (F:=F)) : Prop :=
    forall u, match sget J u with
    | None => ~ In u unknown
    | Some row => In u unknown /\ forall v,
        (sget row v <> None <-> In v indep /\ asked sparsity u v) /\
        forall cell, sget row v = Some cell -> wanted p (p_qoi p) u <> [] -> wanted p (p_poi p) v <> [] ->
        exists K, cell = Some K /\ a_rows K = length (wanted p (p_qoi p) u) /\ a_cols K = length (wanted p (p_poi p) v) /\
          forall i j k q, nth_error (wanted p (p_qoi p) u) i = Some k -> nth_error (wanted p (p_poi p) v) j = Some q ->
            a_at K i j = scaled (cn u) (scaled (dv v) (X k q))
    end.

  (** the solver solves the equations of a system, or their transpose *)
  Definition exact (p : prob) (s : sys (F:=F)) (fwd : bool) : Prop := forall rhs k, In k (rows s) ->
    (if fwd then row_of F0 fadd fmul (sys_mat F1 fmul fopp None s) (over (p_solve p true None rhs) (fun _ => F0)) k
     else col_of F0 fadd fmul (sys_mat F1 fmul fopp None s) (p_solve p false None rhs) (CU k)) = rhs k.
  (** the chain rule: column q of X is how the unknowns change when the residual
      at q changes by minus one *)
  Definition total_derivatives (s : sys (F:=F)) (X : nat -> nat -> F) : Prop := forall q k, In q (rows s) -> In k (rows s) ->
    row_of F0 fadd fmul (sys_mat F1 fmul fopp None s) (over (fun j => X j q) (fun _ => F0)) k = minus_unit q k.
  (** no variable has vectors of its own, and none is irrelevant to them *)
  Definition plain (p : prob) : Prop := (forall v, ~ keyed p v) /\ (forall u, p_rel p None u = true).
  Definition inside (p : prob) (s : sys (F:=F)) (idx : list (string * list Z)) (names : list string) : Prop :=
    forall n k, In n names -> In k (wanted p idx n) -> In k (rows s).

  (** the solver is one sweep of LinearGaussSeidel over the root group *)
  Definition swept (fsub : F -> F -> F) (tiny : list F -> bool) (p : prob) (ns : list string) (ks : list conn) (subs : list (sys (F:=F))) : Prop :=
    forall (fwd : bool) (rhs : nat -> F), exists st st' : state (F:=F),
      (forall k, In k (flat_map rows subs) -> du st k = F0) /\ (forall t, In t (flat_map outside_params subs) -> dp st t = F0) /\
      sweep F0 fadd fmul fsub fopp tiny fwd ns ks subs rhs st = Ok st' /\
      forall k, In k (flat_map rows subs) -> p_solve p fwd None rhs k = (if fwd then du st' k else dr st' k).
End Spec.

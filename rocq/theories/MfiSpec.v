(** What a metamodel with several fidelities should be trained on. *)
From Verif Require Import Base MetaModel MetaSpec MfiModel.
Local Open Scope string_scope.
Local Open Scope nat_scope.
Local Open Scope list_scope.

(** the training values of the variables at a level *)
Definition at_level (data : dict) (fi : nat) (name : string) : list tval := match data (level_name name fi) with Some v => v | None => [] end.
(** [n] points for every variable at the level [fi] *)
Definition given (vars : list (string * nat)) (data : dict) (fi n : nat) : Prop :=
  (forall name sz, In (name, sz) vars -> data (level_name name fi) <> None) /\ supplied vars (at_level data fi) n.
(** the points the levels hold *)
Definition mholds (st : mstate) (X : list matrix) (Y : string -> list matrix) : Prop :=
  f_in st = X /\ forall name sz, In (name, sz) (f_outputs st) -> outs_of st name = map Some (Y name) /\ map (fun M : matrix => length M) (Y name) = map (fun M : matrix => length M) X.
Definition grow (warm : bool) (old new : matrix) : matrix := (if warm then old else []) ++ new.
(** The property for two levels: every level is trained on its own points, after those it
    had in a warm restart. *)
Definition mtrained_well (st : mstate) (data : dict) (n0 n1 : nat) (X0 X1 : matrix) (Y0 Y1 : string -> matrix) : Prop :=
  let X' := [grow (f_warm st) X0 (points (f_params st) (at_level data 0) n0); grow (f_warm st) X1 (points (f_params st) (at_level data 1) n1)] in
  let Y' := fun name => [grow (f_warm st) (Y0 name) (map (fun v => flat v) (at_level data 0 name)); grow (f_warm st) (Y1 name) (map (fun v => flat v) (at_level data 1 name))] in
  exists st', mtrain st data = (st', (map (fun o => (fst o, (X', map Some (Y' (fst o))))) (f_outputs st), None)) /\
    mholds st' X' Y' /\ f_params st' = f_params st /\ f_outputs st' = f_outputs st /\ f_warm st' = f_warm st /\ f_train st' = false.

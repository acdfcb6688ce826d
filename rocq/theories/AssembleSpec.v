(** When the assembled Jacobian may be used: what the names must mean, and what the
    components must look like. *)
From Verif Require Import Base LinModel LinSpec AssembleModel.
Local Open Scope string_scope.
Local Open Scope nat_scope.
Local Open Scope list_scope.

(** an absolute name is an unknown of the group at [start, stop) *)
Definition unknown_at (nm : naming) (a : string) (start stop : nat) : Prop :=
  exists pro, dget String.eqb (n_prom nm) a = Some pro /\ dget String.eqb (n_slice nm) pro = Some (start, stop).
(** a parameter takes its value from the unknown at [start, stop): it is promoted to the
    name of that unknown, or connected to it *)
Definition fed_by (nm : naming) (a : string) (start stop : nat) : Prop :=
  unknown_at nm a start stop \/
  (exists pro, dget String.eqb (n_prom nm) a = Some pro /\ dget String.eqb (n_slice nm) pro = None) /\
  exists src, dget String.eqb (n_conn nm) a = Some src /\ unknown_at nm src start stop.
(** a parameter without a source *)
Definition not_fed (nm : naming) (a : string) : Prop :=
  (exists pro, dget String.eqb (n_prom nm) a = Some pro /\ dget String.eqb (n_slice nm) pro = None) /\
  dget String.eqb (n_conn nm) a = None.

(** every span in the cache is the one its names lead to; the states of the components by path *)
Definition cache_ok (nm : naming) (sof : string -> list string) (ca : icache) : Prop :=
  forall path o i sp, dget key2_eqb ca (path, (o, i)) = Some sp -> locate nm path (sof path) o i = Ok (Some sp).

Section Spec.
  Context {F : Type} (F0 F1 : F) (fadd fmul fsub : F -> F -> F) (fopp : F -> F).

  (** the components of a system, each with the connections of the groups around it,
      the nearest group first *)
  Fixpoint leaves (chain : list (list conn)) (s : sys (F:=F)) : list (comp (F:=F) * list (list conn)) :=
    match s with
    | Comp c => [(c, chain)]
    | Indep us => [(mkC [] us false (Some []) None, chain)]
    | FdGroup _ _ => []
    | Group _ _ ks subs => flat_map (leaves (ks :: chain)) subs
    end.
  Fixpoint no_fd_group (s : sys (F:=F)) : Prop :=
    match s with
    | FdGroup _ _ => False
    | Group _ _ _ subs => fold_right (fun s P => no_fd_group s /\ P) True subs
    | _ => True
    end.

  (** where a column of a component comes from, through all the groups around it *)
  Definition through (chain : list (list conn)) (c : col) : col := fold_left (fun c ks => source_of ks c) chain c.

  (** the rows and columns of a Jacobian key *)
  Definition key_rows (c : comp (F:=F)) (key : string * string * mat (F:=F)) : list nat :=
    match unknown_of c (fst (fst key)) with Some u => seq (u_off u) (u_size u) | None => [] end.
  Definition key_cols (c : comp (F:=F)) (chain : list (list conn)) (key : string * string * mat (F:=F)) : list col :=
    match state_of c (snd (fst key)) with
    | Some x => map CU (seq (u_off x) (u_size x))
    | None => match param_of c (snd (fst key)) with
              | Some p => map (fun t => through chain (CP t)) (seq (p_off p) (p_size p))
              | None => []
              end
    end.
  Definition covers (c : comp (F:=F)) (chain : list (list conn)) (key : string * string * mat (F:=F)) (i j : nat) : Prop :=
    In i (key_rows c key) /\ In (CU j) (key_cols c chain key).

  (** the names of a component's variables mean what its positions say *)
  Definition placed (nm : naming) (path : string) (c : comp (F:=F)) (chain : list (list conn)) : Prop :=
    (forall u, In u (c_unks c) -> unknown_at nm (abs_name path (u_name u)) (u_off u) (u_off u + u_size u)) /\
    (forall p, In p (c_params c) ->
       (exists start, fed_by nm (abs_name path (p_name p)) start (start + p_size p) /\
          forall i, i < p_size p -> through chain (CP (p_off p + i)) = CU (start + i)) \/
       not_fed nm (abs_name path (p_name p)) /\
          forall i, i < p_size p -> exists t, through chain (CP (p_off p + i)) = CP t).

  (** no unit conversions, no resid_scalers; a Jacobian whose keys are variables of the
      component, where no two keys meet in a cell, where no explicit output depends on
      itself and where every state has its own key *)
  Definition suitable (c : comp (F:=F)) (chain : list (list conn)) : Prop :=
    (c_fd c = true \/ Forall (fun u => u_scale u = None) (c_unks c) /\ Forall (fun p => p_unit p = None) (c_params c)) /\
    forall l, c_jac c = Some l ->
      (forall key, In key l -> unknown_of c (fst (fst key)) <> None /\
                     (state_of c (snd (fst key)) <> None \/ param_of c (snd (fst key)) <> None)) /\
      ForallOrdPairs (fun k1 k2 => forall i j, covers c chain k1 i j -> ~ covers c chain k2 i j) l /\
      (forall u, In u (c_unks c) -> forall i, In i (seq (u_off u) (u_size u)) ->
         if u_state u then exists key, In key l /\ covers c chain key i i
         else forall key, In key l -> ~ covers c chain key i i).

  Definition assemblable (nm : naming) (subs : list (string * comp (F:=F))) (s : sys (F:=F)) : Prop :=
    no_fd_group s /\ NoDup (map fst subs) /\
    Forall2 (fun a l => snd a = fst l /\ placed nm (fst a) (fst l) (snd l) /\ suitable (fst l) (snd l)) subs (leaves [] s).

  (** the number in row i and column j of the matrix given by its entries *)
  Definition dense (m : list (entry (F:=F))) (i j : nat) : F :=
    total F0 fadd (fun e => if (e_row e =? i) && col_eqb (e_col e) (CU j) then snd e else F0) m.
End Spec.

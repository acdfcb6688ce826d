(** The linear operator of a system as a list of matrix entries, and what its
    forward and reverse products and solutions should be. *)
From Verif Require Import Base LinModel.
Local Open Scope string_scope.
Local Open Scope nat_scope.

(** a column: a position of du or a position of dp *)
Inductive col : Type := CU (k : nat) | CP (t : nat).
Definition col_eqb (a b : col) : bool :=
  match a, b with CU i, CU j => i =? j | CP i, CP j => i =? j | _, _ => false end.

Section Spec.
  Context {F : Type} (F0 F1 : F) (fadd fmul fsub : F -> F -> F) (fopp : F -> F).
  Infix "+!" := fadd (at level 50, left associativity).
  Infix "*!" := fmul (at level 40, left associativity).

  Definition total {A} (f : A -> F) (l : list A) : F := fold_right (fun a acc => f a +! acc) F0 l.

  (** an entry: row, column, value *)
  Definition entry : Type := (nat * col * F)%type.
  Definition e_row (e : entry) : nat := fst (fst e).
  Definition e_col (e : entry) : col := snd (fst e).

  (** (M x)_k and (M^T y)_c *)
  Definition row_of (m : list entry) (x : col -> F) (k : nat) : F :=
    total (fun e : entry => if e_row e =? k then snd e *! x (e_col e) else F0) m.
  Definition col_of (m : list entry) (y : nat -> F) (c : col) : F :=
    total (fun e : entry => if col_eqb (e_col e) c then snd e *! y (e_row e) else F0) m.

  (** a vector over the columns from du and dp *)
  Definition over (u p : nat -> F) (c : col) : F := match c with CU k => u k | CP t => p t end.

  Definition factor (o : option F) : F := match o with Some a => a | None => F1 end.

  (** the block of the derivative of u with respect to the positions at 'off' of
      kind cc *)
  Definition block (cc : nat -> col) (ro co nr nc : nat) (f : nat -> nat -> F) : list entry :=
    flat_map (fun i => map (fun j => (ro + i, cc (co + j), f i j)) (seq 0 nc)) (seq 0 nr).

  (** the variables a Jacobian key refers to, in the vectors of the component *)
  Definition unknown_of (c : comp (F:=F)) (n : string) : option uvar := find (fun u => String.eqb (u_name u) n) (c_unks c).
  Definition state_of (c : comp (F:=F)) (n : string) : option uvar :=
    find (fun u => String.eqb (u_name u) n && u_state u) (c_unks c).
  Definition param_of (c : comp (F:=F)) (n : string) : option pvar := find (fun p => String.eqb (p_name p) n) (c_params c).

  Definition key_entries (c : comp (F:=F)) (key : string * string * mat (F:=F)) : list entry :=
    let '(un, pn, J) := key in
    let sc (o : option F) := if c_fd c then F1 else factor o in
    match unknown_of c un with
    | None => []
    | Some u =>
        match state_of c pn with
        | Some x => block CU (u_off u) (u_off x) (u_size u) (u_size x) (fun i j => sc (u_scale u) *! m_at J i j)
        | None =>
            match param_of c pn with
            | Some p => block CP (u_off u) (p_off p) (u_size u) (p_size p)
                          (fun i j => sc (u_scale u) *! m_at J i j *! sc (p_unit p))
            | None => []
            end
        end
    end.

  (** dR/du, dR/dp of a component: its scaled Jacobian, minus the identity for
      the explicit outputs (those in g, if g is given) *)
  Definition minus_identity (g : option (list string)) (us : list (uvar (F:=F))) : list entry :=
    flat_map (fun u => if u_state u then []
                       else match g with
                            | Some l => if existsb (String.eqb (u_name u)) l
                                        then map (fun k => (k, CU k, fopp F1)) (seq (u_off u) (u_size u)) else []
                            | None => map (fun k => (k, CU k, fopp F1)) (seq (u_off u) (u_size u))
                            end) us.
  Definition comp_mat (g : option (list string)) (c : comp (F:=F)) : list entry :=
    flat_map (key_entries c) (match c_jac c with Some l => l | None => [] end) ++ minus_identity g (c_unks c).

  (** a group: the parameters it connects become functions of its unknowns *)
  Definition source_of (ks : list conn) (c : col) : col :=
    match c with
    | CP t => match find (fun k => k_tgt k =? t) ks with Some k => CU (k_src k) | None => CP t end
    | CU k => CU k
    end.
  Definition reroute (ks : list conn) (m : list entry) : list entry :=
    map (fun e : entry => (e_row e, source_of ks (e_col e), snd e)) m.

  Fixpoint sys_mat (g : option (list string)) (s : sys (F:=F)) : list entry :=
    match s with
    | Comp c => comp_mat g c
    | Indep us => minus_identity g us
    | FdGroup ks c => reroute ks (comp_mat g c)
    | Group _ _ ks subs => reroute ks (flat_map (sys_mat g) subs)
    end.

  (** positions of the parameters: all, and those connected from outside *)
  Definition pcells (ps : list (pvar (F:=F))) : list nat := flat_map (fun p => seq (p_off p) (p_size p)) ps.
  Fixpoint all_params (s : sys (F:=F)) : list nat :=
    match s with
    | Comp c => pcells (c_params c)
    | Indep _ => []
    | FdGroup _ c => pcells (c_params c)
    | Group _ _ _ subs => flat_map all_params subs
    end.
  Definition without (ks : list conn) (l : list nat) : list nat :=
    filter (fun t => negb (existsb (fun k => k_tgt k =? t) ks)) l.
  Fixpoint outside_params (s : sys (F:=F)) : list nat :=
    match s with
    | Comp c => pcells (c_params c)
    | Indep _ => []
    | FdGroup ks c => without ks (pcells (c_params c))
    | Group _ _ ks subs => without ks (flat_map outside_params subs)
    end.

  (** a Jacobian whose blocks have the sizes of their variables *)
  Definition fits (c : comp (F:=F)) (key : string * string * mat (F:=F)) : Prop :=
    let '(un, pn, J) := key in
    forall u, unknown_of c un = Some u ->
    (forall x, state_of c pn = Some x -> m_rows J = u_size u /\ m_cols J = u_size x) /\
    (forall p, state_of c pn = None -> param_of c pn = Some p -> m_rows J = u_size u /\ m_cols J = p_size p).

  (** a component whose variables do not overlap, with a Jacobian that fits;
      one without parameters has nothing to differentiate *)
  Definition wf_comp (c : comp (F:=F)) : Prop :=
    NoDup (ucells (c_unks c)) /\ NoDup (pcells (c_params c)) /\
    (exists l, c_jac c = Some l /\ Forall (fits c) l /\ (c_params c = [] -> l = [])).

  (** a system tree in which every variable has its own positions, every
      connected parameter one source, and sources and targets lie inside the
      group *)
  Fixpoint wf (s : sys (F:=F)) : Prop :=
    match s with
    | Comp c => wf_comp c
    | Indep us => NoDup (ucells us) /\ Forall (fun u => u_state u = false) us
    | FdGroup ks c => wf_comp c /\ NoDup (map k_tgt ks) /\ incl (map k_tgt ks) (pcells (c_params c)) /\
                      incl (map k_src ks) (ucells (c_unks c))
    | Group _ _ ks subs =>
        NoDup (flat_map rows subs) /\ NoDup (flat_map all_params subs) /\ NoDup (map k_tgt ks) /\
        incl (map k_tgt ks) (flat_map outside_params subs) /\ incl (map k_src ks) (flat_map rows subs) /\
        fold_right (fun s P => wf s /\ P) True subs
    end.

  (** positions of the IndepVarComps *)
  Fixpoint indep_cells (s : sys (F:=F)) : list nat :=
    match s with
    | Indep us => ucells us
    | Group _ _ _ subs => flat_map indep_cells subs
    | _ => []
    end.

  (** no entry feeds back: every connection of every group leads from one
      subsystem to a later one *)
  Definition forward_conn (subs : list (sys (F:=F))) (k : conn) : Prop :=
    k_ssub k < k_tsub k /\
    (exists s, nth_error subs (k_ssub k) = Some s /\ In (k_src k) (rows s)) /\
    (exists s, nth_error subs (k_tsub k) = Some s /\ In (k_tgt k) (outside_params s)).

  (** an operator which inverts the system's own block, for a mode *)
  Definition solves (fwd : bool) (s : sys (F:=F)) (f : bool -> (nat -> F) -> nat -> F) : Prop :=
    forall rhs z k, In k (rows s) ->
    if fwd then (forall j, In j (rows s) -> z j = f true rhs j) ->
                row_of (sys_mat None s) (over z (fun _ => F0)) k = rhs k
    else (forall j, In j (rows s) -> z j = f false rhs j) -> col_of (sys_mat None s) z (CU k) = rhs k.

  (** explicit components, finite differenced groups and groups with
      Gauss-Seidel, or user supplied solvers that solve exactly *)
  Definition explicit (us : list (uvar (F:=F))) : Prop := Forall (fun u => u_state u = false) us.
  Fixpoint feed_forward (fwd : bool) (s : sys (F:=F)) : Prop :=
    match s with
    | Comp c => match c_solve c with None => explicit (c_unks c) | Some f => solves fwd s f end
    | Indep us => True
    | FdGroup ks c => explicit (c_unks c) /\
                      (forall e, In e (comp_mat None c) -> ~ In (e_col e) (map (fun k => CP (k_tgt k)) ks))
    | Group _ (Some f) _ _ => solves fwd s f
    | Group _ None ks subs => Forall (forward_conn subs) ks /\ fold_right (fun s P => feed_forward fwd s /\ P) True subs
    end.

  (** no resid_scaler is set (or it is not used) *)
  Fixpoint unscaled (s : sys (F:=F)) : Prop :=
    match s with
    | Comp c => c_fd c = true \/ Forall (fun u => u_scale u = None) (c_unks c)
    | Indep _ => True
    | FdGroup _ c => c_fd c = true \/ Forall (fun u => u_scale u = None) (c_unks c)
    | Group _ _ _ subs => fold_right (fun s P => unscaled s /\ P) True subs
    end.

  (** the inner product over the positions of a system *)
  Definition inner (cells : list nat) (a b : nat -> F) : F := total (fun k => a k *! b k) cells.

  (** an explicit component or an IndepVarComp *)
  Definition explicit_comp (s : sys (F:=F)) : Prop :=
    match s with
    | Comp c => c_solve c = None /\ explicit (c_unks c)
    | Indep _ => True
    | _ => False
    end.

  (** where a connection starts and ends, whatever the order *)
  Definition located (subs : list (sys (F:=F))) (k : conn) : Prop :=
    k_ssub k <> k_tsub k /\
    (exists s, nth_error subs (k_ssub k) = Some s /\ In (k_src k) (rows s)) /\
    (exists s, nth_error subs (k_tsub k) = Some s /\ In (k_tgt k) (outside_params s)).

  (** du is the solution of the group's equations for the right hand side rhs, or
      dr is the solution of the adjoint equations *)
  Definition is_solution (fwd : bool) (s : sys (F:=F)) (rhs : nat -> F) (st : state (F:=F)) : Prop :=
    forall k, In k (rows s) ->
      (if fwd then row_of (sys_mat None s) (over (du st) (fun _ => F0)) k else col_of (sys_mat None s) (dr st) (CU k)) = rhs k.

  (** every variable of every component is known to the group by the
      component's own name for it (it is promoted unchanged) *)
  Fixpoint named_in (ns : list string) (s : sys (F:=F)) : Prop :=
    match s with
    | Comp c => forall u, In u (c_unks c) -> In (u_name u) ns
    | Indep us => forall u, In u us -> In (u_name u) ns
    | FdGroup _ c => forall u, In u (c_unks c) -> In (u_name u) ns
    | Group _ _ _ subs => fold_right (fun s P => named_in ns s /\ P) True subs
    end.
End Spec.

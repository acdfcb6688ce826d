(** Model of the linear operators and of the linear solvers:
    openmdao/core/system.py _sys_apply_linear 799-894, _apply_linear_jac 961-1021,
    openmdao/core/group.py _get_gs_outputs 339-365, _setup_vectors 505-517 (_do_apply),
    _sys_apply_linear 838-885, solve_linear 887-959, clear_dparams 961-978, assemble_jacobian 980-1088,
    openmdao/core/component.py solve_linear 690-723,
    openmdao/core/vec_wrapper.py _scale_derivatives 970-979, _apply_unit_derivatives 1234-1247,
    openmdao/components/indep_var_comp.py _sys_apply_linear 64-109,
    openmdao/components/linear_system.py 60-116,
    openmdao/solvers/ln_gauss_seidel.py solve 77-236, _norm 238-268,
    openmdao/solvers/solver_base.py mult 260-299,
    openmdao/solvers/ln_direct.py solve 83-138.

    Numbers are the elements of a commutative ring.  The derivative vectors du,
    dr, dp of the whole model are maps from flat positions to numbers; the
    vector of a subsystem is the view on its own positions.  One variable of
    interest, all of whose systems are relevant; rel_inputs is None; no
    pass_by_obj or remote variables.  The transfers are the entrywise copies and
    accumulations to which TransferProps (C21, C22) reduce the scatters. *)
From Verif Require Import Base.
Local Open Scope string_scope.
Local Open Scope nat_scope.

Section Lin.
  Context {F : Type} (F0 F1 : F) (fadd fmul fsub : F -> F -> F) (fopp : F -> F).
  Infix "+!" := fadd (at level 50, left associativity).
  Infix "*!" := fmul (at level 40, left associativity).
  Infix "-!" := fsub (at level 50, left associativity).

  Definition vec : Type := nat -> F.
  Record state : Type := mkS { du : vec; dr : vec; dp : vec }.

  (** a view [off, off + size) *)
  Definition inr (off size k : nat) : bool := (off <=? k) && (k <? off + size).
  Definition at_range (off size : nat) (f : nat -> F -> F) (v : vec) : vec :=
    fun k => if inr off size k then f (k - off) (v k) else v k.

  (** a parameter of a component in dparams: unit_conv[0] if it has a unit conversion *)
  Record pvar : Type := mkP { p_name : string; p_off : nat; p_size : nat; p_unit : option F }.
  (** an output or state: 1.0/resid_scaler if it has a resid_scaler *)
  Record uvar : Type := mkU { u_name : string; u_off : nat; u_size : nat; u_state : bool; u_scale : option F }.
  (** a Jacobian block, an array of shape (m_rows, m_cols) *)
  Record mat : Type := mkM { m_rows : nat; m_cols : nat; m_at : nat -> nat -> F }.

  (** a component (or, for its own vectors, a finite differenced group):
      c_fd: deriv_options['type'] is not 'user'; c_jac: _jacobian_cache;
      c_solve: an overridden solve_linear (mode, rhs) -> sol *)
  Record comp : Type := mkC {
    c_params : list pvar; c_unks : list uvar; c_fd : bool;
    c_jac : option (list (string * string * mat));
    c_solve : option (bool -> vec -> vec) }.

  Definition find_p (c : comp) (n : string) : option pvar := find (fun p => p_name p =? n)%string (c_params c).
  Definition find_u (c : comp) (n : string) : option uvar := find (fun u => u_name u =? n)%string (c_unks c).

  (** J.dot(v[off:off+size]) and J.T.dot(...): ValueError when the inner
      dimensions differ *)
  Fixpoint sumto (n : nat) (f : nat -> F) : F := match n with O => F0 | S k => sumto k f +! f k end.
  Definition jdot (J : mat) (v : vec) (off size : nat) : res (nat * (nat -> F)) :=
    if m_cols J =? size then Ok (m_rows J, fun i => sumto (m_cols J) (fun j => m_at J i j *! v (off + j))) else Err ValueError.
  Definition jtdot (J : mat) (v : vec) (off size : nat) : res (nat * (nat -> F)) :=
    if m_rows J =? size then Ok (m_cols J, fun j => sumto (m_rows J) (fun i => m_at J i j *! v (off + i))) else Err ValueError.

  (** view += array: shapes equal, or an array of one element is broadcast *)
  Definition iadd (v : vec) (off size : nat) (a : nat * (nat -> F)) : res vec :=
    if fst a =? size then Ok (at_range off size (fun i x => x +! snd a i) v)
    else if fst a =? 1 then Ok (at_range off size (fun _ x => x +! snd a 0) v)
    else Err ValueError.

  (** one pass of the loop, system.py 983-1021; a variable missing from the
      vectors (KeyError) is skipped *)
  Definition jac_term (fwd : bool) (c : comp) (s : state) (un pn : string) (J : mat) : res state :=
    match find_u c un with
    | None => Ok s
    | Some u =>
        match find (fun v => (u_name v =? pn)%string && u_state v) (c_unks c) with
        | Some x =>      (* param in states: arg_vec = dunknowns *)
            if fwd then
              let! a := jdot J (du s) (u_off x) (u_size x) in
              let! v := iadd (dr s) (u_off u) (u_size u) a in Ok (mkS (du s) v (dp s))
            else
              let! a := jtdot J (dr s) (u_off u) (u_size u) in
              let! v := iadd (du s) (u_off x) (u_size x) a in Ok (mkS v (dr s) (dp s))
        | None =>
            match find_p c pn with
            | None => Ok s
            | Some p =>
                if fwd then
                  let! a := jdot J (dp s) (p_off p) (p_size p) in
                  let! v := iadd (dr s) (u_off u) (u_size u) a in Ok (mkS (du s) v (dp s))
                else
                  let! a := jtdot J (dr s) (u_off u) (u_size u) in
                  let! v := iadd (dp s) (p_off p) (p_size p) a in Ok (mkS (du s) (dr s) v)
            end
        end
    end.

  Fixpoint jac_terms (fwd : bool) (c : comp) (l : list (string * string * mat)) (s : state) : res state :=
    match l with
    | [] => Ok s
    | (un, pn, J) :: l' => let! s' := jac_term fwd c s un pn J in jac_terms fwd c l' s'
    end.

  (** _apply_linear_jac 961-1021 *)
  Definition apply_jac (fwd : bool) (c : comp) (s : state) : res state :=
    match c_jac c with None => Err ValueError | Some l => jac_terms fwd c l s end.

  Definition times (o : option F) (x : F) : F := match o with Some a => x *! a | None => x end.

  (** _apply_unit_derivatives, _scale_derivatives (of dresids) *)
  Definition unit_derivs (c : comp) (s : state) : state :=
    mkS (du s) (dr s) (fold_left (fun v p => at_range (p_off p) (p_size p) (fun _ x => times (p_unit p) x) v) (c_params c) (dp s)).
  Definition scale_derivs (c : comp) (s : state) : state :=
    mkS (du s) (fold_left (fun v u => at_range (u_off u) (u_size u) (fun _ x => times (u_scale u) x) v) (c_unks c) (dr s)) (dp s).

  Definition zero_us (us : list uvar) (v : vec) : vec :=
    fold_left (fun v u => at_range (u_off u) (u_size u) (fun _ _ => F0) v) us v.
  Definition zero_ps (ps : list pvar) (v : vec) : vec :=
    fold_left (fun v p => at_range (p_off p) (p_size p) (fun _ _ => F0) v) ps v.

  (** gsouts is None or var in gsouts *)
  Definition listed (g : option (list string)) (n : string) : bool :=
    match g with None => true | Some l => existsb (String.eqb n) l end.

  (** tgt[var] -= src[var] for the listed non-states *)
  Definition sub_listed (g : option (list string)) (us : list uvar) (src tgt : vec) : vec :=
    fold_left (fun v u => if listed g (u_name u) && negb (u_state u)
                          then at_range (u_off u) (u_size u) (fun i x => x -! src (u_off u + i)) v else v) us tgt.

  (** _do_apply: the component has a parameter in dparams *)
  Definition do_apply (c : comp) : bool := match c_params c with [] => false | _ => true end.

  (** System._sys_apply_linear 799-894, fwd *)
  Definition comp_fwd (g : option (list string)) (c : comp) (s : state) : res state :=
    let s := mkS (du s) (zero_us (c_unks c) (dr s)) (dp s) in
    let! s := (if do_apply c then
                 if c_fd c then apply_jac true c s
                 else let! s := apply_jac true c (unit_derivs c s) in Ok (scale_derivs c s)
               else Ok s) in
    Ok (mkS (du s) (sub_listed g (c_unks c) (du s) (dr s)) (dp s)).

  (** rev *)
  Definition comp_rev (g : option (list string)) (c : comp) (s : state) : res state :=
    let s := mkS (zero_us (c_unks c) (du s)) (dr s) (zero_ps (c_params c) (dp s)) in
    let s := mkS (sub_listed g (c_unks c) (dr s) (du s)) (dr s) (dp s) in
    if do_apply c then
      if c_fd c then apply_jac false c s
      else let! s := apply_jac false c (scale_derivs c s) in Ok (unit_derivs c s)
    else Ok s.

  (** IndepVarComp._sys_apply_linear: in rev mode du is not zeroed first *)
  Definition indep_fwd (g : option (list string)) (us : list uvar) (s : state) : state :=
    mkS (du s) (sub_listed g us (du s) (zero_us us (dr s))) (dp s).
  Definition indep_rev (g : option (list string)) (us : list uvar) (s : state) : state :=
    mkS (sub_listed g us (dr s) (du s)) (dr s) (dp s).

  (** one connected entry: subsystem and position of the source, subsystem and
      position of the target *)
  Record conn : Type := mkK { k_ssub : nat; k_src : nat; k_tsub : nat; k_tgt : nat }.

  (** a system.  g_names: the promoted names of the group's unknowns;
      g_solver: None for LinearGaussSeidel with maxiter 1 (the default), else
      (mode, rhs) -> sol of another linear solver *)
  Inductive sys : Type :=
  | Comp (c : comp)
  | Indep (us : list uvar)
  | FdGroup (ks : list conn) (c : comp)
  | Group (names : list string) (solver : option (bool -> vec -> vec)) (ks : list conn) (subs : list sys).

  (** flat positions of the unknowns of a system *)
  Definition ucells (us : list uvar) : list nat := flat_map (fun u => seq (u_off u) (u_size u)) us.
  Fixpoint rows (s : sys) : list nat :=
    match s with
    | Comp c => ucells (c_unks c)
    | Indep us => ucells us
    | FdGroup _ c => ucells (c_unks c)
    | Group _ _ _ subs => flat_map rows subs
    end.

  Definition set (v : vec) (k : nat) (x : F) : vec := fun i => if i =? k then x else v i.

  (** transfers of a group, restricted to some of its connections *)
  Definition xfer_fwd (ks : list conn) (s : state) : state :=
    mkS (du s) (dr s) (fold_left (fun v k => set v (k_tgt k) (du s (k_src k))) ks (dp s)).
  Definition xfer_rev (ks : list conn) (s : state) : state :=
    mkS (fold_left (fun v k => set v (k_src k) (v (k_src k) +! dp s (k_tgt k))) ks (du s)) (dr s) (dp s).

  (** _sys_apply_linear of any system; for groups group.py 866-885 *)
  Fixpoint sys_fwd (g : option (list string)) (s : sys) (st : state) : res state :=
    match s with
    | Comp c => comp_fwd g c st
    | Indep us => Ok (indep_fwd g us st)
    | FdGroup ks c => comp_fwd g c (xfer_fwd ks st)
    | Group _ _ ks subs =>
        (fix go (l : list sys) (st : state) : res state :=
           match l with
           | [] => Ok st
           | s :: l' => let! st := sys_fwd g s st in go l' st
           end) subs (xfer_fwd ks st)
    end.

  Fixpoint sys_rev (g : option (list string)) (s : sys) (st : state) : res state :=
    match s with
    | Comp c => comp_rev g c st
    | Indep us => Ok (indep_rev g us st)
    | FdGroup ks c => let! st := comp_rev g c st in Ok (xfer_rev ks st)
    | Group _ _ ks subs =>
        let! st := (fix go (l : list sys) (st : state) : res state :=
                      match l with
                      | [] => Ok st
                      | s :: l' => let! st := sys_rev g s st in go l' st
                      end) subs st in
        Ok (xfer_rev ks st)
    end.

  Definition zero_at (cells : list nat) (v : vec) : vec := fold_left (fun v k => set v k F0) cells v.
  Definition copy_at (cells : list nat) (src tgt : vec) : vec := fold_left (fun v k => set v k (src k)) cells tgt.

  (** clear_dparams: the parameters owned by the group and by the groups in it *)
  Fixpoint clear_dparams (s : sys) (v : vec) : vec :=
    match s with
    | Comp _ | Indep _ => v
    | FdGroup ks _ => zero_at (map k_tgt ks) v
    | Group _ _ ks subs => fold_left (fun v s => clear_dparams s v) subs (zero_at (map k_tgt ks) v)
    end.

  (** MultLinearSolver.mult: the matrix vector product offered to iterative and
      direct solvers *)
  Definition mult (fwd : bool) (s : sys) (arg : vec) (st : state) : res (vec * state) :=
    if fwd then
      let st := mkS (copy_at (rows s) arg (du st)) (zero_at (rows s) (dr st)) (clear_dparams s (dp st)) in
      let! st := sys_fwd None s st in Ok (dr st, st)
    else
      let st := mkS (zero_at (rows s) (du st)) (copy_at (rows s) arg (dr st)) (clear_dparams s (dp st)) in
      let! st := sys_rev None s st in Ok (du st, st).

  (** the names in the vectors of a system *)
  Definition names (s : sys) : list string :=
    match s with
    | Comp c => map u_name (c_unks c)
    | Indep us => map u_name us
    | FdGroup _ c => map u_name (c_unks c)
    | Group ns _ _ _ => ns
    end.

  (** _get_gs_outputs *)
  Definition gs_outputs (gnames : list string) (s : sys) : list string :=
    filter (fun x => negb (existsb (String.eqb x) (names s))) gnames.

  (** Component.solve_linear: sol = -rhs *)
  Definition neg_at (cells : list nat) (src tgt : vec) : vec := fold_left (fun v k => set v k (fopp (src k))) cells tgt.
  Definition comp_solve (fwd : bool) (cells : list nat) (f : option (bool -> vec -> vec)) (st : state) : state :=
    match fwd, f with
    | true, None => mkS (neg_at cells (dr st) (du st)) (dr st) (dp st)
    | true, Some f => mkS (copy_at cells (f true (dr st)) (du st)) (dr st) (dp st)
    | false, None => mkS (du st) (neg_at cells (du st) (dr st)) (dp st)
    | false, Some f => mkS (du st) (copy_at cells (f false (du st)) (dr st)) (dp st)
    end.

  (** v *= -1; v += rhs on the group's vector *)
  Definition rhs_minus (cells : list nat) (rhs : vec) (v : vec) : vec :=
    fold_left (fun w k => set w k (fopp (v k) +! rhs k)) cells v.

  (** tiny: rhs_vec.norm() < 1e-15 *)
  Context (tiny : list F -> bool).

  (** solve_linear of any system.  The Group branch is Group.solve_linear with one
      sweep of LinearGaussSeidel.solve. *)
  Fixpoint sys_solve (fwd : bool) (s : sys) (st : state) : res state :=
    match s with
    | Comp c => Ok (comp_solve fwd (rows s) (c_solve c) st)
    | Indep us => Ok (comp_solve fwd (rows s) None st)
    | FdGroup _ c => Ok (comp_solve fwd (rows s) None st)   (* sol = -rhs, group.py 934-937 *)
    | Group ns solver ks subs =>
        let cells := rows s in
        let rhs := if fwd then dr st else du st in            (* rhs_vec.vec.copy() *)
        if tiny (map rhs cells) then
          Ok (if fwd then mkS (zero_at cells (du st)) (dr st) (dp st) else mkS (du st) (zero_at cells (dr st)) (dp st))
        else
        match solver with
        | Some f => Ok (comp_solve fwd cells (Some f) st)
        | None =>
            let st := mkS (zero_at cells (du st)) (dr st) (clear_dparams s (dp st)) in
            if fwd then
              (fix go (i : nat) (l : list sys) (st : state) : res state :=
                 match l with
                 | [] => Ok st
                 | sub :: l' =>
                     let st := xfer_fwd (filter (fun k => k_tsub k =? i) ks) st in
                     let! st := sys_fwd (Some (gs_outputs ns sub)) sub st in
                     let st := mkS (du st) (rhs_minus cells rhs (dr st)) (zero_at (map k_tgt ks) (dp st)) in
                     let! st := sys_solve true sub st in
                     go (S i) l' st
                 end) 0 subs st
            else
              (fix go (i : nat) (l : list sys) (st : state) : res state :=
                 match l with
                 | [] => Ok st
                 | sub :: l' =>
                     let! st := go (S i) l' st in
                     let st := mkS (zero_at cells (du st)) (dr st) (dp st) in
                     let st := xfer_rev (filter (fun k => k_ssub k =? i) ks) st in
                     let st := mkS (rhs_minus cells rhs (du st)) (dr st) (dp st) in
                     let! st := sys_solve false sub st in
                     sys_rev (Some (gs_outputs ns sub)) sub st
                 end) 0 subs st
        end
    end.

  (** one pass of the while loop of LinearGaussSeidel.solve, 108-199 *)
  Definition sweep (fwd : bool) (ns : list string) (ks : list conn) (subs : list sys) (rhs : vec) (st : state) : res state :=
    let cells := flat_map rows subs in
    if fwd then
      (fix go (i : nat) (l : list sys) (st : state) : res state :=
         match l with
         | [] => Ok st
         | sub :: l' =>
             let st := xfer_fwd (filter (fun k => k_tsub k =? i) ks) st in
             let! st := sys_fwd (Some (gs_outputs ns sub)) sub st in
             let st := mkS (du st) (rhs_minus cells rhs (dr st)) (zero_at (map k_tgt ks) (dp st)) in
             let! st := sys_solve true sub st in
             go (S i) l' st
         end) 0 subs st
    else
      (fix go (i : nat) (l : list sys) (st : state) : res state :=
         match l with
         | [] => Ok st
         | sub :: l' =>
             let! st := go (S i) l' st in
             let st := mkS (zero_at cells (du st)) (dr st) (dp st) in
             let st := xfer_rev (filter (fun k => k_ssub k =? i) ks) st in
             let st := mkS (rhs_minus cells rhs (du st)) (dr st) (dp st) in
             let! st := sys_solve false sub st in
             sys_rev (Some (gs_outputs ns sub)) sub st
         end) 0 subs st.

  (** _norm 238-268: the residual whose norm is tested; gs_outputs is the group's
      own vector, so the names are those of the group *)
  Definition gs_resid (fwd : bool) (ns : list string) (solver : option (bool -> vec -> vec)) (ks : list conn)
      (subs : list sys) (rhs : vec) (st : state) : res (vec * state) :=
    let s := Group ns solver ks subs in
    let! st := (if fwd then sys_fwd (Some ns) s st else sys_rev (Some ns) s st) in
    if fwd then
      let v := fold_left (fun w k => set w k (dr st k -! rhs k)) (rows s) (dr st) in Ok (v, mkS (du st) v (dp st))
    else
      let v := fold_left (fun w k => set w k (du st k -! rhs k)) (rows s) (du st) in Ok (v, mkS v (dr st) (dp st)).

  (** LinearGaussSeidel.solve with maxiter > 1: at most n further sweeps;
      small: f_norm <= atol or f_norm/f_norm0 <= rtol.  Returns the number of
      sweeps made. *)
  Context (small : list F -> bool).
  Fixpoint gs_sweeps (n : nat) (fwd : bool) (ns : list string) (ks : list conn) (subs : list sys) (rhs : vec) (st : state)
      : res (nat * state) :=
    match n with
    | O => Ok (0, st)
    | S n' =>
        let! st := sweep fwd ns ks subs rhs st in
        let! vs := gs_resid fwd ns None ks subs rhs st in
        if small (map (fst vs) (flat_map rows subs)) then Ok (1, snd vs)
        else let! r := gs_sweeps n' fwd ns ks subs rhs (snd vs) in Ok (S (fst r), snd r)
    end.
  Definition gs_solve (maxiter : nat) (fwd : bool) (ns : list string) (ks : list conn) (subs : list sys) (st : state)
      : res (nat * state) :=
    let s := Group ns None ks subs in
    let rhs := if fwd then dr st else du st in
    gs_sweeps maxiter fwd ns ks subs rhs (mkS (zero_at (rows s) (du st)) (dr st) (clear_dparams s (dp st))).
End Lin.

(** Model of the nonlinear solvers: Component.apply_nonlinear
    (core/component.py 556-611), NLGaussSeidel (solvers/nl_gauss_seidel.py),
    Newton (solvers/newton.py) with BackTracking (solvers/backtracking.py), and
    Brent (solvers/brent.py).

    Simplifications: printing and metadata are dropped (record_iteration is kept
    as a trace event); the system's own computations (children_solve_nonlinear,
    apply_nonlinear, linearize, solve_linear) are function arguments which may
    raise; vectors hold exact rationals, while norms are extended rationals with
    infinities and NaN; the two norms are function arguments.  A non-finite step
    length would put a non-finite number in the unknowns: the model stops there
    ([NonFinite]). *)
From Verif Require Import Base VecModel OptionsModel.
Local Open Scope string_scope.
Local Open Scope nat_scope.

(** ** numbers *)
(** numpy division of two floats *)
Definition fl_div (a b : fl) : fl :=
  match a, b with
  | NaN, _ | _, NaN => NaN
  | Fin x, Fin y => fdiv x y
  | Fin _, _ => Fin 0
  | PInf, Fin y => if Qle_bool 0 y then PInf else MInf
  | MInf, Fin y => if Qle_bool 0 y then MInf else PInf
  | _, _ => NaN
  end.
(** a > b *)
Definition f_gt (a b : fl) : bool := f_lt b a.
Definition is_nan (f : fl) : bool := match f with NaN => true | _ => false end.

Fixpoint vzip {A B C} (f : A -> B -> C) (a : list A) (b : list B) : list C :=
  match a, b with x :: a', y :: b' => f x y :: vzip f a' b' | _, _ => [] end.
Definition vsub := vzip Qminus.

(** a call into the system: the new state, and the exception if one was raised *)
Definition call (S : Type) : Type := (S * option pyerr)%type.

(** ** Component.apply_nonlinear, component.py 579-591 *)
Section Explicit.
  (** [solve] is _sys_solve_nonlinear: parameters and unknowns to new unknowns
      (those in the vector, and those passed by object) *)
  Context {F O : Type} (fadd fsub : F -> F -> F) (fopp : F -> F).
  Record cstate : Type := mkC { c_u : list F; c_obj : list O; c_r : list F }.
  Definition apply_nonlinear (solve : cstate -> call cstate) (s : cstate) : call cstate :=
    let s := mkC (c_u s) (c_obj s) (map fopp (c_u s)) in            (* resids = -unknowns *)
    match solve s with
    | (s, Some e) => (s, Some e)
    | (s, None) =>
        let s := mkC (c_u s) (c_obj s) (vzip fadd (c_r s) (c_u s)) in  (* resids += unknowns *)
        (mkC (vzip fsub (c_u s) (c_r s)) (c_obj s) (c_r s), None)      (* unknowns -= resids *)
    end.
End Explicit.

(** ** NLGaussSeidel.solve, nl_gauss_seidel.py 77-212 *)
Section Solvers.
  Context {S : Type}.
  (** the system as the solvers see it *)
  Record system : Type := mkSys {
    children : S -> call S;                (* children_solve_nonlinear *)
    apply_nl : S -> call S;                (* apply_nonlinear *)
    get_u : S -> list Q;                   (* unknowns.vec *)
    set_u : S -> list Q -> S;              (* unknowns.vec[:] = ... *)
    rnorm : S -> fl;                       (* resids.norm() *)
    vnorm : list Q -> fl }.                (* np.linalg.norm *)

  Record gsopts : Type := mkG {
    g_atol : Q; g_rtol : Q; g_utol : Q; g_maxiter : nat; g_err : bool;
    g_aitken : bool; g_amin : Q; g_amax : Q }.

  (** attributes of the solver which survive a solve: delta_u_n_1 and
      aitken_alpha *)
  Record aitken : Type := mkA { a_delta : option (list Q); a_alpha : Q }.

  Inductive ending : Type :=
  | Quiet                                  (* return without any report *)
  | Reported (fail : bool)
  | Raised (e : pyerr)
  | NonFinite
  | OutOfFuel.

  (** what is observed: one entry per completed iteration (residual norm, norm
      of the change), the number of calls of children_solve_nonlinear, the
      recorded iteration numbers *)
  Record gsrun : Type := mkR {
    r_st : S; r_mem : aitken; r_iter : nat; r_hist : list (fl * fl);
    r_solves : nat; r_recs : list nat }.

  Definition dotq (a b : list Q) : Q := fold_right Qplus 0%Q (vzip Qmult a b).
  (** Python's min and max of two numbers *)
  Definition py_min (a b : fl) : fl := if f_lt b a then b else a.
  Definition py_max (a b : fl) : fl := if f_lt a b then b else a.

  (** the Aitken branch, 150-185; the relaxation factor is finite after the
      limits are applied *)
  Definition relax (sys : system) (o : gsopts) (going : bool) (cache : list Q) (m : aitken) (s : S) : aitken * S :=
    match a_delta m with
    | Some prev =>
        if going then
          let delta := vsub (get_u sys s) cache in
          let dd := vsub delta prev in
          let q := fl_div (Fin (dotq dd delta)) (Fin (dotq dd dd)) in
          let raw := match q with
                     | Fin x => Fin (a_alpha m * (1 - x))%Q
                     | _ => NaN                       (* 0/0: dd is zero *)
                     end in
          let lim := py_max (Fin (g_amin o)) (py_min (Fin (g_amax o)) raw) in
          let al := match lim with Fin x => x | _ => a_alpha m end in
          (mkA (Some delta) al, set_u sys s (vzip Qplus cache (map (Qmult al) delta)))
        else (m, s)
    | None => (mkA (Some (vsub (get_u sys s) cache)) (a_alpha m), s)
    end.

  (** the loop condition, 129-132 *)
  Definition going (o : gsopts) (base nrm un : fl) : bool :=
    f_gt nrm (Fin (g_atol o)) && f_gt (fl_div nrm base) (Fin (g_rtol o)) && f_gt un (Fin (g_utol o)).

  Definition huge : fl := Fin (inject_Z (10 ^ 99)).

  (** the loop, 129-191 *)
  Fixpoint gs_loop (fuel : nat) (sys : system) (o : gsopts) (base nrm un : fl) (r : gsrun) : gsrun * ending :=
    match fuel with
    | 0 => (r, OutOfFuel)
    | Datatypes.S fuel' =>
        if (r_iter r <? g_maxiter o) && going o base nrm un then
          let it := r_iter r + 1 in
          let cache := get_u sys (r_st r) in
          match children sys (r_st r) with
          | (s, Some e) => (mkR s (r_mem r) it (r_hist r) (r_solves r + 1) (r_recs r), Raised e)
          | (s, None) =>
              let recs := (r_recs r ++ [it])%list in
              match apply_nl sys s with
              | (s, Some e) => (mkR s (r_mem r) it (r_hist r) (r_solves r + 1) recs, Raised e)
              | (s, None) =>
                  let nrm' := rnorm sys s in
                  let un' := vnorm sys (vsub (get_u sys s) cache) in
                  let '(m, s) := if g_aitken o then relax sys o (going o base nrm' un') cache (r_mem r) s
                                 else (r_mem r, s) in
                  gs_loop fuel' sys o base nrm' un'
                    (mkR s m it (r_hist r ++ [(nrm', un')]) (r_solves r + 1) recs)
              end
          end
        else
          (* 198-212 *)
          let fail := (g_maxiter o <=? r_iter r) || is_nan nrm in
          (r, if fail && g_err o then Raised AnalysisError else Reported fail)
    end.

  Definition nlgs (sys : system) (o : gsopts) (m : aitken) (s : S) : gsrun * ending :=
    let r0 := mkR s m 1 [] 0 [] in
    match children sys s with
    | (s, Some e) => (mkR s m 1 [] 1 [], Raised e)
    | (s, None) =>
        if g_maxiter o =? 1 then (mkR s m 1 [] 1 [1], Quiet)
        else
          match apply_nl sys s with
          | (s, Some e) => (mkR s m 1 [] 1 [1], Raised e)
          | (s, None) =>
              let nrm := rnorm sys s in
              let base := if f_gt nrm (Fin (g_atol o)) then nrm else Fin 1 in
              gs_loop (Datatypes.S (g_maxiter o)) sys o base nrm huge (mkR s m 1 [(nrm, huge)] 1 [1])
          end
    end.

  (** ** Newton.solve, newton.py 136-270, with BackTracking.solve,
      backtracking.py 95-167 *)
  (** a variable of the unknowns vector: metadata keys, dimensions, bounds, size *)
  Record nvar : Type := mkNV {
    n_remote : bool; n_pbo : bool; n_ndim : nat; n_upper : option (list Q); n_lower : option (list Q); n_size : nat }.
  Fixpoint attach (vars : list nvar) (val du : list Q) : list dvar :=
    match vars with
    | [] => []
    | v :: rest =>
        mkD (n_remote v) (n_pbo v) (n_ndim v) (n_upper v) (n_lower v) (firstn (n_size v) val) (firstn (n_size v) du)
        :: attach rest (skipn (n_size v) val) (skipn (n_size v) du)
    end.

  Record nsystem : Type := mkNS {
    n_sys : system;
    n_vars : list nvar;
    linearize : S -> call S;               (* _sys_linearize *)
    direction : S -> call S;               (* solve_linear with right hand side -resids *)
    get_du : S -> list Q }.                (* dumat[None].vec *)

  Record lsopts : Type := mkLS { l_maxiter : nat; l_sub : bool; l_rho : Q; l_c : Q; l_err : bool }.
  Record nopts : Type := mkN {
    n_atol : Q; n_rtol : Q; n_utol : Q; n_maxiter : nat; n_err : bool; n_alpha : Q; n_sub : bool;
    n_ls : option lsopts }.

  (** unknowns.vec += alpha*result.vec; None when a step is not finite *)
  Fixpoint add_step (u : list Q) (alpha : list fl) (du : list Q) : option (list Q) :=
    match u, alpha, du with
    | x :: u', Fin a :: al', d :: du' =>
        match add_step u' al' du' with Some r => Some ((x + a * d)%Q :: r) | None => None end
    | [], _, _ => Some []
    | _, _, _ => None
    end.

  (** [v_pts]: every vector of unknowns put in place by a step *)
  Record nrun : Type := mkNR {
    v_st : S; v_iter : nat; v_ls : list nat; v_hist : list (fl * fl); v_pts : list (list Q) }.

  Definition step_to (ns : nsystem) (s : S) (a : Q) : res (option (list Q)) :=
    let u := get_u (n_sys ns) s in
    let du := get_du ns s in
    let! alpha := limit_all (attach (n_vars ns) u du) (map (fun _ => Fin a) u) in
    Ok (add_step u alpha du).

  (** evaluation of the new point, newton.py 219-221, backtracking.py 129-131 *)
  Definition evaluate (sys : system) (sub : bool) (s : S) : call S :=
    match (if sub then children sys s else (s, None)) with
    | (s, Some e) => (s, Some e)
    | (s, None) => apply_nl sys s
    end.

  Inductive ls_end : Type := LsOk (fnorm : fl) | LsRaised (e : pyerr) | LsNonFinite | LsFuel.

  (** BackTracking.solve; products and sums of norms of finite numbers are exact,
      base_norm and fnorm may be infinite or NaN: (base - fnorm) < c*a*base is
      false when a NaN appears *)
  Definition fl_sub (a b : fl) : fl :=
    match a, b with
    | NaN, _ | _, NaN => NaN
    | Fin x, Fin y => Fin (x - y)
    | PInf, PInf | MInf, MInf => NaN
    | PInf, _ | _, MInf => PInf
    | MInf, _ | _, PInf => MInf
    end.
  Definition fl_scale (q : Q) (a : fl) : fl :=
    match a with
    | Fin x => Fin (q * x)
    | NaN => NaN
    | PInf => if Qeq_bool q 0 then NaN else if Qle_bool 0 q then PInf else MInf
    | MInf => if Qeq_bool q 0 then NaN else if Qle_bool 0 q then MInf else PInf
    end.
  Fixpoint ls_loop (fuel : nat) (ns : nsystem) (l : lsopts) (base_u : list Q) (base_norm : fl)
      (it : nat) (a : Q) (fnorm : fl) (s : S) (pts : list (list Q)) : S * list (list Q) * nat * ls_end :=
    match fuel with
    | 0 => (s, pts, it, LsFuel)
    | Datatypes.S fuel' =>
        if (it <? l_maxiter l) && f_lt (fl_sub base_norm fnorm) (fl_scale (l_c l * a) base_norm) then
          let a := (a * l_rho l)%Q in
          let s := set_u (n_sys ns) s base_u in
          match step_to ns s a with
          | Err e => (s, pts, it, LsRaised e)
          | Ok None => (s, pts, it, LsNonFinite)
          | Ok (Some u) =>
              let s := set_u (n_sys ns) s u in
              let pts := (pts ++ [u])%list in
              match evaluate (n_sys ns) (l_sub l) s with
              | (s, Some e) => (s, pts, it + 1, LsRaised e)
              | (s, None) => ls_loop fuel' ns l base_u base_norm (it + 1) a (rnorm (n_sys ns) s) s pts
              end
          end
        else if ((l_maxiter l <=? it) || is_nan fnorm) && l_err l then (s, pts, it, LsRaised AnalysisError)
        else (s, pts, it, LsOk fnorm)
    end.

  (** newton.py 179-180 *)
  Definition n_going (o : nopts) (base nrm un : fl) : bool :=
    f_gt nrm (Fin (n_atol o)) && f_gt (fl_div nrm base) (Fin (n_rtol o)) && f_gt un (Fin (n_utol o)).

  Fixpoint n_loop (fuel : nat) (ns : nsystem) (o : nopts) (base nrm un : fl) (r : nrun) : nrun * (fl * option ending) :=
    match fuel with
    | 0 => (r, (nrm, Some OutOfFuel))
    | Datatypes.S fuel' =>
        if (v_iter r <? n_maxiter o) && n_going o base nrm un then
          match linearize ns (v_st r) with
          | (s, Some e) => (mkNR s (v_iter r) (v_ls r) (v_hist r) (v_pts r), (nrm, Some (Raised e)))
          | (s, None) =>
              match direction ns s with
              | (s, Some e) => (mkNR s (v_iter r) (v_ls r) (v_hist r) (v_pts r), (nrm, Some (Raised e)))
              | (s, None) =>
                  let it := v_iter r + 1 in
                  let base_u := get_u (n_sys ns) s in
                  match step_to ns s (n_alpha o) with
                  | Err e => (mkNR s it (v_ls r) (v_hist r) (v_pts r), (nrm, Some (Raised e)))
                  | Ok None => (mkNR s it (v_ls r) (v_hist r) (v_pts r), (nrm, Some NonFinite))
                  | Ok (Some u) =>
                      let s := set_u (n_sys ns) s u in
                      let pts := (v_pts r ++ [u])%list in
                      match evaluate (n_sys ns) (n_sub o) s with
                      | (s, Some e) => (mkNR s it (v_ls r) (v_hist r) pts, (nrm, Some (Raised e)))
                      | (s, None) =>
                          let f := rnorm (n_sys ns) s in
                          let un' := vnorm (n_sys ns) (vsub (get_u (n_sys ns) s) base_u) in
                          match n_ls o with
                          | None => n_loop fuel' ns o base f un' (mkNR s it (v_ls r) (v_hist r ++ [(f, un')]) pts)
                          | Some l =>
                              let '(s, pts, k, e) := ls_loop (Datatypes.S (l_maxiter l)) ns l base_u nrm 0 (n_alpha o) f s pts in
                              match e with
                              | LsOk f' => n_loop fuel' ns o base f' un' (mkNR s it (v_ls r ++ [k]) (v_hist r ++ [(f', un')]) pts)
                              | LsRaised e => (mkNR s it (v_ls r ++ [k]) (v_hist r) pts, (nrm, Some (Raised e)))
                              | LsNonFinite => (mkNR s it (v_ls r ++ [k]) (v_hist r) pts, (nrm, Some NonFinite))
                              | LsFuel => (mkNR s it (v_ls r ++ [k]) (v_hist r) pts, (nrm, Some OutOfFuel))
                              end
                          end
                      end
                  end
              end
          end
        else (r, (nrm, None))
    end.

  (** Newton.solve; [d] is system.deriv_options.  Lines 175-178 change it before
      the loop, 250-252 change it back after the loop; nothing does when an
      exception passes. *)
  Definition unlock (d : dict) (b : bool) : dict := mkDict (d_kind d) (d_options d) (d_deprecations d) (Some b).
  Definition newton (ns : nsystem) (o : nopts) (d : dict) (s : S) : nrun * dict * ending :=
    let r0 := mkNR s 0 [] [] [] in
    match children (n_sys ns) s with
    | (s, Some e) => (mkNR s 0 [] [] [], d, Raised e)
    | (s, None) =>
        match apply_nl (n_sys ns) s with
        | (s, Some e) => (mkNR s 0 [] [] [], d, Raised e)
        | (s, None) =>
            let f := rnorm (n_sys ns) s in
            let r := mkNR s 0 [] [(f, huge)] [] in
            match getitem d "type" with
            | Err e => (r, d, Raised e)
            | Ok save =>
                let d1 := unlock d false in
                match setitem false d1 "type" (VStr "user") with
                | (d2, Err e) => (r, d2, Raised e)
                | (d2, Ok _) =>
                    match n_loop (Datatypes.S (n_maxiter o)) ns o f f huge r with
                    | (r, (_, Some e)) => (r, d2, e)
                    | (r, (nrm, None)) =>
                        match setitem false d2 "type" save with
                        | (d3, Err e) => (r, d3, Raised e)
                        | (d3, Ok _) =>
                            let d4 := unlock d3 true in
                            let fail := (n_maxiter o <=? v_iter r) || is_nan nrm in
                            (r, d4, if fail && n_err o then Raised AnalysisError else Reported fail)
                        end
                    end
                end
            end
        end
    end.

  (** ** Brent.solve and _eval, brent.py 124-223 *)
  (** scipy.optimize.brentq is a strategy: it evaluates points and, from the
      values returned so far, either evaluates another point, returns a root, or
      raises *)
  Inductive strategy : Type :=
  | BReturn (root : Q)
  | BRaise (e : pyerr) (signs : bool)          (* signs: 'different signs' in the message *)
  | BEval (x : Q) (next : Q -> strategy).

  Record bsystem : Type := mkB {
    b_sys : system;
    put : S -> Q -> S;                          (* unknowns[state_var].val[idx] = x *)
    peek : S -> Q;                              (* unknowns[state_var].val[idx] *)
    resid : S -> Q }.                           (* resids[state_var].val[idx] *)

  (** brentq(self._eval); [pts] are the points evaluated *)
  Fixpoint brentq (bs : bsystem) (t : strategy) (s : S) (pts : list Q) : S * list Q * (res (Q + bool)) :=
    match t with
    | BReturn r => (s, pts, Ok (inl r))
    | BRaise e signs =>
        (s, pts, match e with
                 | RuntimeError => if signs then Err RuntimeError else Ok (inr true)
                 | e => Err e
                 end)
    | BEval x next =>
        let s := put bs s x in
        match children (b_sys bs) s with
        | (s, Some e) =>
            (* an exception of the model passes through brentq; RuntimeError is
               caught by solve (187-191) unless its message mentions signs *)
            (s, pts ++ [x], match e with RuntimeError => Ok (inr true) | e => Err e end)%list
        | (s, None) =>
            match apply_nl (b_sys bs) s with
            | (s, Some e) => (s, pts ++ [x], match e with RuntimeError => Ok (inr true) | e => Err e end)%list
            | (s, None) => brentq bs (next (resid bs s)) s (pts ++ [x])%list
            end
        end
    end.

  Inductive bend : Type := BFound (root : Q) | BFailed | BRaised (e : pyerr).
  Definition brent (bs : bsystem) (err_on_maxiter : bool) (t : strategy) (s : S) : S * list Q * bend :=
    match children (b_sys bs) s with
    | (s, Some e) => (s, [], BRaised e)
    | (s, None) =>
        match apply_nl (b_sys bs) s with
        | (s, Some e) => (s, [], BRaised e)
        | (s, None) =>
            match brentq bs t s [] with
            | (s, pts, Err e) => (s, pts, BRaised e)
            | (s, pts, Ok (inl root)) => (s, pts, BFound root)
            | (s, pts, Ok (inr _)) => (s, pts, if err_on_maxiter then BRaised AnalysisError else BFailed)
            end
        end
    end.
End Solvers.
Arguments system : clear implicits.
Arguments nsystem : clear implicits.
Arguments bsystem : clear implicits.
Arguments cstate : clear implicits.

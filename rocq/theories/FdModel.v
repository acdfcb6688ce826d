(** Model of finite difference and complex step:
    openmdao/core/system.py fd_jacobian 488-797,
    openmdao/core/component.py apply_nonlinear 554-591, complex_step_jacobian 815-949,
    openmdao/core/vec_wrapper_complex_step.py,
    openmdao/components/exec_comp.py linearize 215-284, _TmpDict 287-328,
    openmdao/core/parallel_fd_group.py 65-115.

    Numbers are the elements of a field F (exact arithmetic).  Not modelled:
    variables absent from this process (the p_size == 0 branch and
    get_combined_jac). *)
From Verif Require Import Base TransferModel.
Local Open Scope nat_scope.

Section Fd.
  Context {F : Type} (F0 F1 : F) (fadd fmul fsub : F -> F -> F) (fopp finv : F -> F) (flt : F -> F -> bool).
  Infix "+!" := fadd (at level 50, left associativity).
  Infix "*!" := fmul (at level 40, left associativity).
  Infix "-!" := fsub (at level 50, left associativity).

  (** the three vectors of a system *)
  Record st : Type := mkSt { s_p : list F; s_u : list F; s_r : list F }.
  Inductive place : Type := InP | InU.

  Definition read (w : place) (i : nat) (s : st) : F :=
    match w with InP => nth i (s_p s) F0 | InU => nth i (s_u s) F0 end.

  Fixpoint add_at (i : nat) (d : F) (l : list F) : list F :=
    match l, i with
    | [], _ => []
    | x :: l', O => (x +! d) :: l'
    | x :: l', S i' => x :: add_at i' d l'
    end.

  (** target_input[idx] += d *)
  Definition bump (w : place) (i : nat) (d : F) (s : st) : st :=
    match w with
    | InP => mkSt (add_at i d (s_p s)) (s_u s) (s_r s)
    | InU => mkSt (s_p s) (add_at i d (s_u s)) (s_r s)
    end.

  (** resultvec: the unknowns for total derivatives, else the residuals *)
  Definition res_of (total : bool) (s : st) : list F := if total then s_u s else s_r s.
  Definition set_res (total : bool) (s : st) (v : list F) : st :=
    if total then mkSt (s_p s) v (s_r s) else mkSt (s_p s) (s_u s) v.

  Fixpoint zip (f : F -> F -> F) (a b : list F) : list F :=
    match a, b with x :: a', y :: b' => f x y :: zip f a' b' | _, _ => [] end.

  Inductive form : Type := Forward | Backward | Central.

  (** one perturbation, system.py 698-752 (type 'fd'); [run] is run_model *)
  Definition difference (total : bool) (run : st -> st) (fm : form) (w : place) (i : nat) (step : F)
      (cache1 : list F) (s : st) : st :=
    match fm with
    | Forward =>
        let s := bump w i step s in
        let s := run s in
        let s := bump w i (fopp step) s in
        let s := set_res total s (zip fsub (res_of total s) cache1) in
        set_res total s (map (fun x => x *! finv step) (res_of total s))
    | Backward =>
        let s := bump w i (fopp step) s in
        let s := run s in
        let s := bump w i step s in
        let s := set_res total s (zip fsub (res_of total s) cache1) in
        set_res total s (map (fun x => x *! fopp (finv step)) (res_of total s))
    | Central =>
        let s := bump w i step s in
        let s := run s in
        let cache2 := res_of total s in
        let s := bump w i (fopp step) s in
        let s := set_res total s cache1 in
        let s := bump w i (fopp step) s in
        let s := run s in
        let s := set_res total s (zip fsub (res_of total s) cache2) in
        let s := set_res total s (map (fun x => x *! fopp (finv (F1 +! F1) *! finv step)) (res_of total s)) in
        bump w i step s
    end.

  (** a parameter (or state) to step: its name, the promoted name of its source
      if it is connected to one in this system, where it is stored, the indices
      stepped, and its settings *)
  Record fparam : Type := mkFP {
    f_name : string; f_src : option string; f_where : place; f_start : nat; f_idxs : list nat;
    f_step : F; f_relative : bool; f_form : form }.
  (** an output: its position and the entries asked for (qoi_indices or all) *)
  Record fout : Type := mkFO { o_name : string; o_start : nat; o_rows : list nat }.
  (** an unknown which is itself a stepped variable *)
  Record fpass : Type := mkPass { q_name : string; q_size : nat; q_idxs : option (list nat) }.

  (** system.py 690-696 *)
  Definition step_of (f : fparam) (x : F) : F :=
    if f_relative f
    then let t := x *! f_step f in if flt t (f_step f) then f_step f else t
    else f_step f.

  (** a matrix is the list of its columns *)
  Definition jac : Type := list ((string * string) * list (list F)).
  Definition cols : Type := list ((string * string * nat) * list F).
  Definition key2_eqb (a b : string * string) : bool := (String.eqb (fst a) (fst b) && String.eqb (snd a) (snd b))%bool.
  Definition key3_eqb (a b : string * string * nat) : bool := (key2_eqb (fst a) (fst b) && Nat.eqb (snd a) (snd b))%bool.

  Definition set_col (J : jac) (u p : string) (col : nat) (v : list F) : jac :=
    match dget key2_eqb J (u, p) with
    | None => J
    | Some m => dset key2_eqb J (u, p) (set_nth m col v)
    end.

  (** allocation, 665-671 *)
  Definition alloc (f : fparam) (outs : list fout) (passes : list fpass) (J : jac) : jac :=
    let J := fold_left (fun J o => dset key2_eqb J (o_name o, f_name f)
                                       (repeat (repeat F0 (length (o_rows o))) (length (f_idxs f)))) outs J in
    fold_left (fun J q => dset key2_eqb J (q_name q, f_name f)
                 (repeat (repeat F0 (match q_idxs q with Some l => length l | None => q_size q end)) (length (f_idxs f))))
      passes J.

  Definition picked (o : fout) (v : list F) : list F := map (fun t => nth (o_start o + t) v F0) (o_rows o).

  (** list.index *)
  Fixpoint index_of (i : nat) (l : list nat) : option nat :=
    match l with
    | [] => None
    | x :: l' => if Nat.eqb i x then Some 0 else option_map S (index_of i l')
    end.

  (** an unknown that is a parameter, 768-777 *)
  Definition pass_one (f : fparam) (col idx : nat) (J : jac) (q : fpass) : jac :=
    if (match f_src f with Some s => String.eqb (q_name q) s | None => false end) then
      match q_idxs q with
      | Some l => match index_of idx l with
                  | None => J
                  | Some row => match dget key2_eqb J (q_name q, f_name f) with
                                | None => J
                                | Some m => match nth_error m col with
                                            | None => J
                                            | Some c => dset key2_eqb J (q_name q, f_name f) (set_nth m col (set_nth c row F1))
                                            end
                                end
                  end
      | None => dset key2_eqb J (q_name q, f_name f) [[F1]]
      end
    else J.

  Record loop : Type := mkL { l_st : st; l_count : nat; l_jac : jac; l_cols : cols }.

  (** the loop over the indices of a parameter, 680-780 *)
  Fixpoint fd_idxs (total : bool) (run : st -> st) (num id : nat) (cache1 : list F) (outs : list fout) (passes : list fpass)
      (f : fparam) (col : nat) (idxs : list nat) (L : loop) : loop :=
    match idxs with
    | [] => L
    | idx :: rest =>
        let L' :=
          if Nat.eqb (l_count L mod num) id then
            let i := f_start f + idx in
            let step := step_of f (read (f_where f) i (l_st L)) in
            let s := difference total run (f_form f) (f_where f) i step cache1 (l_st L) in
            let v := res_of total s in
            let J := fold_left (fun J o => set_col J (o_name o) (f_name f) col (picked o v)) outs (l_jac L) in
            let C := if Nat.ltb 1 num
                     then fold_left (fun C o => dset key3_eqb C (o_name o, f_name f, col) (picked o v)) outs (l_cols L)
                     else l_cols L in
            let J := fold_left (pass_one f col idx) passes J in
            mkL (set_res total s cache1) (S (l_count L)) J C
          else mkL (l_st L) (S (l_count L)) (l_jac L) (l_cols L) in
        fd_idxs total run num id cache1 outs passes f (S col) rest L'
    end.

  (** the loop over the parameters, 619-780 *)
  Definition fd_param (total : bool) (run : st -> st) (num id : nat) (cache1 : list F) (outs : list fout) (passes : list fpass)
      (L : loop) (f : fparam) : loop :=
    fd_idxs total run num id cache1 outs passes f 0 (f_idxs f)
      (mkL (l_st L) (l_count L) (alloc f outs passes (l_jac L)) (l_cols L)).

  Definition fd_local (total : bool) (run : st -> st) (num id : nat) (outs : list fout) (passes : list fpass)
      (params : list fparam) (s : st) : loop :=
    fold_left (fd_param total run num id (res_of total s) outs passes) params (mkL s 0 [] []).

  (** merging the columns of the other ranks, 782-794 *)
  Definition merge_one (JC : jac * cols) (kv : (string * string * nat) * list F) : jac * cols :=
    let '(J, C) := JC in
    let '((u, p, col), v) := kv in
    match dget key3_eqb C (u, p, col) with
    | Some _ => (J, C)
    | None => (set_col J u p col v, dset key3_eqb C (u, p, col) v)
    end.
  Fixpoint merge_ranks (me rank : nat) (all : list cols) (JC : jac * cols) : jac * cols :=
    match all with
    | [] => JC
    | c :: rest =>
        merge_ranks me (S rank) rest (if Nat.eqb rank me then JC else fold_left merge_one c JC)
    end.

  (** fd_jacobian on every rank of the full communicator; [ids] are their parallel
      FD ids *)
  Definition fd_parallel (total : bool) (run : st -> st) (num : nat) (ids : list nat) (outs : list fout) (passes : list fpass)
      (params : list fparam) (s : st) (me : nat) : jac :=
    let locals := map (fun id => fd_local total run num id outs passes params s) ids in
    match nth_error locals me with
    | None => []
    | Some L => fst (merge_ranks me 0 (map l_cols locals) (l_jac L, l_cols L))
    end.

  (** serial fd_jacobian: num_par_fds = 1 *)
  Definition fd_serial (total : bool) (run : st -> st) (outs : list fout) (passes : list fpass)
      (params : list fparam) (s : st) : jac * st :=
    let L := fd_local total run 1 0 outs passes params s in (l_jac L, l_st L).

  (** ParallelFDGroup._setup_communicators, parallel_fd_group.py 77-100: the
      parallel FD id of every rank of a communicator of the given size *)
  Definition fd_ids (num size : Z) : res (list nat) :=
    if (num <? 1)%Z then Err ValueError
    else let! (sizes, _) := evenly_distrib_idxs num size in
         Ok (concat (map (fun k => repeat k (Z.to_nat (nth k sizes 0%Z))) (seq 0 (Z.to_nat num)))).

  (** Component.apply_nonlinear, component.py 579-591, for an explicit component
      whose solve_nonlinear computes [f] of the parameters *)
  Definition comp_apply (f : list F -> list F) (s : st) : st :=
    let s := mkSt (s_p s) (s_u s) (map fopp (s_u s)) in
    let s := mkSt (s_p s) (f (s_p s)) (s_r s) in
    let s := mkSt (s_p s) (s_u s) (zip fadd (s_r s) (s_u s)) in
    mkSt (s_p s) (zip fsub (s_u s) (s_r s)) (s_r s).

  (** A group of one independent variable block and one component, solved: the
      transfer fills the component's parameters from the unknowns [0, n), the
      component writes the unknowns [n, ...) (group.py _transfer_data 1607-1635,
      children_solve_nonlinear 741-780). *)
  Definition group_solve (n : nat) (f : list F -> list F) (s : st) : st :=
    let p := firstn n (s_u s) in
    mkSt p (firstn n (s_u s) ++ f p) (s_r s).

  (** ** complex step *)
  Definition cx : Type := (F * F)%type.
  Definition cx_of (x : F) : cx := (x, F0).
  Definition cadd (a b : cx) : cx := (fst a +! fst b, snd a +! snd b).
  Definition cmul (a b : cx) : cx := (fst a *! fst b -! snd a *! snd b, fst a *! snd b +! snd a *! fst b).

  Fixpoint cadd_at (i : nat) (d : cx) (l : list cx) : list cx :=
    match l, i with
    | [], _ => []
    | x :: l', O => cadd x d :: l'
    | x :: l', S i' => x :: cadd_at i' d l'
    end.

  (** component.complex_step_jacobian for a component without states and one
      stepped parameter variable (its complex copy is step_val; the other
      parameters stay real): [f] is solve_nonlinear on complex numbers.  The real
      vectors csunknowns.vec and csresids.vec are those of the component:
      apply_nonlinear writes resids := -u, then += u, and u -= resids. *)
  Fixpoint cs_loop (f : list cx -> list cx) (before after : list cx) (h : F) (step_val : list cx) (j : nat) (fuel : nat)
      (s : st) (columns : list (list F)) : st * list cx * list (list F) :=
    match fuel with
    | O => (s, step_val, columns)
    | S fuel' =>
        let stepped := cadd_at j (F0, h) step_val in
        let out := f (before ++ stepped ++ after) in
        let r := zip fadd (map fopp (s_u s)) (s_u s) in
        let s' := mkSt (s_p s) (zip fsub (s_u s) r) r in
        let back := cadd_at j (F0, fopp h) stepped in
        cs_loop f before after h back (S j) fuel' s' (columns ++ [map (fun z => snd z *! finv h) out])
    end.

  (** the Jacobian block of the variable at positions [a, a+n) of the parameters *)
  Definition complex_step (f : list cx -> list cx) (a n : nat) (h : F) (s : st) : st * list (list F) :=
    let ps := map cx_of (s_p s) in
    let '(s', _, m) := cs_loop f (firstn a ps) (skipn (a + n) ps) h (firstn n (skipn a ps)) 0 n s [] in
    (s', m).

  (** ** ExecComp *)
  (** an expression over entries of variables; an assignment gives every entry of
      its left hand side (numpy evaluates element by element) *)
  Inductive sexpr : Type :=
  | SC (c : F) | SV (name : string) (i : nat) | SAdd (a b : sexpr) | SMul (a b : sexpr) | SNeg (a : sexpr).
  Definition assignment : Type := (string * list sexpr)%type.

  (** evaluation in complex arithmetic; None: NameError or IndexError *)
  Fixpoint ceval_s (env : string -> option (list cx)) (e : sexpr) : option cx :=
    match e with
    | SC c => Some (cx_of c)
    | SV n i => match env n with Some l => nth_error l i | None => None end
    | SAdd a b => match ceval_s env a, ceval_s env b with Some x, Some y => Some (cadd x y) | _, _ => None end
    | SMul a b => match ceval_s env a, ceval_s env b with Some x, Some y => Some (cmul x y) | _, _ => None end
    | SNeg a => match ceval_s env a with Some x => Some (fopp (fst x), fopp (snd x)) | None => None end
    end.
  Fixpoint all_some {X} (l : list (option X)) : option (list X) :=
    match l with
    | [] => Some []
    | Some x :: l' => match all_some l' with Some r => Some (x :: r) | None => None end
    | None :: _ => None
    end.

  (** _TmpDict over real values (287-328): changed entries first, then the inner
      values, made complex *)
  Definition tmp_get (changed : list (string * list cx)) (inner : list (string * list F)) (n : string) : option (list cx) :=
    match sget changed n with
    | Some v => Some v
    | None => option_map (map cx_of) (sget inner n)
    end.

  (** _UPDict lookup (331-380): unknowns, then params *)
  Definition up_get (uch : list (string * list cx)) (unknowns : list (string * list F))
      (pch : list (string * list cx)) (params : list (string * list F)) (n : string) : option (list cx) :=
    match tmp_get uch unknowns n with Some v => Some v | None => tmp_get pch params n end.

  (** solve_nonlinear on the wrapped dictionaries: the assignments in order *)
  Fixpoint exec_all (unknowns params : list (string * list F)) (pch : list (string * list cx))
      (code : list assignment) (uch : list (string * list cx)) : option (list (string * list cx)) :=
    match code with
    | [] => Some uch
    | (y, es) :: rest =>
        match all_some (map (ceval_s (up_get uch unknowns pch params)) es) with
        | None => None
        | Some v => exec_all unknowns params pch rest (sset uch y v)
        end
    end.

  (** one column of linearize (215-284): step entry [i] of parameter [p]; gives
      J[(u, p)][:, i] for every unknown *)
  Definition exec_column (unknowns params : list (string * list F)) (code : list assignment) (h : F) (p : string) (i : nat)
    : option (list (string * list F)) :=
    match sget params p with
    | None => None
    | Some pv =>
        let pch := [(p, cadd_at i (F0, h) (map cx_of pv))] in
        match exec_all unknowns params pch code [] with
        | None => None
        | Some uch => all_some (map (fun u => option_map (fun v => (u, map (fun z => snd z *! finv h) v)) (tmp_get uch unknowns u)) (map fst unknowns))
        end
    end.
End Fd.
Arguments form : clear implicits.
Arguments place : clear implicits.

(** Model of SubProblem (openmdao/components/subproblem.py): the checks of setup (163-168,
    191-227), solve_nonlinear (233-273), linearize (275-310), _jac_to_flat_dict
    (util/dict_util.py 4-24), and the evaluation of its residuals, which is inherited
    (core/component.py 555-591).  The wrapped problem is a tree of systems as in RunModel.v
    with the vectors of its root, which the SubProblem keeps between its calls; its driver is
    the one that runs the model once.
    Simplifications: variables hold one value each; a param of the SubProblem that is a
    dangling name of the wrapped problem is the list of params which setting that name
    reaches (core/problem.py 72-87, C81); _reraise changes the text of an error only; metadata,
    MPI and the paths of files are dropped. *)
From Verif Require Import Base RunModel.
Local Open Scope string_scope.
Local Open Scope nat_scope.
Local Open Scope list_scope.

(** what a param of the SubProblem stands for *)
Inductive place : Type := Inputs (l : list string) | Output (u : string).

(** ** setup: [dangling] are the dangling names of the wrapped problem with their params,
    [unks] its unknowns with their '_canset_' entry *)
Section Setup.
  Variable dangling : list (string * list string).
  Variable unks : list (string * bool).
  (** 163-168 *)
  Fixpoint check_exists (names : list string) : res unit :=
    match names with
    | [] => Ok tt
    | n :: r => match sget dangling n, sget unks n with None, None => Err RuntimeError | _, _ => check_exists r end
    end.
  (** 191-203; root.params only holds names that are dangling or connected, and connected
      names were refused *)
  Fixpoint find_places (names : list string) : res (list place) :=
    match names with
    | [] => Ok []
    | n :: r => let! p := match sget dangling n with
                          | Some l => Ok (Inputs l)
                          | None => match sget unks n with
                                    | Some true => Ok (Output n)
                                    | Some false => Err TypeError
                                    | None => Err KeyError
                                    end
                          end in
                let! ps := find_places r in Ok (p :: ps)
    end.
  (** 218-220 *)
  Fixpoint check_unknowns (names : list string) : res unit :=
    match names with
    | [] => Ok tt
    | n :: r => match sget unks n with None => Err KeyError | Some _ => check_unknowns r end
    end.
  Definition sub_setup (params unknowns : list string) : res (list place) :=
    let! _ := check_exists params in
    let! ps := find_places params in
    let! _ := check_unknowns unknowns in
    Ok ps.
End Setup.

Section Subp.
  Context {V : Type} (vadd vsub : V -> V -> V) (vopp : V -> V).
  Record subp : Type := mkSub { b_root : sys V; b_conns : list (conn V); b_params : list place; b_unks : list string }.

  (** prob[name] = value *)
  Definition set_one (pl : place) (x : V) (s : st V) : st V :=
    match pl with
    | Inputs l => mkS (fun v => if smem v l then x else pv s v) (uv s) (rv s)
    | Output u => mkS (pv s) (fun v => if String.eqb v u then x else uv s v) (rv s)
    end.
  (** 252-254 and 300-301 *)
  Definition set_params (P : subp) (p : list V) (s : st V) : st V :=
    fold_left (fun s e => set_one (fst e) (snd e) s) (combine (b_params P) p) s.
  (** 256-268: the vectors of the wrapped problem, and the params, unknowns and resids of
      the component *)
  Record outcome : Type := mkO { o_inner : st V; o_params : list V; o_unks : list V; o_resids : list V }.
  Definition back (s : st V) (e : place * V) : V := match fst e with Inputs _ => snd e | Output u => uv s u end.
  Definition sub_solve (P : subp) (s : st V) (p : list V) : res outcome :=
    let! s' := run_model vadd vsub vopp (b_root P) (b_conns P) (set_params P p s) in
    Ok (mkO s' (map (back s') (combine (b_params P) p)) (map (uv s') (b_unks P)) (map (rv s') (b_unks P))).
  (** component.py 580-591 on top of it: resids = -unknowns; solve; resids += unknowns;
      unknowns -= resids.  What the first statement stored is overwritten by the solve. *)
  Definition sub_apply (P : subp) (s : st V) (p u : list V) : res outcome :=
    let! o := sub_solve P s p in
    let r := vzip vadd (o_resids o) (o_unks o) in
    Ok (mkO (o_inner o) (o_params o) (vzip vsub (o_unks o) r) r).

  (** ** linearize; [gradient] is calc_gradient with return_format='dict' *)
  Context {M : Type}.
  Definition kkeqb (a b : string * string) : bool := String.eqb (fst a) (fst b) && String.eqb (snd a) (snd b).
  Definition flat_dict (jac : list (string * list (string * M))) : list ((string * string) * M) :=
    fold_left (fun d e => fold_left (fun d e2 => dset kkeqb d (fst e, fst e2) (snd e2)) (snd e) d) jac [].
  Definition sub_linearize (gradient : st V -> res (list (string * list (string * M)))) (P : subp) (s : st V) (p : list V) : res (st V * list ((string * string) * M)) :=
    let s' := set_params P p s in
    let! j := gradient s' in Ok (s', flat_dict j).

  (** ** the SubProblem as a component of an outer model, with the vectors [s0] inside *)
  Definition sub_comp (name : string) (pn un : list string) (P : subp) (s0 : st V) : comp V :=
    mkC name pn un false (fun p _ => let! o := sub_solve P s0 p in Ok (o_unks o)) None (fun _ x => x).
End Subp.
Arguments subp : clear implicits.
Arguments outcome : clear implicits.

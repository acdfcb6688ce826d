(** Sparse Jacobians and failures in the pyOptSparse driver:
    openmdao/drivers/pyoptsparse_driver.py (run 174-201, _build_sparse 351-428, _objfunc 430-496,
    _gradfunc 498-600), with the names of relevance.py (_compute_relevant_vars 205-214).

    A set of indices is the list of what was put into it; [enum] lists a set in the order in
    which Python iterates it (the same each time).  Entries are of any type.  Not modelled: the
    optimizer, printing. *)
From Verif Require Import Base.
Local Open Scope string_scope.
Local Open Scope nat_scope.
Local Open Scope list_scope.

(** root.connections: target -> (source, indices), absolute names *)
Definition connection : Type := (string * (string * option (list nat)))%type.
Definition inb (x : string) (l : list string) : bool := existsb (String.eqb x) l.
Definition mem_nat (x : nat) (l : list nat) : bool := existsb (Nat.eqb x) l.
(** list.index *)
Fixpoint index_of (x : nat) (l : list nat) : nat := match l with [] => 0 | y :: r => if x =? y then 0 else S (index_of x r) end.

Section Sparse.
  Variable enum : list nat -> list nat.
  (** 190-199: the indices of a connection, as positions in the design variable *)
  Definition mapped (dv_idx : option (list nat)) (idx : list nat) : list nat :=
    match dv_idx with
    | Some dv => map (fun k => index_of k dv) (filter (fun k => mem_nat k dv) (enum idx))
    | None => idx
    end.
  (** 179-201: sub_param_conns[name] and full_param_conns[name] *)
  Fixpoint sub_conns (path : string) (dv_idx : option (list nat)) (cs : list connection) : list (string * list nat) :=
    match cs with
    | [] => []
    | (target, (src, Some idx)) :: r => if String.eqb src path then (target, mapped dv_idx idx) :: sub_conns path dv_idx r else sub_conns path dv_idx r
    | _ :: r => sub_conns path dv_idx r
    end.
  Fixpoint full_conns (path : string) (cs : list connection) : list string :=
    match cs with
    | [] => []
    | (target, (src, None)) :: r => if String.eqb src path then target :: full_conns path r else full_conns path r
    | _ :: r => full_conns path r
    end.
  (** 381-403 for one design variable: the relevant indices, None where the loop goes on *)
  Definition rel_idx (path : string) (dv_idx : option (list nat)) (cs : list connection) (rels : list string) : option (list nat) :=
    let subs := sub_conns path dv_idx cs in
    match subs with
    | [] => None
    | _ =>
        if existsb (fun t => inb t rels) (full_conns path cs) then None
        else
          let s := enum (flat_map (fun ti => if inb (fst ti) rels then snd ti else []) subs) in
          match s with [] => None | _ => Some s end
    end.
  (** 415-421: rows and columns of the pattern *)
  Definition pattern (consize : nat) (rel : list nat) : list nat * list nat :=
    (flat_map (fun i => repeat i (length rel)) (seq 0 consize), flat_map (fun _ => rel) (seq 0 consize)).
End Sparse.

Section Grad.
  Context {A : Type}.
  Variable d : A.
  (** a dense block, or {'coo': [row, col, data], 'shape': [nrow, ncol]} *)
  Inductive block : Type :=
  | Dense (j : list (list A))
  | Coo (rows cols : list nat) (data : list A) (nrow ncol : nat).
  Definition ncols (j : list (list A)) : nat := length (nth 0 j []).
  (** jac[i][rel_idx] *)
  Definition pick (row : list A) (rel : list nat) : res (list A) := if forallb (fun k => k <? length row) rel then Ok (map (fun k => nth k row d) rel) else Err IndexError.
  Fixpoint pick_rows (j : list (list A)) (rel : list nat) : res (list A) :=
    match j with [] => Ok [] | row :: r => let! a := pick row rel in let! b := pick_rows r rel in Ok (a ++ b) end.
  (** 567-588 for one pair *)
  Definition to_coo (j : list (list A)) (rel : list nat) : res block :=
    let! data := pick_rows j rel in
    Ok (Coo (flat_map (fun i => repeat i (length rel)) (seq 0 (length j))) (flat_map (fun _ => rel) (seq 0 (length j))) data (length j) (ncols j)).

  (** sens_dict[con][desvar] *)
  Definition sens : Type := list (string * list (string * block)).
  Definition sens_get (s : sens) (con dv : string) : option block := match dget String.eqb s con with Some r => dget String.eqb r dv | None => None end.
  Definition sens_set (s : sens) (con dv : string) (b : block) : sens :=
    dset String.eqb s con (dset String.eqb (match dget String.eqb s con with Some r => r | None => [] end) dv b).
  Fixpoint coo_all (l : list (string * string * list nat)) (s : sens) : res sens :=
    match l with
    | [] => Ok s
    | (con, dv, rel) :: r =>
        match sens_get s con dv with
        | None => Err KeyError
        | Some (Dense j) => let! b := to_coo j rel in coo_all r (sens_set s con dv b)
        | Some (Coo _ _ _ _ _) => Err AttributeError
        end
    end.
  (** 553-565: zeros for everything in func_dict and dv_dict (their sizes are given) *)
  Definition zeros (funcs dvs : list (string * nat)) : sens := map (fun f => (fst f, map (fun v => (fst v, Dense (repeat (repeat d (snd v)) (snd f)))) dvs)) funcs.
  (** _gradfunc: what calc_gradient does is given; the result and the failure flag.  The flag is
      not set in the last clause. *)
  Definition gradfunc (sub : list (string * string * list nat)) (calc : res sens) (funcs dvs : list (string * nat)) : sens * bool :=
    let (r, fail) := match calc with
                     | Ok s => (coo_all sub s, false)
                     | Err AnalysisError => (coo_all sub (zeros funcs dvs), true)
                     | Err e => (Err e, false)
                     end in
    match r with Ok s => (s, fail) | Err _ => ([], fail) end.
End Grad.

Section Obj.
  Context {State Val : Type}.
  (** _objfunc: set all design variables, run, read objectives and constraints, record *)
  Variable set_desvar : string -> Val -> State -> res State.
  Variable solve : State -> State * option pyerr.
  Variable funcs : State -> res (list (string * Val)).
  Variable record : State -> option pyerr.
  Fixpoint set_all (names : list string) (dv : list (string * Val)) (s : State) : State * option pyerr :=
    match names with
    | [] => (s, None)
    | n :: r => match dget String.eqb dv n with
                | None => (s, Some KeyError)
                | Some v => match set_desvar n v s with Ok s' => set_all r dv s' | Err e => (s, Some e) end
                end
    end.
  Definition objfunc (indeps : list string) (dv : list (string * Val)) (s : State) : State * list (string * Val) * bool :=
    match set_all indeps dv s with
    | (s1, Some _) => (s1, [], true)
    | (s1, None) =>
        let (s2, e) := solve s1 in
        match e with
        | Some e' => if match e' with AnalysisError => true | _ => false end
                     then match funcs s2 with Err _ => (s2, [], true) | Ok f => match record s2 with Some _ => (s2, [], true) | None => (s2, f, true) end end
                     else (s2, [], true)
        | None => match funcs s2 with Err _ => (s2, [], true) | Ok f => match record s2 with Some _ => (s2, [], true) | None => (s2, f, false) end end
        end
    end.
End Obj.

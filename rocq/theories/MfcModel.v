(** Model of failing on all processes together: openmdao/core/mpi_wrap.py MultiProcFailCheck
    (lines 87-106) and any_proc_is_true (108-122).  The program of a process is a tree of its
    collective operations, each with a kind and a contribution; an operation takes place when all
    processes are at one of the same kind, and everybody gets all contributions.  The allgather of
    the check is of kind 0.  [trace] is the text of traceback.format_exc. *)
From Verif Require Import Base.
Local Open Scope string_scope.
Local Open Scope list_scope.
Local Open Scope nat_scope.

Section Mpi.
  Context {A : Type}.
  Inductive prog := Ret (r : A) | Coll (kind : nat) (send : string) (k : list string -> prog).
  Fixpoint heads (kind : nat) (ps : list prog) : option (list string * list (list string -> prog)) :=
    match ps with
    | [] => Some ([], [])
    | Ret _ :: _ => None
    | Coll o v k :: ps => if o =? kind then match heads kind ps with Some (vs, ks) => Some (v :: vs, k :: ks) | None => None end else None
    end.
  Definition step (ps : list prog) : option (list prog) :=
    match ps with
    | Coll o _ _ :: _ => match heads o ps with Some (vs, ks) => Some (map (fun k => k vs) ks) | None => None end
    | _ => None
    end.
  Inductive exec : list prog -> list prog -> Prop :=
  | e_end : forall ps, exec ps ps
  | e_step : forall ps qs rs, step ps = Some qs -> exec qs rs -> exec ps rs.
End Mpi.
Arguments prog : clear implicits.

(** how the with statement ends: RuntimeError with a rank and a text, the own exception (without
    MPI only), or well *)
Inductive verdict := Passed | Failed (rank : nat) (text : string) | Raised (e : pyerr).

Section Check.
  Variable trace : pyerr -> string.
  (** lines 103-106 *)
  Fixpoint first_fail (i : nat) (fails : list string) : verdict :=
    match fails with
    | [] => Passed
    | f :: fails => if String.eqb f "" then first_fail (S i) fails else Failed i f
    end.
  (** lines 96-101 around the statements [p] *)
  Fixpoint checked (p : prog (res unit)) : prog verdict :=
    match p with
    | Ret (Err e) => Coll 0 (trace e) (fun fails => Ret (first_fail 0 fails))
    | Ret (Ok _) => Coll 0 "" (fun fails => Ret (first_fail 0 fails))
    | Coll o v k => Coll o v (fun l => checked (k l))
    end.
  (** lines 93-94: without MPI *)
  Fixpoint unchecked (p : prog (res unit)) : prog verdict :=
    match p with
    | Ret (Err e) => Ret (Raised e)
    | Ret (Ok _) => Ret Passed
    | Coll o v k => Coll o v (fun l => unchecked (k l))
    end.
  Definition fail_check (mpi : bool) (p : prog (res unit)) : prog verdict := if mpi then checked p else unchecked p.
End Check.

(** lines 108-122: the sum of ones and zeros; the answer is the same for all *)
Definition any_proc_is_true (exprs : list bool) : bool := 0 <? fold_left (fun n (b : bool) => n + if b then 1 else 0) exprs 0.

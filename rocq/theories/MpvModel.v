(** Model of the values of design variables and objectives under MPI: openmdao/core/driver.py
    get_desvars (lines 383-397), _get_distrib_var (399-441) and get_objectives (576-598).
    The program of a process is a tree of its broadcasts, and the processes run together: a
    broadcast happens when all are at one with the same root.  Values are of any type; taking the
    entries of the indices, and scaling, are functions of the variable, which may raise.  [owner]
    is _owning_ranks, and a process without a variable raises KeyError. *)
From Verif Require Import Base.
Local Open Scope list_scope.
Local Open Scope nat_scope.

Section Mpi.
  Context {V A : Type}.
  Inductive prog := Ret (r : res A) | Bcast (root : nat) (send : option V) (k : option V -> prog).
  Definition head := (nat * option V * (option V -> prog))%type.
  Fixpoint heads (ps : list prog) : option (list head) :=
    match ps with
    | [] => Some []
    | Ret _ :: _ => None
    | Bcast r v k :: ps => match heads ps with Some hs => Some ((r, v, k) :: hs) | None => None end
    end.
  (** one broadcast of all processes *)
  Definition step (ps : list prog) : option (list prog) :=
    match heads ps with
    | Some ((r, v, k) :: hs) =>
        if forallb (fun h => fst (fst h) =? r) hs
        then match nth_error ((r, v, k) :: hs) r with
             | Some (_, sent, _) => Some (map (fun h : head => snd h sent) ((r, v, k) :: hs))
             | None => None
             end
        else None
    | _ => None
    end.
  Inductive exec : list prog -> list prog -> Prop :=
  | e_end : forall ps, exec ps ps
  | e_step : forall ps qs rs, step ps = Some qs -> exec qs rs -> exec ps rs.
End Mpi.
Arguments prog : clear implicits.

Section Get.
  Context {K V : Type} (owner : K -> nat) (dat : nat -> K -> option V) (pick scale : K -> V -> res V).
  Definition local (rank : nat) (k : K) : res V := match dat rank k with Some v => Ok v | None => Err KeyError end.
  (** lines 399-441 and the loop 394-396 or 595-596; [acc] are the entries so far *)
  Fixpoint get_vars (nproc rank : nat) (ks : list K) (acc : list (K * V)) : prog V (list (K * V)) :=
    match ks with
    | [] => Ret (Ok acc)
    | k :: ks =>
        let rest v := match scale k v with Err e => Ret (Err e) | Ok x => get_vars nproc rank ks (acc ++ [(k, x)]) end in
        if 1 <? nproc then
          if rank =? owner k then
            match bind (local rank k) (pick k) with
            | Err e => Ret (Err e)
            | Ok v => Bcast (owner k) (Some v) (fun v => match v with Some v => rest v | None => Ret (Err TypeError) end)
            end
          else Bcast (owner k) None (fun v => match v with Some v => rest v | None => Ret (Err TypeError) end)
        else
          match bind (local rank k) (pick k) with
          | Err e => Ret (Err e)
          | Ok v => rest v
          end
    end.
  Definition get_desvars (nproc : nat) (ks : list K) : list (prog V (list (K * V))) := map (fun rank => get_vars nproc rank ks []) (seq 0 nproc).
  (** the argument is not used *)
  Definition get_objectives (return_type : string) (nproc : nat) (ks : list K) := get_desvars nproc ks.
End Get.

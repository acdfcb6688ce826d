(** Model of the parallel design of experiments without load balancing under MPI
    (openmdao/drivers/predeterminedruns_driver.py: _distrib_build_runlist,
    _get_case_w_nones, _run_par_doe, _save_case; latinhypercube_driver.py:
    _distrib_build_runlist; recorders/recording_manager.py: record_iteration).  The
    processes meet in collective operations; an operation on a communicator takes place
    when all its members wait in it, with the same operation.  Which of the possible
    operations takes place next is not determined.
    Simplified: the collective operations inside a model, while it runs a case, are not
    modelled; a fatal failure of a case (an exception other than AnalysisError) in a
    process is the function [fatal]. *)
From Verif Require Import Base TransferModel.
Local Open Scope nat_scope.

(** a process: the number of its parallel doe, and its rank in the communicator of that *)
Definition pid : Type := (nat * nat)%type.
(** the processes, in the order of their ranks, for does of the given sizes
    (_setup_communicators 133-150) *)
Definition pids (sizes : list nat) : list pid := flat_map (fun gn => map (pair (fst gn)) (seq 0 (snd gn))) (combine (seq 0 (length sizes)) sizes).

(** _full_comm, _casecomm (lines 152-170: the first process of every doe), and the
    communicator of doe g (line 178) *)
Inductive comm := Full | Case | Grp (g : nat).
Definition member (c : comm) (p : pid) : bool := match c with Full => true | Case => snd p =? 0 | Grp g => fst p =? g end.
Definition comm_eqb (a b : comm) : bool := match a, b with Full, Full | Case, Case => true | Grp g, Grp h => g =? h | _, _ => false end.
Inductive op := Sum | Gather | GatherVars | AllGather | Scatter.
Definition op_eqb (a b : op) : bool := match a, b with Sum, Sum | Gather, Gather | GatherVars, GatherVars | AllGather, AllGather | Scatter, Scatter => true | _, _ => false end.

Section Par.
  Variable C : Type.
  (** what a process contributes to an operation, and what it gets *)
  Inductive val := VNat (n : nat) | VCase (c : option C) | VJobs (j : option (list (list C))).
  Inductive answer := RNat (n : nat) | RNats (l : list nat) | RCases (l : option (list (option C))) | RJob (l : list C).
  Definition nat_of (v : val) : nat := match v with VNat n => n | _ => 0 end.
  Definition case_in (v : val) : option C := match v with VCase c => c | _ => None end.
  (** the answer for process p, given the contributions of the members in order *)
  Definition respond (o : op) (cs : list (pid * val)) (p : pid) : answer :=
    match o with
    | Sum => RNat (list_sum (map (fun x => nat_of (snd x)) cs))
    | AllGather => RNats (map (fun x => nat_of (snd x)) cs)
    | Gather | GatherVars =>
        match cs with (r, _) :: _ => if (fst r =? fst p) && (snd r =? snd p) then RCases (Some (map (fun x => case_in (snd x)) cs)) else RCases None | [] => RCases None end
    | Scatter =>
        match cs with
        | (_, VJobs (Some js)) :: _ => match find (fun x => (fst (fst x) =? fst p) && (snd (fst x) =? snd p)) (combine (map fst cs) js) with Some (_, j) => RJob j | None => RJob [] end
        | _ => RJob []
        end
    end.

  (** the state of a process; [ran] are the cases it has run, [rec] the cases it has
      given to its recorders *)
  Inductive pst :=
  | PIds                                            (* latinhypercube_driver.py 107 *)
  | PScatter (ids : list nat)                       (* latinhypercube_driver.py 122 *)
  | PNext (l ran rec : list C)                      (* _get_case_w_nones 666-673 *)
  | PRun (c : C) (l ran rec : list C)               (* _run_par_doe 511: the case has been run *)
  | PDummy (ran rec : list C)                       (* 503 *)
  | PVars (k : nat) (c : C) (l ran rec : list C)    (* record_iteration 208-210: k gathers to do *)
  | PCase (c : C) (l ran rec : list C)              (* record_iteration 217 *)
  | PDumCase (ran rec : list C)                     (* record_iteration 194 *)
  | PDone (ran rec : list C)
  | PFail (ran rec : list C).                       (* 511-520: an exception is raised *)

  Variable fatal : pid -> C -> bool.
  (** are there recorders, is one of them serial, and how many of params, unknowns and
      resids are recorded *)
  Variable recorders serial : bool.
  Variable nvars : nat.
  (** the cases generated by the process with rank 0, and the number of does *)
  Variable cases : list C.
  Variable ndoe : nat.

  (** the next turn of the loop, _get_case_w_nones 656-678: without _casecomm a process
      simply takes its next case *)
  Definition turn (p : pid) (l ran rec : list C) : pst :=
    if snd p =? 0 then PNext l ran rec else match l with [] => PDone ran rec | c :: l' => PRun c l' (ran ++ [c]) rec end.
  (** record_iteration 207-236, after the gathers of variables *)
  Definition save (p : pid) (c : C) (l ran rec : list C) : pst :=
    if recorders then if serial then if snd p =? 0 then PCase c l ran rec else turn p l ran rec else turn p l ran (rec ++ [c]) else turn p l ran rec.
  Definition save_vars (p : pid) (k : nat) (c : C) (l ran rec : list C) : pst := if k =? 0 then save p c l ran rec else PVars k c l ran rec.
  Definition gathers : nat := if recorders && serial then nvars else 0.
  Definition somes (l : list (option C)) : list C := flat_map (fun o => match o with Some c => [c] | None => [] end) l.

  (** latinhypercube_driver.py 110-119 *)
  Definition jobs_of : list (list C) :=
    match evenly_distrib_idxs (Z.of_nat ndoe) (Z.of_nat (length cases)) with
    | Ok (sizes, offsets) => map (fun os => firstn (Z.to_nat (snd os)) (skipn (Z.to_nat (fst os)) cases)) (combine offsets sizes)
    | Err _ => []
    end.
  Definition job_list (ids : list nat) : list (list C) := map (fun i => nth i jobs_of []) ids.

  (** the operation a process waits in, and what it does with the answer *)
  Definition act (p : pid) (s : pst) : option (comm * op * val * (answer -> pst)) :=
    match s with
    | PIds => Some (Full, AllGather, VNat (fst p), fun a => match a with RNats ids => PScatter ids | _ => PFail [] [] end)
    | PScatter ids => Some (Full, Scatter, VJobs (if (fst p =? 0) && (snd p =? 0) then Some (job_list ids) else None), fun a => match a with RJob l => turn p l [] [] | _ => PFail [] [] end)
    | PNext l ran rec =>
        Some (Case, Sum, VNat (match l with [] => 0 | _ => 1 end),
              fun a => match a with RNat 0 => PDone ran rec | _ => match l with [] => PDummy ran rec | c :: l' => PRun c l' (ran ++ [c]) rec end end)
    | PRun c l ran rec =>
        Some (Full, Sum, VNat (if fatal p c then 1 else 0), fun a => match a with RNat 0 => save_vars p gathers c l ran rec | _ => PFail ran rec end)
    | PDummy ran rec => Some (Full, Sum, VNat 0, fun _ => if recorders then PDumCase ran rec else turn p [] ran rec)
    | PVars k c l ran rec => Some (Grp (fst p), GatherVars, VCase (Some c), fun _ => save_vars p (k - 1) c l ran rec)
    | PCase c l ran rec =>
        Some (Case, Gather, VCase (Some c), fun a => match a with RCases (Some cs) => turn p l ran (rec ++ somes cs) | _ => turn p l ran rec end)
    | PDumCase ran rec => Some (Case, Gather, VCase None, fun _ => turn p [] ran rec)
    | PDone _ _ | PFail _ _ => None
    end.

  Definition st : Type := list (pid * pst).
  Definition waits (c : comm) (o : op) (x : pid * pst) : bool := match act (fst x) (snd x) with Some (c', o', _, _) => comm_eqb c c' && op_eqb o o' | None => false end.
  Definition contrib (x : pid * pst) : pid * val := (fst x, match act (fst x) (snd x) with Some (_, _, v, _) => v | None => VNat 0 end).
  Definition cont (x : pid * pst) (a : answer) : pst := match act (fst x) (snd x) with Some (_, _, _, k) => k a | None => snd x end.
  Definition members (c : comm) (s : st) : st := filter (fun x => member c (fst x)) s.
  (** the operation o on communicator c takes place *)
  Definition fire (c : comm) (o : op) (s : st) : option st :=
    match members c s with
    | [] => None
    | ms => if forallb (waits c o) ms then Some (map (fun x => if member c (fst x) then (fst x, cont x (respond o (map contrib ms) (fst x))) else x) s) else None
    end.
  Definition step (s t : st) : Prop := exists c o, fire c o s = Some t.
  (** every process has returned, or raised *)
  Definition finished (s : st) : Prop := forall p x, In (p, x) s -> act p x = None.

  (** _distrib_build_runlist 689-691: the cases of doe g *)
  Fixpoint every (k : nat) (g : nat) (l : list C) : list C :=
    match l with [] => [] | c :: r => if k mod ndoe =? g then c :: every (S k) g r else every (S k) g r end.
  Definition dealt (g : nat) : list C := every 0 g cases.
  (** every process generates the cases; with a LatinHypercubeDriver they are scattered *)
  Definition init (sizes : list nat) : st := map (fun p => (p, turn p (dealt (fst p)) [] [])) (pids sizes).
  Definition init_lhc (sizes : list nat) : st := map (fun p => (p, PIds)) (pids sizes).
End Par.
Arguments VNat {C}. Arguments VCase {C}. Arguments VJobs {C}. Arguments RNat {C}. Arguments RNats {C}. Arguments RCases {C}. Arguments RJob {C}.
Arguments PIds {C}. Arguments PScatter {C}. Arguments PNext {C}. Arguments PRun {C}. Arguments PDummy {C}. Arguments PVars {C}. Arguments PCase {C}. Arguments PDumCase {C}. Arguments PDone {C}. Arguments PFail {C}.
Arguments nat_of {C}. Arguments case_in {C}. Arguments respond {C}. Arguments somes {C}. Arguments turn {C}. Arguments every {C}. Arguments dealt {C}. Arguments jobs_of {C}. Arguments job_list {C}. Arguments members {C}.
Arguments act {C}. Arguments waits {C}. Arguments contrib {C}. Arguments cont {C}. Arguments fire {C}. Arguments step {C}. Arguments finished {C}. Arguments init {C}. Arguments init_lhc {C}. Arguments save {C}. Arguments save_vars {C}.

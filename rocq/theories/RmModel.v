(** Model of the recording manager under MPI:
    openmdao/recorders/recording_manager.py (startup 67-118,
    _gather_vars 50-65, record_iteration 162-232), with the owning ranks
    of core/group.py 1637-1670 and the recorders of
    recorders/base_recorder.py and recorders/inmem_recorder.py (the
    selection of names and the reading of one vector are those of
    RecordModel.v).

    Simplifications: one system with its communicator; no parallel design
    of experiments (_casecomm is None; C42 deals with it); the metadata of an
    iteration is its coordinate (time stamp, success and message left out);
    values are opaque and are not changed after being recorded; a variable
    that is not local to a process is absent from the process's vectors;
    metadata and derivatives are left out.  The processes of the
    communicator run record_iteration together: a gather completes when
    every process calls it.  If a process raises an exception before a
    gather, every other process is counted as waiting. *)
From Verif Require Import Base RecordModel.
Local Open Scope string_scope.

Section Rm.
  Context {V : Type}.
  (** fnmatchcase(path, pattern) *)
  Variable matches : string -> string -> bool.

  Definition dict := list (string * V).

  (** what one call of a recorder's record_iteration stores
      (inmem_recorder.py 72-95); None: the option is off *)
  Record entry : Type := mkEntry {
    en_coord : coord; en_p : option dict; en_u : option dict; en_r : option dict }.

  (** a recorder: options, _parallel, _filtered, and what it has stored *)
  Record recst : Type := mkRec {
    rc_opts : rec_opts; rc_par : bool; rc_table : list (string * filtered); rc_log : list entry }.

  (** the manager, recording_manager.py 18-32: _vars_to_record (three sets),
      _has_serial_recorders, _record_p, _record_u, _record_r, _recorders *)
  Record mgr : Type := mkMgr {
    mg_vp : list string; mg_vu : list string; mg_vr : list string;
    mg_serial : bool; mg_rp : bool; mg_ru : bool; mg_rr : bool;
    mg_recs : list recst }.

  (** set.update *)
  Definition sadd (l : list string) (n : string) : list string :=
    if existsb (String.eqb n) l then l else l ++ [n].
  Definition supdate (l ns : list string) : list string := fold_left sadd ns l.

  (** _get_owning_ranks, core/group.py 1644-1663: the list holds the names of
      the local variables of each process, in rank order *)
  Definition own_one (rank : nat) (ranks : list (string * nat)) (v : string) : list (string * nat) :=
    if smem ranks v then ranks else sset ranks v rank.
  Fixpoint own_from (rank : nat) (locals : list (list string)) (ranks : list (string * nat))
      : list (string * nat) :=
    match locals with
    | [] => ranks
    | vnames :: rest => own_from (S rank) rest (fold_left (own_one rank) vnames ranks)
    end.
  Definition owning_ranks (locals : list (list string)) : list (string * nat) :=
    own_from 0 locals [].

  (** [n for n in names if rrank == rowned[n]], recording_manager.py 105-107 *)
  Fixpoint localize (rrank : nat) (rowned : list (string * nat)) (names : list string) : res (list string) :=
    match names with
    | [] => Ok []
    | n :: rest =>
        match sget rowned n with
        | None => Err KeyError
        | Some o => let! l := localize rrank rowned rest in
                    Ok (if Nat.eqb rrank o then n :: l else l)
        end
    end.

  Definition nonempty {A} (l : list A) : bool := match l with [] => false | _ => true end.

  (** one turn of the loop of startup, recording_manager.py 82-118; [mpi] is
      None without MPI, else the rank in the group's communicator and the
      owning ranks *)
  Definition startup_one (mpi : option (nat * list (string * nat))) (path : string)
      (params unknowns : list string) (m : mgr) (r : recst) : res mgr :=
    let table := startup matches (rc_opts r) (rc_table r) path params unknowns unknowns in
    let serial := (mg_serial m || negb (rc_par r))%bool in
    match sget table path with
    | None => Err KeyError
    | Some f =>
        let rp := (mg_rp m || nonempty (f_p f))%bool in
        let ru := (mg_ru m || nonempty (f_u f))%bool in
        let rr := (mg_rr m || nonempty (f_r f))%bool in
        match mpi with
        | None =>
            Ok (mkMgr (supdate (mg_vp m) (f_p f)) (supdate (mg_vu m) (f_u f)) (supdate (mg_vr m) (f_r f))
                  serial rp ru rr (mg_recs m ++ [mkRec (rc_opts r) (rc_par r) table (rc_log r)]))
        | Some (rrank, rowned) =>
            let! pn := localize rrank rowned (f_p f) in
            let! un := localize rrank rowned (f_u f) in
            let! rn := localize rrank rowned (f_r f) in
            let table' := if rc_par r then sset table path (mkFiltered pn un rn) else table in
            Ok (mkMgr (supdate (mg_vp m) pn) (supdate (mg_vu m) un) (supdate (mg_vr m) rn)
                  serial rp ru rr (mg_recs m ++ [mkRec (rc_opts r) (rc_par r) table' (rc_log r)]))
        end
    end.

  Fixpoint startup_loop (mpi : option (nat * list (string * nat))) (path : string)
      (params unknowns : list string) (m : mgr) (l : list recst) : res mgr :=
    match l with
    | [] => Ok m
    | r :: rest => let! m' := startup_one mpi path params unknowns m r in
                   startup_loop mpi path params unknowns m' rest
    end.

  (** startup, recording_manager.py 67-118: the record flags are reset, the
      names to record and _has_serial_recorders are kept *)
  Definition mgr_startup (mpi : option (nat * list (string * nat))) (path : string)
      (params unknowns : list string) (m : mgr) : res mgr :=
    startup_loop mpi path params unknowns
      (mkMgr (mg_vp m) (mg_vu m) (mg_vr m) (mg_serial m) false false false []) (mg_recs m).

  (** local_vars, core/group.py 1646-1649, of each process: the local unknowns,
      then the local params *)
  Fixpoint all_locals (lu lp : list (list string)) : list (list string) :=
    match lu, lp with
    | u :: lu', p :: lp' => (u ++ p)%list :: all_locals lu' lp'
    | _, _ => []
    end.

  (** startup on every process of the communicator, given the names of the
      local unknowns and params of each process *)
  Fixpoint startup_procs (rank : nat) (rowned : list (string * nat)) (path : string)
      (params unknowns : list string) (ms : list mgr) : list (res mgr) :=
    match ms with
    | [] => []
    | m :: rest => mgr_startup (Some (rank, rowned)) path params unknowns m
                   :: startup_procs (S rank) rowned path params unknowns rest
    end.
  Definition startup_all (lu lp : list (list string)) (path : string)
      (params unknowns : list string) (ms : list mgr) : list (res mgr) :=
    startup_procs 0 (owning_ranks (all_locals lu lp)) path params unknowns ms.

  (** the vectors of a process: params, unknowns, resids *)
  Record vecs : Type := mkVecs { ve_p : dict; ve_u : dict; ve_r : dict }.

  (** _filter_vector of base_recorder.py 113-122 on a vector that may be None,
      and the iteritems of inmem_recorder.py 80-93 *)
  Definition filtered_items (table : list (string * filtered)) (vec : option dict) (k : veckey) (c : coord)
      : res dict :=
    match vec with
    | None => Err AttributeError
    | Some d => filter_vector table d k c
    end.
  Definition section (on : bool) (table : list (string * filtered)) (vec : option dict) (k : veckey) (c : coord)
      : res (option dict) :=
    if on then let! d := filtered_items table vec k c in Ok (Some d) else Ok None.

  (** record_iteration of a recorder, inmem_recorder.py 54-95 *)
  Definition rec_iteration (r : recst) (p u s : option dict) (c : coord) : res recst :=
    let! ep := section (ro_params (rc_opts r)) (rc_table r) p KP c in
    let! eu := section (ro_unknowns (rc_opts r)) (rc_table r) u KU c in
    let! er := section (ro_resids (rc_opts r)) (rc_table r) s KR c in
    Ok (mkRec (rc_opts r) (rc_par r) (rc_table r) (rc_log r ++ [mkEntry c ep eu er])).

  (** the loops of recording_manager.py 227-232 for one case; [world] is the
      rank of the process in COMM_WORLD (line 30) *)
  Fixpoint record_loop (world : nat) (p u s : option dict) (c : coord) (l : list recst) : res (list recst) :=
    match l with
    | [] => Ok []
    | r :: rest =>
        let! r' := (if (rc_par r || Nat.eqb world 0)%bool then rec_iteration r p u s c else Ok r) in
        let! rest' := record_loop world p u s c rest in
        Ok (r' :: rest')
    end.
  Definition with_recs (m : mgr) (l : list recst) : mgr :=
    mkMgr (mg_vp m) (mg_vu m) (mg_vr m) (mg_serial m) (mg_rp m) (mg_ru m) (mg_rr m) l.
  Definition record_case (world : nat) (m : mgr) (p u s : option dict) (c : coord) : res mgr :=
    match p with
    | None => Ok m
    | Some _ => let! l := record_loop world p u s c (mg_recs m) in Ok (with_recs m l)
    end.

  (** without MPI: the vectors themselves, rank 0 (lines 31-32, 184-186, 223) *)
  Definition record_single (m : mgr) (v : vecs) (c : coord) : res mgr :=
    match mg_recs m with
    | [] => Ok m
    | _ => record_case 0 m (Some (ve_p v)) (Some (ve_u v)) (Some (ve_r v)) c
    end.

  (** {p: params[p] for p in pnames}, lines 203-205 *)
  Definition local_case (m : mgr) (v : vecs) : res (dict * dict * dict) :=
    let! p := lookup_all (ve_p v) (mg_vp m) in
    let! u := lookup_all (ve_u v) (mg_vu m) in
    let! s := lookup_all (ve_r v) (mg_vr m) in
    Ok (p, u, s).

  (** dct.update(d) *)
  Definition dupdate (dct d : dict) : dict := fold_left (fun a x => sset a (fst x) (snd x)) d dct.

  (** _gather_vars, lines 57-65: what rank 0 returns *)
  Definition merge (all_vars : list dict) : dict :=
    fold_left dupdate (removelast all_vars) (last all_vars []).

  (** lines 208-210 on all processes: None when some process gathers and
      another does not *)
  Definition gather_key (flags : list bool) (ds : list dict) : option (list (option dict)) :=
    if forallb (fun b => b) flags
    then Some (match ds with [] => [] | _ :: rest => Some (merge ds) :: map (fun _ => None) rest end)
    else if forallb negb flags then Some (map (fun _ => Some []) ds)
    else None.

  (** how record_iteration ends on a process *)
  Inductive ended : Type := Returns (m : mgr) | Raises (e : pyerr) | Waits.

  Definition ended_of (x : res mgr) : ended := match x with Ok m => Returns m | Err e => Raises e end.

  (** a process: its rank in COMM_WORLD, its manager, its vectors *)
  Record proc : Type := mkProc { pr_world : nat; pr_mgr : mgr; pr_vecs : vecs }.

  Definition oks {A} (l : list (res A)) : option (list A) :=
    fold_right (fun x acc => match x, acc with Ok a, Some t => Some (a :: t) | _, _ => None end) (Some []) l.

  (** record_iteration on a process on its own, no serial recorder *)
  Definition record_alone (c : coord) (p : proc) : ended :=
    match local_case (pr_mgr p) (pr_vecs p) with
    | Err e => Raises e
    | Ok (d, u, s) => ended_of (record_case (pr_world p) (pr_mgr p) (Some d) (Some u) (Some s) c)
    end.

  Fixpoint deliver (c : coord) (ps : list proc) (gp gu gr : list (option dict)) : list ended :=
    match ps, gp, gu, gr with
    | p :: ps', d :: gp', u :: gu', s :: gr' =>
        ended_of (record_case (pr_world p) (pr_mgr p) d u s c) :: deliver c ps' gp' gu' gr'
    | _, _, _, _ => []
    end.

  (** record_iteration, lines 162-232, on all processes of the communicator,
      which hold the same recorders *)
  Definition record_all (c : coord) (ps : list proc) : list ended :=
    match ps with
    | [] => []
    | p0 :: _ =>
        if negb (nonempty (mg_recs (pr_mgr p0))) then map (fun p => Returns (pr_mgr p)) ps
        else if negb (mg_serial (pr_mgr p0)) then map (record_alone c) ps
        else
          let locals := map (fun p => local_case (pr_mgr p) (pr_vecs p)) ps in
          let stuck := map (fun x => match x with Ok _ => Waits | Err e => Raises e end) locals in
          match oks locals with
          | None => stuck
          | Some ds =>
              match gather_key (map (fun p => mg_rp (pr_mgr p)) ps) (map (fun x => fst (fst x)) ds),
                    gather_key (map (fun p => mg_ru (pr_mgr p)) ps) (map (fun x => snd (fst x)) ds),
                    gather_key (map (fun p => mg_rr (pr_mgr p)) ps) (map (fun x => snd x) ds) with
              | Some gp, Some gu, Some gr => deliver c ps gp gu gr
              | _, _, _ => stuck
              end
          end
    end.

  (** a run: one call of record_iteration after another; it stops when a
      process does not return *)
  Definition returned (e : ended) : option mgr := match e with Returns m => Some m | _ => None end.
  Definition all_returned (l : list ended) : option (list mgr) :=
    fold_right (fun x acc => match returned x, acc with Some a, Some t => Some (a :: t) | _, _ => None end)
      (Some []) l.
  Fixpoint procs_of (worlds : list nat) (ms : list mgr) (vs : list vecs) : list proc :=
    match worlds, ms, vs with
    | w :: worlds', m :: ms', v :: vs' => mkProc w m v :: procs_of worlds' ms' vs'
    | _, _, _ => []
    end.
  Fixpoint record_run (worlds : list nat) (ms : list mgr) (its : list (coord * list vecs)) : option (list mgr) :=
    match its with
    | [] => Some ms
    | (c, vs) :: rest =>
        match all_returned (record_all c (procs_of worlds ms vs)) with
        | None => None
        | Some ms' => record_run worlds ms' rest
        end
    end.
End Rm.
Arguments entry : clear implicits.
Arguments recst : clear implicits.
Arguments mgr : clear implicits.
Arguments vecs : clear implicits.
Arguments proc : clear implicits.
Arguments ended : clear implicits.
Arguments dict : clear implicits.

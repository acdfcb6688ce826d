(** Model of openmdao/util/record_util.py and of the recorders and case readers
    in openmdao/recorders (base_recorder.py, inmem_recorder.py,
    sqlite_recorder.py, hdf5_recorder.py, sqlite_reader.py, hdf5_reader.py,
    case.py).

    Simplifications: single process (rank is a parameter of the coordinate
    only); time stamps are opaque values; fnmatch.fnmatchcase is an argument;
    the SQLite and HDF5 files are dictionaries (pickling copies values). *)
From Coq Require Import DecimalString.
From Verif Require Import Base.
Local Open Scope string_scope.

(** ** Iteration coordinates, util/record_util.py *)

(** An iteration coordinate [rank, name, (i,..), name, (i,..), ...]. *)
Record coord : Type := mkCoord { c_rank : nat; c_items : list (string * list nat) }.

(** str(i) and "%d" % i for a natural number *)
Definition str_int (n : nat) : string := NilZero.string_of_uint (Nat.to_uint n).

(** create_local_meta, util/record_util.py 8-43: the coordinate of the parent
    (or [rank] without one) extended by the name and (0,);
    len(parent_coordinate) == 3 means one name and one tuple. *)
Definition create_local_meta (rank : nat) (parent : option coord) (name : string) : coord :=
  let pc := match parent with None => mkCoord rank [] | Some c => c end in
  let name' := if (Nat.eqb (length (c_items pc)) 1 && String.eqb name "")%bool
               then "root" else name in
  mkCoord (c_rank pc) (c_items pc ++ [(name', [0%nat])]).

(** coord[-1] = iteration *)
Fixpoint set_last (l : list (string * list nat)) (it : list nat) : list (string * list nat) :=
  match l with
  | [] => []
  | [(n, _)] => [(n, it)]
  | x :: l' => x :: set_last l' it
  end.

(** update_local_meta, util/record_util.py 45-68 *)
Definition update_local_meta (c : coord) (it : list nat) : coord :=
  mkCoord (c_rank c) (set_last (c_items c) it).

(** format_iteration_coordinate, util/record_util.py 70-91 *)
Definition format_coord (c : coord) : string :=
  let items := flat_map (fun x => [fst x; String.concat "-" (map str_int (snd x))]) (c_items c) in
  String.concat ":" ["rank" ++ str_int (c_rank c); String.concat "|" items].

(** ** Selection of variables, recorders/base_recorder.py *)

(** the options used by startup (base_recorder.py 60-89) *)
Record rec_opts : Type := mkOpts {
  ro_params : bool; ro_unknowns : bool; ro_resids : bool;
  ro_includes : list string; ro_excludes : list string }.

Section Filter.
  (** fnmatchcase(path, pattern) *)
  Variable matches : string -> string -> bool.

  (** _check_path, base_recorder.py 91-104 *)
  Fixpoint check_path (path : string) (includes excludes : list string) : bool :=
    match includes with
    | [] => false
    | pattern :: rest =>
        if matches path pattern
        then negb (existsb (fun ex => matches path ex) excludes)
        else check_path path rest excludes
    end.

  (** what is stored in _filtered[pathname] *)
  Record filtered : Type := mkFiltered { f_p : list string; f_u : list string; f_r : list string }.

  (** startup, base_recorder.py 60-89: the names of the group's params,
      unknowns and resids vectors are given *)
  Definition startup (o : rec_opts) (table : list (string * filtered))
      (pathname : string) (params unknowns resids : list string) : list (string * filtered) :=
    let sel := filter (fun n => check_path n (ro_includes o) (ro_excludes o)) in
    let myparams := if ro_params o then sel params else [] in
    let myunknowns := if ro_unknowns o then sel unknowns else [] in
    let myresids := if ro_resids o
                    then (if ro_unknowns o then myunknowns else sel resids)
                    else [] in
    sset table pathname (mkFiltered myparams myunknowns myresids).
End Filter.

(** _get_pathname, base_recorder.py 106-111: '.'.join(coord[5::2]), the names
    of the coordinate from the third on *)
Definition get_pathname (c : coord) : string := String.concat "." (skipn 2 (map fst (c_items c))).

Inductive veckey : Type := KP | KU | KR.
Definition f_names (f : filtered) (k : veckey) : list string :=
  match k with KP => f_p f | KU => f_u f | KR => f_r f end.

(** {n : vec[n] for n in names} *)
Fixpoint lookup_all {V} (vec : list (string * V)) (names : list string) : res (list (string * V)) :=
  match names with
  | [] => Ok []
  | n :: names' =>
      match sget vec n with
      | None => Err KeyError
      | Some v => let! rest := lookup_all vec names' in Ok (sset rest n v)
      end
  end.

(** _filter_vector, base_recorder.py 113-122 *)
Definition filter_vector {V} (table : list (string * filtered)) (vec : list (string * V))
    (k : veckey) (c : coord) : res (list (string * V)) :=
  match vec with
  | [] => Ok []
  | _ => match sget table (get_pathname c) with
         | None => Err KeyError
         | Some f => lookup_all vec (f_names f k)
         end
  end.

(** The name that the nonlinear solver of a group puts in its coordinate:
    RunOnce uses system.name (solvers/run_once.py 47); NLGaussSeidel
    (nl_gauss_seidel.py 110), Newton (newton.py 150) and its line search
    (backtracking.py 104) use system.pathname. *)
Inductive nlsolver : Type := RunOnce | NLGaussSeidel | Newton.

Definition coord_name (s : nlsolver) (name pathname : string) : string :=
  match s with RunOnce => name | _ => pathname end.

(** A group is reached from the root through named groups, each with its own
    nonlinear solver and current iteration. *)
Record level : Type := mkLevel { l_name : string; l_solver : nlsolver; l_iter : list nat }.

(** pathname of a subsystem: system.py, _init_sys_data / group.py
    '.'.join((parent_path, self.name)) when the parent has a pathname *)
Definition child_path (parent name : string) : string :=
  if String.eqb parent "" then name else parent ++ "." ++ name.

(** the coordinate handed to the recorders of the last group of the chain:
    each Group.solve_nonlinear passes its metadata to its solver, which creates
    its own from it (create_local_meta, then update_local_meta) and passes that
    on to the children *)
Fixpoint descend (c : coord) (path : string) (chain : list level) : coord * string :=
  match chain with
  | [] => (c, path)
  | l :: rest =>
      let path' := child_path path (l_name l) in
      descend (update_local_meta
                 (create_local_meta 0 (Some c) (coord_name (l_solver l) (l_name l) path'))
                 (l_iter l)) path' rest
  end.

(** driver coordinate (driver.py 780, iteration k), then root (name and pathname
    both ''), then the chain *)
Definition group_coord (rank : nat) (driver : string) (it0 it1 : list nat) (chain : list level) : coord * string :=
  let c0 := update_local_meta (create_local_meta rank None driver) it0 in
  let c1 := update_local_meta (create_local_meta rank (Some c0) "") it1 in
  descend c1 "" chain.

(** ** The in-memory recorder, recorders/inmem_recorder.py 54-95 *)
Section InMemory.
  Context {V : Type}.

  (** How an entry of a VecWrapper is read (core/vec_wrapper.py 110-176): a
      scalar gives a number, an array a view of the vector, an array with a
      unit conversion a new array, a pass_by_obj variable its current object. *)
  Inductive getter : Type := GScalar | GArray | GArrayUnits | GObject.

  Inductive stored : Type := SVal (v : V) | SView (name : string).

  Definition getitem (g : string -> getter) (mem : list (string * V)) (n : string) : option stored :=
    match g n with
    | GArray => match sget mem n with Some _ => Some (SView n) | None => None end
    | _ => option_map SVal (sget mem n)
    end.

  Record inmem : Type := mkInmem { im_mem : list (string * V); im_iters : list (list (string * stored)) }.

  (** what happens during execution: a variable gets a new value in place, or
      an iteration is recorded with the selected names *)
  Inductive im_op : Type := Write (n : string) (v : V) | Record_ (names : list string).

  Fixpoint collect (g : string -> getter) (mem : list (string * V)) (names : list string) : list (string * stored) :=
    match names with
    | [] => []
    | n :: rest => match getitem g mem n with
                   | Some x => (n, x) :: collect g mem rest
                   | None => collect g mem rest
                   end
    end.

  Definition im_step (g : string -> getter) (s : inmem) (o : im_op) : inmem :=
    match o with
    | Write n v => mkInmem (sset (im_mem s) n v) (im_iters s)
    | Record_ names => mkInmem (im_mem s) (im_iters s ++ [collect g (im_mem s) names])
    end.
  Definition im_run (g : string -> getter) (s : inmem) (l : list im_op) : inmem := fold_left (im_step g) l s.

  (** recorder.iters[k]['unknowns'][n], evaluated in the current state *)
  Definition im_read (s : inmem) (k : nat) (n : string) : option V :=
    match nth_error (im_iters s) k with
    | None => None
    | Some d => match sget d n with
                | None => None
                | Some (SVal v) => Some v
                | Some (SView m) => sget (im_mem s) m
                end
    end.
End InMemory.
Arguments stored : clear implicits.
Arguments inmem : clear implicits.
Arguments im_op : clear implicits.

(** ** Files and case readers *)
Section Files.
  Context {V D T : Type}.   (* variable values, derivative data, time stamps *)

  Definition vals := list (string * V).

  (** recorders/case.py 42-53, plus the attribute _derivs that
      sqlite_reader.py 93 adds *)
  Record case : Type := mkCase {
    k_id : string; k_timestamp : option T; k_success : option nat; k_msg : option string;
    k_parameters : option vals; k_unknowns : option vals; k_derivs : option D;
    k_resids : option vals; k__derivs : option D }.

  (** the metadata of one recorded iteration and the (filtered) vectors *)
  Record iteration : Type := mkIter {
    i_coord : coord; i_timestamp : T; i_success : nat; i_msg : string;
    i_params : vals; i_unknowns : vals; i_resids : vals }.

  (** recording calls *)
  Inductive event : Type :=
  | EIter (i : iteration)
  | EDerivs (c : coord) (ts : T) (d : D).

  (** the dictionary stored for an iteration, sqlite_recorder.py 123-134 *)
  Record idata : Type := mkData {
    d_timestamp : T; d_success : nat; d_msg : string;
    d_params : option vals; d_unknowns : option vals; d_resids : option vals }.

  Definition idata_of (o : rec_opts) (i : iteration) : idata :=
    mkData (i_timestamp i) (i_success i) (i_msg i)
      (if ro_params o then Some (i_params i) else None)
      (if ro_unknowns o then Some (i_unknowns i) else None)
      (if ro_resids o then Some (i_resids i) else None).

  (** SqliteDict.__setitem__ is REPLACE INTO: the old row goes away and the new
      one comes last *)
  Definition replace_row {A} (d : list (string * A)) (k : string) (v : A) : list (string * A) :=
    (if smem d k then sdel d k else d) ++ [(k, v)].

  Record sqlite : Type := mkSqlite {
    q_iterations : list (string * idata); q_derivs : list (string * D) }.

  (** sqlite_recorder.py record_iteration 94-136, record_derivatives 138-161 *)
  Definition sq_record (o : rec_opts) (f : sqlite) (e : event) : sqlite :=
    match e with
    | EIter i => mkSqlite (replace_row (q_iterations f) (format_coord (i_coord i)) (idata_of o i)) (q_derivs f)
    | EDerivs c _ d => mkSqlite (q_iterations f) (replace_row (q_derivs f) (format_coord c) d)
    end.
  Definition sq_write (o : rec_opts) (l : list event) : sqlite :=
    fold_left (sq_record o) l (mkSqlite [] []).

  (** sqlite_reader.py 55-56 *)
  Definition sq_keys (f : sqlite) : list string := map fst (q_iterations f).

  (** case.py 42-53 *)
  Definition case_of (id : string) (d : idata) : case :=
    mkCase id (Some (d_timestamp d)) (Some (d_success d)) (Some (d_msg d))
      (d_params d) (d_unknowns d) None (d_resids d) None.

  (** sqlite_reader.py 81-95, a string identifier *)
  Definition sq_get_case (f : sqlite) (id : string) : res case :=
    match sget (q_iterations f) id with
    | None => Err KeyError
    | Some d =>
        let c := case_of id d in
        match sget (q_derivs f) id with
        | None => Ok c
        | Some dd => Ok (mkCase (k_id c) (k_timestamp c) (k_success c) (k_msg c)
                           (k_parameters c) (k_unknowns c) (k_derivs c) (k_resids c) (Some dd))
        end
    end.

  (** tuple indexing with a Python int *)
  Definition py_index {A} (l : list A) (z : Z) : res A :=
    let n := Z.of_nat (length l) in
    let z' := (if z <? 0 then z + n else z)%Z in
    if ((z' <? 0) || (n <=? z'))%bool%Z then Err IndexError
    else match nth_error l (Z.to_nat z') with Some a => Ok a | None => Err IndexError end.

  (** sqlite_reader.py 73-76, an integer *)
  Definition sq_get_case_int (f : sqlite) (z : Z) : res case :=
    let! id := py_index (sq_keys f) z in sq_get_case f id.

  (** *** HDF5 *)

  (** a top level group: attributes, the three vector subgroups, Derivs *)
  Record h5group : Type := mkH5 {
    h_timestamp : T; h_success : nat; h_msg : string;
    h_params : option vals; h_unknowns : option vals; h_resids : option vals;
    h_derivs : option D }.

  (** hdf5_recorder.py record_iteration 102-157 (require_group gives the
      existing group; create_group of an existing name raises ValueError) and
      record_derivatives 159-193 *)
  Definition h5_record (o : rec_opts) (f : list (string * h5group)) (e : event)
      : list (string * h5group) * res unit :=
    match e with
    | EIter i =>
        let k := format_coord (i_coord i) in
        let d := idata_of o i in
        match sget f k with
        | None => (sset f k (mkH5 (i_timestamp i) (i_success i) (i_msg i)
                               (d_params d) (d_unknowns d) (d_resids d) None), Ok tt)
        | Some g =>
            (* the attributes are already overwritten when create_group fails *)
            let f' := sset f k (mkH5 (i_timestamp i) (i_success i) (i_msg i)
                               (h_params g) (h_unknowns g) (h_resids g) (h_derivs g)) in
            if (ro_params o || ro_unknowns o || ro_resids o)%bool
            then (f', Err ValueError) else (f', Ok tt)
        end
    | EDerivs c _ d =>
        let k := format_coord c in
        match sget f k with
        | None => (f, Err KeyError)
        | Some g =>
            match h_derivs g with
            | Some _ => (f, Err ValueError)
            | None => (sset f k (mkH5 (h_timestamp g) (h_success g) (h_msg g)
                                  (h_params g) (h_unknowns g) (h_resids g) (Some d)), Ok tt)
            end
        end
    end.

  (** the recording run stops at the first exception *)
  Fixpoint h5_write (o : rec_opts) (f : list (string * h5group)) (l : list event)
      : list (string * h5group) * res unit :=
    match l with
    | [] => (f, Ok tt)
    | e :: l' => match h5_record o f e with
                 | (f', Ok _) => h5_write o f' l'
                 | (f', Err x) => (f', Err x)
                 end
    end.

  (** keys of an HDF5 file come in alphabetical order *)
  Fixpoint insert_key (k : string) (l : list string) : list string :=
    match l with
    | [] => [k]
    | k' :: l' => if (k <=? k')%string then k :: l else k' :: insert_key k l'
    end.
  Definition sort_keys (l : list string) : list string := fold_right insert_key [] l.

  (** hdf5_reader.py 80-81 *)
  Definition h5_keys (f : list (string * h5group)) : list string := sort_keys (map fst f).

  (** hdf5_reader.py 106-108 with _group_to_dict 10-44: subgroups and datasets
      only, attributes are not read; the derivatives are under the key
      'Derivs', which case.py does not look at *)
  Definition h5_get_case (f : list (string * h5group)) (id : string) : res case :=
    match sget f id with
    | None => Err KeyError
    | Some g => Ok (mkCase id None None None (h_params g) (h_unknowns g) None (h_resids g) None)
    end.
End Files.
Arguments case : clear implicits.
Arguments iteration : clear implicits.
Arguments event : clear implicits.
Arguments sqlite : clear implicits.

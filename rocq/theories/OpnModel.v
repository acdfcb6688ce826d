(** Model of the opening of a recorded file: openmdao/util/record_util.py is_valid_sqlite3_db
    (lines 93-116), openmdao/recorders/case_reader.py CaseReader (5-31), case_reader_base.py
    __init__ (29-36), sqlite_reader.py __init__ and _load (18-59), hdf5_reader.py __init__ and
    _load (57-84).
    A file is a list of bytes.  What sqlite and HDF5 find in it is given by two functions; both
    give the metadata (None: no such key) and the keys of the cases.  A file that sqlite cannot
    read raises [sql_error], one that HDF5 cannot read raises IOError (OSError).  A file name is
    always given. *)
From Verif Require Import Base ExprModel LcnModel.
Local Open Scope list_scope.
Local Open Scope nat_scope.

Inductive path := Absent | Directory | Regular (bytes : list nat).
(** the metadata of a file: format_version, Parameters, Unknowns *)
Record meta (M : Type) := mkMeta { y_version : option nat; y_params : option M; y_unknowns : option M }.
Arguments mkMeta {M}. Arguments y_version {M}. Arguments y_params {M}. Arguments y_unknowns {M}.
(** a reader: the attributes parameters and unknowns of the base class, _parameters and
    _unknowns, _case_keys and num_cases *)
Inductive kind := Sqlite | Hdf5.
Record reader (M : Type) := mkR { r_kind : kind; r_version : option nat; r_parameters : option M; r_unknowns : option M; r__parameters : option M; r__unknowns : option M; r_keys : list txt; r_num : nat }.
Arguments mkR {M}. Arguments r_kind {M}. Arguments r_version {M}. Arguments r_parameters {M}. Arguments r_unknowns {M}. Arguments r__parameters {M}. Arguments r__unknowns {M}. Arguments r_keys {M}. Arguments r_num {M}.

Section Open.
  Context {M : Type}.
  (** SqliteDict: the table metadata and the keys of the table iterations *)
  Variable sql : list nat -> option (meta M * list txt).
  Variable sql_error : pyerr.
  (** h5py: the group metadata, if any, and all the keys of the file in order *)
  Variable h5 : list nat -> option (option (meta M) * list txt).
  Variable h5py : bool.

  (** b'SQLite format 3\x00' *)
  Definition magic : list nat := map nat_of_ascii (t_ "SQLite format 3") ++ [0].
  Definition is_valid_sqlite3_db (p : path) : bool :=
    match p with
    | Regular b => if length b <? 100 then false else if list_eq_dec Nat.eq_dec (firstn 16 (firstn 100 b)) magic then true else false
    | _ => false
    end.
  Definition known (v : option nat) : bool := match v with Some 3 => true | Some 4 => true | _ => false end.
  Definition load (k : kind) (m : meta M) (keys : list txt) : res (reader M) :=
    if known (y_version m) then Ok (mkR k (y_version m) None None (y_params m) (y_unknowns m) keys (length keys)) else Err ValueError.
  Definition sqlite_reader (p : path) : res (reader M) :=
    if is_valid_sqlite3_db p
    then match p with
         | Regular b => match sql b with Some (m, keys) => load Sqlite m keys | None => Err sql_error end
         | _ => Err OSError
         end
    else Err OSError.
  (** f['metadata'] and ['format_version'] raise KeyError *)
  Definition hdf5_reader (p : path) : res (reader M) :=
    if h5py
    then match p with
         | Regular b =>
             match h5 b with
             | None => Err OSError
             | Some (None, _) => Err KeyError
             | Some (Some m, keys) => match y_version m with None => Err KeyError | Some _ => load Hdf5 m (filter (fun k => negb (teqb k (t_ "metadata"))) keys) end
             end
         | _ => Err OSError
         end
    else Err RuntimeError.
  Definition case_reader (p : path) : res (reader M) :=
    match sqlite_reader p with
    | Err OSError => match hdf5_reader p with Err OSError => Err OSError | r => r end
    | r => r
    end.
End Open.

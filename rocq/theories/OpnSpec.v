(** What it takes to be a recorded file. *)
From Verif Require Import Base ExprModel LcnModel OpnModel.
Local Open Scope list_scope.
Local Open Scope nat_scope.

(** the first sixteen bytes of a SQLite file, of at least 100 *)
Definition sqlite_header (p : path) : Prop :=
  exists r, p = Regular ([83; 81; 76; 105; 116; 101; 32; 102; 111; 114; 109; 97; 116; 32; 51; 0] ++ r) /\ 84 <= length r.
Definition version_known (v : option nat) : Prop := v = Some 3 \/ v = Some 4.
(** the keys but for that of the metadata *)
Inductive case_keys : list txt -> list txt -> Prop :=
| ck_nil : case_keys [] []
| ck_meta : forall ks r, case_keys ks r -> case_keys (t_ "metadata" :: ks) r
| ck_case : forall k ks r, k <> t_ "metadata" -> case_keys ks r -> case_keys (k :: ks) (k :: r).
Section Spec.
  Context {M : Type} (sql : list nat -> option (meta M * list txt)) (h5 : list nat -> option (option (meta M) * list txt)).
  (** a file of cases of one of the two kinds *)
  Definition cases_in (p : path) (k : kind) (m : meta M) (keys : list txt) : Prop :=
    version_known (y_version m) /\ exists b, p = Regular b /\
    match k with
    | Sqlite => sqlite_header p /\ sql b = Some (m, keys)
    | Hdf5 => ~ sqlite_header p /\ exists ks, h5 b = Some (Some m, ks) /\ case_keys ks keys
    end.
End Spec.

(** C121: a file of cases is opened by its contents, and nothing else is. *)
From Verif Require Import Base BaseFacts ExprModel LcnModel LcnProofs OpnModel OpnSpec.
Local Open Scope list_scope.
Local Open Scope nat_scope.

Theorem C121_header : forall p, is_valid_sqlite3_db p = true <-> sqlite_header p.
Proof.
  intros p. unfold sqlite_header. split.
  - destruct p as [| |b]; try discriminate. cbn [is_valid_sqlite3_db]. destruct (Nat.ltb_spec (length b) 100) as [H|H]; [discriminate|]. destruct (list_eq_dec Nat.eq_dec (firstn 16 (firstn 100 b)) magic) as [E|_]; [|discriminate]. intros _. rewrite firstn_firstn in E. change (Nat.min 16 100) with 16 in E. exists (skipn 16 b). split; [rewrite <- (firstn_skipn 16 b) at 1; rewrite E; reflexivity|]. rewrite skipn_length. lia.
  - intros (r & -> & H). unfold is_valid_sqlite3_db. destruct (Nat.ltb_spec (length ([83; 81; 76; 105; 116; 101; 32; 102; 111; 114; 109; 97; 116; 32; 51; 0] ++ r)) 100) as [L|L]; [rewrite app_length in L; cbn [length] in L; lia|]. rewrite firstn_firstn. change (Nat.min 16 100) with 16. rewrite firstn_app. change (16 - length [83; 81; 76; 105; 116; 101; 32; 102; 111; 114; 109; 97; 116; 32; 51; 0]) with 0. cbn [firstn app]. destruct (list_eq_dec Nat.eq_dec _ magic) as [_|N]; [reflexivity|]. exfalso. apply N. reflexivity.
Qed.
Print Assumptions C121_header.
Lemma known_iff : forall v, known v = true <-> version_known v.
Proof.
  intros [v|]; unfold version_known; cbn; [|split; [discriminate|intros [E|E]; discriminate]]. destruct v as [|[|[|[|[|v]]]]]; cbn; split; try discriminate; auto; intros [E|E]; discriminate.
Qed.
Definition of_cases (keys : list txt) : list txt := filter (fun k => negb (teqb k (t_ "metadata"))) keys.
Lemma of_cases_iff : forall ks r, case_keys ks r <-> r = of_cases ks.
Proof.
  intros ks r. split.
  - induction 1 as [|ks r H IH|k ks r N H IH]; [reflexivity|exact IH|]. unfold of_cases. cbn [filter]. destruct (teqb_spec k (t_ "metadata")) as [E|_]; [contradiction|]. cbn. f_equal. exact IH.
  - intros ->. induction ks as [|k ks IH]; [constructor|]. unfold of_cases. cbn [filter]. destruct (teqb_spec k (t_ "metadata")) as [->|N]; cbn; constructor; assumption.
Qed.
Section Props.
  Context {M : Type} (sql : list nat -> option (meta M * list txt)) (sql_error : pyerr) (h5 : list nat -> option (option (meta M) * list txt)).
  Notation open := (case_reader sql sql_error h5).
  Lemma load_iff : forall k (m : meta M) keys r, load k m keys = Ok r <-> version_known (y_version m) /\ r = mkR k (y_version m) None None (y_params m) (y_unknowns m) keys (length keys).
  Proof. intros k m keys r. unfold load. rewrite <- known_iff. destruct (known (y_version m)); split; [intros E; injection E as <-; split; reflexivity|intros [_ ->]; reflexivity|discriminate|intros [E _]; discriminate]. Qed.
  (** With h5py, a file is opened exactly if it holds cases, with a reader of its kind that has
      the version, the metadata and the keys of the file. *)
  Theorem C121_open : forall p r, sql_error <> OSError ->
    (open true p = Ok r <-> exists k m keys, cases_in sql h5 p k m keys /\ r = mkR k (y_version m) None None (y_params m) (y_unknowns m) keys (length keys)).
  Proof.
    intros p r Ne. unfold case_reader, sqlite_reader, hdf5_reader, cases_in. destruct (is_valid_sqlite3_db p) eqn:V.
    - apply C121_header in V. destruct p as [| |b]; [destruct V as (? & E & _); discriminate|destruct V as (? & E & _); discriminate|]. destruct (sql b) as [[m keys]|] eqn:S.
      + destruct (load Sqlite m keys) as [r'|e] eqn:L.
        * pose proof L as L'. apply load_iff in L'. destruct L' as [K ->]. split.
          -- intros E. injection E as <-. exists Sqlite, m, keys. split; [split; [exact K|]; exists b; split; [reflexivity|split; assumption]|reflexivity].
          -- intros (k & m' & keys' & (K' & b' & Eb & H) & ->). injection Eb as <-. destruct k; [destruct H as [_ H]; rewrite S in H; injection H as <- <-; reflexivity|destruct H as [H _]; contradiction].
        * assert (e = ValueError) as -> by (unfold load in L; destruct (known (y_version m)); [discriminate|congruence]). split; [discriminate|]. intros (k & m' & keys' & (K' & b' & Eb & H) & ->). injection Eb as <-. destruct k; [|destruct H as [H _]; contradiction]. destruct H as [_ H]. rewrite S in H. injection H as <- <-. unfold load in L. apply known_iff in K'. rewrite K' in L. discriminate.
      + destruct sql_error eqn:Es; try congruence; (split; [discriminate|]; intros (k & m' & keys' & (K' & b' & Eb & H) & ->); injection Eb as <-; destruct k; [destruct H as [_ H]; congruence|destruct H as [H _]; contradiction]).
    - assert (NV : ~ sqlite_header p) by (rewrite <- C121_header; congruence). destruct p as [| |b]; [split; [discriminate|intros (k & m & keys & (_ & b & E & _) & _); discriminate]|split; [discriminate|intros (k & m & keys & (_ & b & E & _) & _); discriminate]|].
      destruct (h5 b) as [[[m|] keys]|] eqn:S.
      + assert (G : (match (match y_version m with None => Err KeyError | Some _ => load Hdf5 m (of_cases keys) end) with Err OSError => Err OSError | r0 => r0 end) = (if known (y_version m) then load Hdf5 m (of_cases keys) else match y_version m with None => Err KeyError | Some _ => Err ValueError end)) by (unfold load; destruct (y_version m) as [v|]; [destruct (known (Some v)); reflexivity|reflexivity]).
        fold (of_cases keys). rewrite G. destruct (known (y_version m)) eqn:K.
        * rewrite load_iff. split.
          -- intros [K' ->]. exists Hdf5, m, (of_cases keys). split; [split; [exact K'|]; exists b; split; [reflexivity|split; [exact NV|exists keys; split; [exact S|apply of_cases_iff; reflexivity]]]|reflexivity].
          -- intros (k & m' & keys' & (K' & b' & Eb & H) & ->). injection Eb as <-. destruct k; [destruct H as [H _]; contradiction|]. destruct H as [_ (ks & H & Kk)]. rewrite S in H. injection H as <- <-. apply of_cases_iff in Kk. subst keys'. split; [exact K'|reflexivity].
        * split; [destruct (y_version m); discriminate|]. intros (k & m' & keys' & (K' & b' & Eb & H) & ->). injection Eb as <-. destruct k; [destruct H as [H _]; contradiction|]. destruct H as [_ (ks & H & Kk)]. rewrite S in H. injection H as <- <-. apply of_cases_iff in Kk. subst keys'. apply known_iff in K'. congruence.
      + split; [discriminate|]. intros (k & m' & keys' & (K' & b' & Eb & H) & ->). injection Eb as <-. destruct k; [destruct H as [H _]; contradiction|]. destruct H as [_ (ks & H & Kk)]. rewrite S in H. discriminate.
      + split; [discriminate|]. intros (k & m' & keys' & (K' & b' & Eb & H) & ->). injection Eb as <-. destruct k; [destruct H as [H _]; contradiction|]. destruct H as [_ (ks & H & Kk)]. rewrite S in H. discriminate.
  Qed.
  (** A file of another kind, a directory or a missing file is reported as an input error ... *)
  Theorem C121_other : forall p, ~ sqlite_header p -> (forall b, p = Regular b -> h5 b = None) -> open true p = Err OSError.
  Proof.
    intros p N H. unfold case_reader, sqlite_reader, hdf5_reader. destruct (is_valid_sqlite3_db p) eqn:V; [apply C121_header in V; contradiction|]. destruct p as [| |b]; [reflexivity|reflexivity|]. rewrite (H b eq_refl). reflexivity.
  Qed.
  (** ... but without h5py always as a RuntimeError. *)
  Theorem C121_no_h5py_refuted : forall p, ~ sqlite_header p -> open false p = Err RuntimeError.
  Proof. intros p N. unfold case_reader, sqlite_reader, hdf5_reader. destruct (is_valid_sqlite3_db p) eqn:V; [apply C121_header in V; contradiction|reflexivity]. Qed.
  (** The attributes parameters and unknowns of a reader are never set. *)
  Theorem C121_metadata_refuted : forall h p r, sql_error <> OSError -> open h p = Ok r -> r_parameters r = None /\ r_unknowns r = None.
  Proof.
    intros h p r Ne H. assert (L : forall k m keys, load k m keys = Ok r -> r_parameters r = None /\ r_unknowns r = None) by (intros k m keys E; apply load_iff in E; destruct E as [_ ->]; split; reflexivity).
    unfold case_reader in H. destruct (sqlite_reader sql sql_error p) as [r'|e] eqn:S.
    - injection H as ->. unfold sqlite_reader in S. destruct (is_valid_sqlite3_db p); [|discriminate]. destruct p as [| |b]; try discriminate. destruct (sql b) as [[m keys]|]; [exact (L _ _ _ S)|discriminate].
    - destruct e; try discriminate. destruct (hdf5_reader h5 h p) as [r'|e] eqn:T; [|destruct e; discriminate]. injection H as ->. unfold hdf5_reader in T. destruct h; [|discriminate]. destruct p as [| |b]; try discriminate. destruct (h5 b) as [[[m|] keys]|]; try discriminate. destruct (y_version m); [exact (L _ _ _ T)|discriminate].
  Qed.
End Props.
Print Assumptions C121_open.
Print Assumptions C121_other.
Print Assumptions C121_no_h5py_refuted.
Print Assumptions C121_metadata_refuted.

(** a file of SQLite with two cases, one of HDF5 with one, and a text *)
Definition opn_sql : list nat := magic ++ repeat 7 84.
Definition opn_open (b : list nat) : res (reader nat) :=
  case_reader (fun _ => Some (mkMeta (Some 4) (Some 11) (Some 12), [t_ "rank0:Driver|1"; t_ "rank0:Driver|2"])) ValueError
    (fun b => match b with 137 :: _ => Some (Some (mkMeta (Some 4) None None), [t_ "a"; t_ "metadata"]) | _ => None end) true (Regular b).
Example C121_ex : opn_open opn_sql = Ok (mkR Sqlite (Some 4) None None (Some 11) (Some 12) [t_ "rank0:Driver|1"; t_ "rank0:Driver|2"] 2)
  /\ opn_open [137; 72; 68; 70] = Ok (mkR Hdf5 (Some 4) None None None None [t_ "a"] 1) /\ opn_open [65; 66] = Err OSError
  /\ opn_open (firstn 99 opn_sql) = Err OSError.
Proof. vm_compute. repeat split. Qed.

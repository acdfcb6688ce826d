(** C106: file variables. *)
From Verif Require Import Base BaseFacts DirModel DirSpec DirProofs FrefModel FrefSpec FrefProofs.
Local Open Scope string_scope.

(** After setup the FileRefs of a component stand for files in its directory,
    which exist or were made, unless a FileRef is shared with a component in
    another directory. *)
Theorem C106_setup : forall cs h dirs h' dirs',
  setup_comps cs (h, dirs) = Ok (h', dirs') ->
  incl dirs dirs' /\
  ((forall c, In c cs -> c_create c = false) -> dirs' = dirs) /\
  forall c n i f, In c cs -> In (n, i) (c_unk c) \/ In (n, i) (c_par c) -> hget h i = Some f ->
    (forall c' n', In c' cs -> In (n', i) (c_unk c') \/ In (n', i) (c_par c') -> c_dir c' = c_dir c) ->
    exists f', hget h' i = Some f' /\ f_name f' = f_name f /\ f_binary f' = f_binary f /\
      (f_name f <> "" -> sub_dir (c_dir c) (f_name f) (abspath f')) /\
      In (dirname (abspath f')) dirs'.
Proof.
  intros cs h dirs h' dirs' H. destruct (setup_comps_ok _ _ _ H) as ((A1 & A2 & A3) & B & C & D). cbn [fst snd] in *.
  split; [exact A3|]. split; [exact D|]. intros c n i f Hc Hi Hf Hs.
  assert (Hids : forall c n, In (n, i) (c_unk c) \/ In (n, i) (c_par c) -> In i (ids c)).
  { intros c0 n0 H0. unfold ids. apply in_or_app. destruct H0 as [H0|H0]; [left|right]; apply in_map_iff; exists (n0, i); auto. }
  destruct (C c i Hc (Hids c n Hi)) as (f' & F1 & F2 & F3).
  { intros c' Hc' Hi'. unfold ids in Hi'. apply in_app_or in Hi'. destruct Hi' as [Hi'|Hi'];
      apply in_map_iff in Hi'; destruct Hi' as ([n' i'] & E & Hi'); cbn in E; subst i'; apply (Hs c' n' Hc'); auto. }
  cbn [fst snd] in *. destruct (A1 i f' F1) as (g & G & E1 & E2). rewrite Hf in G. inversion G; subst g.
  exists f'. split; [exact F1|]. split; [auto|]. split; [auto|]. split; [|exact F3].
  intro Hne. unfold abspath. rewrite <- E1, F2. pose proof (sub_dir_setup (c_dir c) (f_name f) None) as S.
  unfold setup_dir in S. destruct (String.eqb (f_name f) "") eqn:E; [apply String.eqb_eq in E; contradiction|]. exact S.
Qed.
Print Assumptions C106_setup.

(** Setup fails only for a missing directory that may not be made. *)
Theorem C106_setup_error : forall cs h dirs e,
  setup_comps cs (h, dirs) = Err e ->
  (forall c n i, In c cs -> In (n, i) (c_unk c) \/ In (n, i) (c_par c) -> hget h i <> None) ->
  e = RuntimeError /\
  exists c n i f, In c cs /\ (In (n, i) (c_unk c) \/ In (n, i) (c_par c)) /\ c_create c = false /\
    hget h i = Some f /\ ~ In (dirname (abspath (mkF (f_name f) (c_dir c) (f_binary f)))) dirs.
Proof.
  intros cs h dirs e H Hh.
  assert (K : forall c i, In i (ids c) -> exists n, In (n, i) (c_unk c) \/ In (n, i) (c_par c)).
  { intros c i Hi. unfold ids in Hi. apply in_app_or in Hi. destruct Hi as [Hi|Hi]; apply in_map_iff in Hi;
      destruct Hi as ([n j] & E & Hi); cbn in E; subst j; exists n; auto. }
  destruct (setup_comps_err _ _ _ H) as (-> & c & i & f & Hc & Hi & Hcr & Hf & Hn).
  { intros c i Hc Hi. destruct (K c i Hi) as [n Hn]. eapply Hh; eassumption. }
  split; [reflexivity|]. destruct (K c i Hi) as [n Hni]. exists c, n, i, f. repeat split; auto.
Qed.
Print Assumptions C106_setup_error.

(** A FileRef given to components in different directories stands for a file
    in the directory of the last one. *)
Theorem C106_shared_refuted : forall d1 d2 name u1 u2, name <> "" -> (forall n', name <> "/" ++ n') ->
  let cs := [mkC "a" d1 true [(u1, 0%nat)] []; mkC "b" d2 true [] [(u2, 0%nat)]] in
  exists h' dirs' f', setup_comps cs ([(0%nat, mkF name "" None)], []) = Ok (h', dirs') /\
    hget h' 0 = Some f' /\ sub_dir d2 name (abspath f').
Proof.
  intros d1 d2 name u1 u2 Hn Hr cs.
  assert (Ea : isabs name = false).
  { destruct (isabs name) eqn:E; [|reflexivity]. apply isabs_iff in E. destruct E as [n' E]. exfalso. exact (Hr n' E). }
  pose proof (sub_dir_setup d2 name None) as S. unfold setup_dir in S.
  destruct (String.eqb name "") eqn:E; [apply String.eqb_eq in E; contradiction|]. cbn [fst] in S.
  unfold cs. cbn [setup_comps setup_vars map snd c_unk c_par app bind fileref_setup hget dget Nat.eqb existsb c_create c_dir f_name f_binary hset dset].
  destruct (String.eqb _ _ || false)%bool; cbn [bind setup_vars setup_comps]; eexists _, _, _;
    (split; [reflexivity|]); (split; [reflexivity|]); exact S.
Qed.
Print Assumptions C106_shared_refuted.

(** Connections pass the type check exactly if they are between files of the
    same mode, or between variables that are no files. *)
Theorem C106_types : forall h params unknowns conns,
  heap_ok h params -> heap_ok h unknowns ->
  (check_conns h params unknowns conns = Ok tt <-> Forall (sound_conn h params unknowns) conns).
Proof. exact check_conns_spec. Qed.
Print Assumptions C106_types.

(** The errors about shared files: exactly the unconnected params whose file
    is also that of a connected param, and the files of params with different
    sources. *)
Theorem C106_check : forall h params unknowns conns,
  NoDup (map fst params) -> NoDup (map fst conns) -> heap_ok h params -> heap_ok h unknowns ->
  Forall (sound_conn h params unknowns) conns ->
  exists errs, check_connections h conns params unknowns = Ok errs /\
    (forall n, In (EUnconnected n) errs <->
       exists p m s, is_file h params n p /\ sget conns n = None /\ is_file h params m p /\ sget conns m = Some s) /\
    (forall p, In (EMulti p) errs <->
       exists m m' s s', s <> s' /\ is_file h params m p /\ is_file h params m' p /\
         sget conns m = Some s /\ sget conns m' = Some s').
Proof.
  intros h params unknowns conns Hnp Hnc Hp Hu Hs.
  assert (Src : forall m s p, is_file h params m p -> sget conns m = Some s -> exists q, is_file h unknowns s q).
  { intros m s p (i & f & A & B & C) Hc. rewrite Forall_forall in Hs. specialize (Hs _ (sget_In _ _ _ Hc)).
    destruct Hs as [(b & _ & (j & g & F1 & F2 & F3))|[F1 _]]; cbn in *; [|congruence]. exists (abspath g), j, g. auto. }
  destruct (collect_spec h unknowns conns params [] [] (inv_nil h unknowns conns)) as (d & Ed & Hd).
  - exact Hp.
  - intros n i s Hin Hc. destruct (hget h i) as [f|] eqn:Ef; [|exfalso; exact (Hp n i Hin Ef)].
    apply (Src n s (abspath f)); [|exact Hc]. exists i, f. split; [apply In_sget; assumption|auto].
  - exists (flat_map entry_errors d). unfold check_connections.
    rewrite (proj2 (check_conns_spec h params unknowns conns Hp Hu) Hs). cbn [bind]. rewrite Ed. cbn [bind].
    split; [reflexivity|]. destruct (errors_spec h params unknowns conns d Hd Hnp) as [E1 E2]. split.
    + intro n. rewrite E1. split.
      * intros (p & m & s & q & A & B & C & D & E). exists p, m, s. auto.
      * intros (p & m & s & A & B & C & D). destruct (Src m s p C D) as [q Q]. exists p, m, s, q. auto.
    + intro p. rewrite E2. split.
      * intros (m & m' & s & s' & q & q' & H). exists m, m', s, s'. tauto.
      * intros (m & m' & s & s' & H & A & A' & B & B'). destruct (Src m s p A B) as [q Q]. destruct (Src m' s' p A' B') as [q' Q'].
        exists m, m', s, s', q, q'. tauto.
Qed.
Print Assumptions C106_check.

(** If the files of the variables do not get in each other's way, every run of
    the components, in any order, reads and writes as if the contents were
    passed along the connections as values; it stops with an error exactly
    where a source is to be copied that does not exist. *)
Theorem C106_run : forall canon beh h params unknowns conns cs st,
  NoDup (map fst conns) -> heap_ok h params -> heap_ok h unknowns ->
  Forall (sound_conn h params unknowns) conns ->
  separate canon h params unknowns conns ->
  Forall (declared params unknowns) cs ->
  match run canon beh h params unknowns conns cs st,
        spec_run beh h params unknowns conns (content canon h st params) cs (content canon h st unknowns) with
  | Ok (st', log), Some (v', log') =>
      log = log' /\ forall u p, is_file h unknowns u p -> content canon h st' unknowns u = v' u
  | Err e, None => e = OSError
  | _, _ => False
  end.
Proof.
  intros canon beh h params unknowns conns cs st Hn Hp Hu Hs Hsep Hc.
  assert (C : forall st vars u p, is_file h vars u p -> content canon h st vars u = sget st (canon p)).
  { intros st0 vars u p (i & f & A & B & ->). unfold content. rewrite A, B. reflexivity. }
  assert (R : rel canon h params unknowns conns (content canon h st params) (content canon h st unknowns) st).
  { split; [intros u p H; symmetry; apply C; exact H|intros n p H _; symmetry; apply C; exact H]. }
  pose proof (run_spec canon beh h params unknowns conns Hn Hs Hsep _ cs st _ Hc Hu Hp R) as H.
  destruct (run canon beh h params unknowns conns cs st) as [[st' log]|e];
    destruct (spec_run beh h params unknowns conns _ cs _) as [[v' log']|]; auto.
  destruct H as [[A _] ->]. split; [reflexivity|]. intros u p Hup. rewrite (C st' unknowns u p Hup). auto.
Qed.
Print Assumptions C106_run.

(** A text copy is the content itself exactly if there is no carriage return
    in it. *)
Theorem C106_text : forall s, (unl s = s <-> no_cr s) /\ no_cr (unl s).
Proof.
  intro s. split; [|apply unl_no_cr]. split; [|apply unl_id]. intro E. rewrite <- E. apply unl_no_cr.
Qed.
Print Assumptions C106_text.

(** ** An example *)
Definition ex_h : heap :=
  [(0%nat, mkF "a.txt" "/w" None); (1%nat, mkF "b.dat" "/w" (Some true));
   (2%nat, mkF "in.txt" "/w/m" None); (3%nat, mkF "b.dat" "/w" (Some true)); (4%nat, mkF "out.txt" "/w/m" (Some false));
   (5%nat, mkF "fin.txt" "/w" None); (6%nat, mkF "setup.txt" "/w" None)].
Definition ex_unk : list (string * value) := [("s.a", VFile 0); ("s.b", VFile 1); ("m.out", VFile 4)].
Definition ex_par : list (string * value) := [("m.in", VFile 2); ("m.b", VFile 3); ("t.fin", VFile 5); ("t.cfg", VFile 6)].
Definition ex_conns : list (string * string) := [("m.in", "s.a"); ("m.b", "s.b"); ("t.fin", "m.out")].
Definition ex_cs : list comp :=
  [mkC "s" "/w" false [("s.a", 0%nat); ("s.b", 1%nat)] [];
   mkC "m" "/w/m" false [("m.out", 4%nat)] [("m.in", 2%nat); ("m.b", 3%nat)];
   mkC "t" "/w" false [] [("t.fin", 5%nat); ("t.cfg", 6%nat)]].
Definition ex_beh (c : string) (ins : list (option string)) : list string :=
  match c, ins with
  | "s", _ => ["one"; "two"]
  | "m", [Some x; Some y] => [x ++ y]
  | _, _ => []
  end.
Definition idc (s : string) : string := s.

Lemma ex_separate : separate idc ex_h ex_par ex_unk ex_conns.
Proof.
  assert (U : forall u p, is_file ex_h ex_unk u p ->
    (u, p) = ("s.a", "/w/a.txt") \/ (u, p) = ("s.b", "/w/b.dat") \/ (u, p) = ("m.out", "/w/m/out.txt")).
  { intros u p (i & f & A & B & ->). apply sget_In in A. cbn in A.
    repeat (destruct A as [A|A]; [inversion A; subst; cbn in B; inversion B; subst; cbn; tauto|]). destruct A. }
  assert (P : forall u p, is_file ex_h ex_par u p ->
    (u, p) = ("m.in", "/w/m/in.txt") \/ (u, p) = ("m.b", "/w/b.dat") \/ (u, p) = ("t.fin", "/w/fin.txt") \/ (u, p) = ("t.cfg", "/w/setup.txt")).
  { intros u p (i & f & A & B & ->). apply sget_In in A. cbn in A.
    repeat (destruct A as [A|A]; [inversion A; subst; cbn in B; inversion B; subst; cbn; tauto|]). destruct A. }
  constructor; unfold idc.
  - intros u u' p p' H H' E. apply U in H, H'. intuition congruence.
  - intros n u p p' H H' E. apply P in H. apply U in H'.
    destruct H as [H|[H|[H|H]]], H' as [H'|[H'|H']]; inversion H; inversion H'; subst; try discriminate. split; reflexivity.
  - intros n n' p p' H H' E. apply P in H, H'.
    destruct H as [H|[H|[H|H]]], H' as [H'|[H'|[H'|H']]]; inversion H; inversion H'; subst; try discriminate; reflexivity.
Qed.

Example C106_case :
  check_connections ex_h ex_conns ex_par ex_unk = Ok [] /\
  Forall (sound_conn ex_h ex_par ex_unk) ex_conns /\
  separate idc ex_h ex_par ex_unk ex_conns /\ Forall (declared ex_par ex_unk) ex_cs /\
  exists st', run idc ex_beh ex_h ex_par ex_unk ex_conns ex_cs [("/w/setup.txt", "cfg")] =
    Ok (st', [[]; [Some "one"; Some "two"]; [Some "onetwo"; Some "cfg"]]) /\
  content idc ex_h st' ex_unk "m.out" = Some "onetwo".
Proof.
  split; [reflexivity|]. split.
  { apply check_conns_spec; [| |reflexivity]; intros n i H; cbn in H;
      repeat (destruct H as [H|H]; [inversion H; subst; discriminate|]); destruct H. }
  split; [exact ex_separate|]. split.
  { repeat constructor; cbn; try (intros n i H; repeat (destruct H as [H|H]; [inversion H; subst; reflexivity|]); destruct H);
      intuition discriminate. }
  eexists. split; vm_compute; reflexivity.
Qed.

(** ** Where files do get in each other's way *)

(** Two spellings of one file: the transfer empties the file of the source. *)
Theorem C106_alias_refuted : forall canon h f i g st data,
  hget h i = Some g -> is_binary f = is_binary g ->
  abspath f <> abspath g -> canon (abspath f) = canon (abspath g) ->
  sget st (canon (abspath g)) = Some data ->
  exists st', assign_to canon h f (VFile i) st = Ok st' /\ sget st' (canon (abspath g)) = Some "".
Proof.
  intros canon h f i g st data Hi Hb Hne Hc Hd. unfold assign_to, validate. rewrite Hi, Hb, Bool.eqb_reflx. cbn [bind].
  destruct (String.eqb (abspath f) (abspath g)) eqn:E; [apply String.eqb_eq in E; contradiction|].
  rewrite Hd, Hc, sget_sset, String.eqb_refl. eexists. split; [reflexivity|].
  rewrite sget_sset, String.eqb_refl. destruct (is_binary g); reflexivity.
Qed.
Print Assumptions C106_alias_refuted.

(** A param may have the file of another unknown, and two unknowns the same
    file: the check is silent, and a component reads the wrong data. *)
Definition cl_h : heap :=
  [(0%nat, mkF "x" "/w" None); (1%nat, mkF "y" "/w" None); (2%nat, mkF "y" "/w" None); (3%nat, mkF "z" "/w" None)].
Definition cl_unk : list (string * value) := [("s.x", VFile 0); ("s.y", VFile 1)].
Definition cl_par : list (string * value) := [("m.x", VFile 2); ("t.y", VFile 3)].
Definition cl_conns : list (string * string) := [("m.x", "s.x"); ("t.y", "s.y")].
Definition cl_cs : list comp :=
  [mkC "s" "/w" false [("s.x", 0%nat); ("s.y", 1%nat)] []; mkC "m" "/w" false [] [("m.x", 2%nat)];
   mkC "t" "/w" false [] [("t.y", 3%nat)]].
Theorem C106_clobber_refuted :
  check_connections cl_h cl_conns cl_par cl_unk = Ok [] /\
  (exists st', run idc ex_beh cl_h cl_par cl_unk cl_conns cl_cs [] = Ok (st', [[]; [Some "one"]; [Some "one"]])) /\
  (exists v', spec_run ex_beh cl_h cl_par cl_unk cl_conns (fun _ => None) cl_cs (fun _ => None) =
     Some (v', [[]; [Some "one"]; [Some "two"]])).
Proof.
  split; [reflexivity|]. split; eexists; vm_compute; reflexivity.
Qed.
Print Assumptions C106_clobber_refuted.

Theorem C106_outputs_refuted :
  let h := [(0%nat, mkF "x" "/w" None); (1%nat, mkF "x" "/w" None); (2%nat, mkF "z" "/w" None)] in
  let unk := [("s.x", VFile 0); ("s.y", VFile 1)] in let par := [("t.x", VFile 2)] in
  let conns := [("t.x", "s.x")] in
  let cs := [mkC "s" "/w" false [("s.x", 0%nat); ("s.y", 1%nat)] []; mkC "t" "/w" false [] [("t.x", 2%nat)]] in
  check_connections h conns par unk = Ok [] /\
  (exists st', run idc ex_beh h par unk conns cs [] = Ok (st', [[]; [Some "two"]])) /\
  (exists v', spec_run ex_beh h par unk conns (fun _ => None) cs (fun _ => None) = Some (v', [[]; [Some "one"]])).
Proof. cbv zeta. split; [reflexivity|]. split; eexists; vm_compute; reflexivity. Qed.
Print Assumptions C106_outputs_refuted.

(** A text file with carriage returns arrives changed unless the param stands
    for the same file. *)
Theorem C106_text_refuted : forall canon h f i g st data,
  hget h i = Some g -> is_binary f = false -> is_binary g = false ->
  canon (abspath f) <> canon (abspath g) ->
  sget st (canon (abspath g)) = Some data -> ~ no_cr data ->
  exists st' data', assign_to canon h f (VFile i) st = Ok st' /\ sget st' (canon (abspath f)) = Some data' /\ data' <> data.
Proof.
  intros canon h f i g st data Hi Hf Hg Hne Hd Hcr. unfold assign_to, validate. rewrite Hi, Hf, Hg. cbn [Bool.eqb bind].
  destruct (String.eqb (abspath f) (abspath g)) eqn:E; [apply String.eqb_eq in E; congruence|].
  rewrite Hd, sget_sset.
  destruct (String.eqb (canon (abspath g)) (canon (abspath f))) eqn:E2; [apply String.eqb_eq in E2; congruence|].
  try (destruct (String.eqb (canon (abspath f)) (canon (abspath g))) eqn:E3; [apply String.eqb_eq in E3; congruence|]).
  rewrite Hd. eexists _, (unl data). split; [reflexivity|]. split; [rewrite sget_sset, String.eqb_refl; reflexivity|].
  intro H. apply Hcr. apply C106_text. exact H.
Qed.
Print Assumptions C106_text_refuted.

(** A file connected to a param that is no file: the error is an accident. *)
Theorem C106_type_error_refuted : forall h params unknowns t s i conns,
  sget params t = Some VOther -> sget unknowns s = Some (VFile i) ->
  check_connections h ((t, s) :: conns) params unknowns = Err AttributeError.
Proof. intros h params unknowns t s i conns E1 E2. unfold check_connections. cbn. rewrite E1, E2. reflexivity. Qed.
Print Assumptions C106_type_error_refuted.

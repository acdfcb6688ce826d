(** C110 build_directory.  The hypothesis on the working directory says it exists; [top] is
    the directory named by topdir. *)
From Verif Require Import Base BaseFacts BdirModel BdirSpec BdirProofs.
Local Open Scope string_scope.
Local Open Scope list_scope.

Lemma bd_run : forall v force topdir s s' r, is_dict v -> s_fs s (s_cwd s) = Some EDir -> build_directory v force topdir s = (s', r) ->
  s_cwd s' = s_cwd s /\ run force (ops (resolve (s_cwd s) topdir) v) (s_fs s, s_warned s) = ((s_fs s', s_warned s'), r).
Proof.
  intros v force topdir s s' r D W H. unfold build_directory in H. rewrite (build_run force v D _ s W) in H.
  destruct (run force (ops (resolve (s_cwd s) topdir) v) (s_fs s, s_warned s)) as [[f w] r'] eqn:E. injection H as <- <-. split; reflexivity.
Qed.
Lemma ok_dict : forall v force topdir s s', build_directory v force topdir s = (s', Ok tt) -> is_dict v.
Proof. intros [t|items] force topdir s s' H; [discriminate|exact I]. Qed.

(** What a call that ends normally leaves: at every path of the file system, what the
    dictionary and the old file system ask for. *)
Theorem C110_result : forall v force topdir s s',
  plain_dict v -> sound (s_fs s) -> s_fs s (s_cwd s) = Some EDir ->
  build_directory v force topdir s = (s', Ok tt) ->
  forall p, s_fs s' p = filled (negb (is_False force)) (s_fs s) (contents (resolve (s_cwd s) topdir) v) p.
Proof.
  intros v force topdir s s' P S W H p. pose proof (ok_dict _ _ _ _ _ H) as D. destruct (bd_run _ _ _ _ _ _ D W H) as (_ & R).
  destruct (run_effect _ _ _ _ _ _ (ops_plain v P _) S R) as (_ & F & K & _). pose proof (ops_contents v P D _ (run_no_abs _ _ _ _ R)) as E. rewrite E in F, K.
  rewrite F. unfold forced. destruct (is_False force) eqn:Ef; [apply fill_first|].
  assert (Fo : forced force = true) by (unfold forced; rewrite Ef; reflexivity). rewrite Fo in F.
  apply fill_last.
  - intros o Ho. destruct (K p o Ho) as [A B]. split; intros Hx; rewrite <- F; [apply A; exact Hx|apply B; [exact Hx|exact Fo]].
  - intros Hp. rewrite <- F. pose proof (run_dir force (ops (resolve (s_cwd s) topdir) v) (s_fs s, s_warned s) p Hp) as Q. rewrite R in Q. exact Q.
Qed.
Print Assumptions C110_result.

(** Whatever happens, the working directory is the old one afterwards, and directories stay
    directories. *)
Theorem C110_cwd : forall v force topdir s s' r,
  s_fs s (s_cwd s) = Some EDir -> build_directory v force topdir s = (s', r) ->
  s_cwd s' = s_cwd s /\ (forall p, s_fs s p = Some EDir -> s_fs s' p = Some EDir).
Proof.
  intros [t|items] force topdir s s' r W H; [injection H as <- <-; split; [reflexivity|intros p Hp; exact Hp]|].
  destruct (bd_run (VDict items) _ _ _ _ _ I W H) as (C & R). split; [exact C|]. intros p Hp.
  pose proof (run_dir force (ops (resolve (s_cwd s) topdir) (VDict items)) (s_fs s, s_warned s) p Hp) as Q. rewrite R in Q. exact Q.
Qed.
Print Assumptions C110_cwd.

(** With force=False nothing that exists is changed, also when the call fails half way and
    whatever the keys are. *)
Theorem C110_safe : forall v topdir s s' r,
  s_fs s (s_cwd s) = Some EDir -> build_directory v FFalse topdir s = (s', r) ->
  forall p e, s_fs s p = Some e -> s_fs s' p = Some e.
Proof.
  intros [t|items] topdir s s' r W H p e Hp; [injection H as <- <-; exact Hp|].
  destruct (bd_run (VDict items) _ _ _ _ _ I W H) as (_ & R).
  pose proof (run_old (ops (resolve (s_cwd s) topdir) (VDict items)) (s_fs s, s_warned s) p e Hp) as Q. rewrite R in Q. exact Q.
Qed.
Print Assumptions C110_safe.

(** With plain keys nothing outside topdir is touched, whatever happens. *)
Theorem C110_inside : forall v force topdir s s' r,
  plain_dict v -> s_fs s (s_cwd s) = Some EDir -> build_directory v force topdir s = (s', r) ->
  forall p, (forall x, p <> resolve (s_cwd s) topdir ++ x) -> s_fs s' p = s_fs s p.
Proof.
  intros [t|items] force topdir s s' r P W H p N; [injection H as <- <-; reflexivity|].
  destruct (bd_run (VDict items) _ _ _ _ _ I W H) as (_ & R).
  pose proof (run_outside force (ops (resolve (s_cwd s) topdir) (VDict items)) (s_fs s, s_warned s) p (ops_plain _ P _)) as Q.
  rewrite R in Q. apply Q. intros o x Ho. destruct (ops_dir _ P _ _ Ho) as (y & ->). rewrite <- app_assoc. apply N.
Qed.
Print Assumptions C110_inside.

(** The warnings of a call that ends normally: with force none; without, every file of the
    dictionary that was there, and none but files of the dictionary that were there or
    mentioned before. *)
Theorem C110_warned : forall v force topdir s s',
  plain_dict v -> sound (s_fs s) -> s_fs s (s_cwd s) = Some EDir ->
  build_directory v force topdir s = (s', Ok tt) ->
  let m := contents (resolve (s_cwd s) topdir) v in
  exists new, s_warned s' = s_warned s ++ new /\ (force <> FFalse -> new = []) /\
    (force = FFalse -> forall p t, In (p, Some t) m -> s_fs s p <> None -> In p new) /\
    (forall p, In p new -> exists m1 t m2, m = m1 ++ (p, Some t) :: m2 /\ (s_fs s p <> None \/ In p (map fst m1))).
Proof.
  intros v force topdir s s' P S W H m. pose proof (ok_dict _ _ _ _ _ H) as D. destruct (bd_run _ _ _ _ _ _ D W H) as (_ & R).
  destruct (run_effect _ _ _ _ _ _ (ops_plain v P _) S R) as (_ & _ & _ & new & E & A & B). pose proof (ops_contents v P D _ (run_no_abs _ _ _ _ R)) as Em. rewrite Em in A, B. fold m in A, B.
  exists new. split; [exact E|]. split; [|split].
  - intros N. destruct new as [|p new]; [reflexivity|]. destruct (B p (or_introl eq_refl)) as (Hf & _). destruct force; [contradiction|discriminate|discriminate].
  - intros -> p t. apply A. reflexivity.
  - intros p Hp. destruct (B p Hp) as (_ & X). exact X.
Qed.
Print Assumptions C110_warned.

(** When it ends normally: topdir is a directory, no key is absolute, and no place is to be
    both a file and a directory. *)
Theorem C110_succeeds : forall items force topdir s,
  let v := VDict items in let top := resolve (s_cwd s) topdir in
  plain_dict v -> relative_dict v -> sound (s_fs s) -> s_fs s (s_cwd s) = Some EDir -> s_fs s top = Some EDir ->
  compatible (s_fs s) (contents top v) ->
  snd (build_directory v force topdir s) = Ok tt.
Proof.
  intros items force topdir s v top P Rl S W T C. destruct (build_directory v force topdir s) as [s' r] eqn:E. destruct (bd_run v _ _ _ _ _ I W E) as (_ & R).
  pose proof (run_ok force v P Rl I top (s_fs s) (s_warned s) S T C) as Q. fold top in R. rewrite R in Q. exact Q.
Qed.
Print Assumptions C110_succeeds.

(** The same call again without force: the file system does not change and every file of
    the dictionary is warned of. *)
Theorem C110_again : forall v force topdir s s',
  plain_dict v -> sound (s_fs s) -> s_fs s (s_cwd s) = Some EDir ->
  build_directory v force topdir s = (s', Ok tt) ->
  build_directory v FFalse topdir s' =
    (mkSt (s_fs s') (s_cwd s) (s_warned s' ++ flat_map (fun x => match snd x with Some _ => [fst x] | None => [] end) (contents (resolve (s_cwd s) topdir) v)), Ok tt).
Proof.
  intros v force topdir s s' P S W H. pose proof (ok_dict _ _ _ _ _ H) as D. destruct (bd_run _ _ _ _ _ _ D W H) as (Ec & R).
  destruct (C110_cwd _ _ _ _ _ _ W H) as (_ & Kd). assert (W' : s_fs s' (s_cwd s') = Some EDir) by (rewrite Ec; apply Kd; exact W).
  unfold build_directory. rewrite (build_run FFalse v D _ s' W'). rewrite Ec.
  destruct (run_effect _ _ _ _ _ _ (ops_plain v P _) S R) as (_ & F & K & _). 
  pose proof (run_again _ (s_fs s') (s_warned s') (ops_plain v P _) (run_no_abs _ _ _ _ R) (run_checked _ _ _ _ R)) as G.
  set (y := run FFalse _ _). assert (Ey : y = ((s_fs s', s_warned s' ++ files (flat_map op_places (ops (resolve (s_cwd s) topdir) v))), Ok tt)).
  { apply G. intros p x Hi. split; [rewrite F; apply (fill_there _ _ _ _ _ Hi)|]. apply (K p x Hi). }
  rewrite Ey. rewrite (ops_contents v P D _ (run_no_abs _ _ _ _ R)). reflexivity.
Qed.
Print Assumptions C110_again.

(** A key that is absolute is refused, but what came before it has been written. *)
Definition home : fsys := fun p => match p with [] => Some EDir | ["home"] => Some EDir | ["home"; "old"] => Some (EFile "keep") | _ => None end.
Theorem C110_atomic_refuted :
  let v := VDict [(mkKey false ["a"], VText "x"); (mkKey true ["b"], VText "y")] in
  let '(s', r) := build_directory v FFalse [] (mkSt home ["home"] []) in
  r = Err RuntimeError /\ s_fs s' ["home"; "a"] = Some (EFile "x") /\ home ["home"; "a"] = None.
Proof. vm_compute. repeat split; reflexivity. Qed.
Print Assumptions C110_atomic_refuted.

(** force=0 or force=None is taken for true: the check is "force is False" (line 49). *)
Theorem C110_force_refuted : forall c t t' s,
  plain_name c -> sound (s_fs s) -> s_fs s (s_cwd s) = Some EDir -> s_fs s (s_cwd s ++ [c]) = Some (EFile t) ->
  let (s', r) := build_directory (VDict [(mkKey false [c], VText t')]) FFalsy [] s in
  r = Ok tt /\ s_fs s' (s_cwd s ++ [c]) = Some (EFile t') /\ s_warned s' = s_warned s.
Proof.
  intros c t t' s Hc S W Ht. destruct (build_directory _ FFalsy [] s) as [s' r] eqn:E.
  assert (P : plain_dict (VDict [(mkKey false [c], VText t')])).
  { constructor. intros k x [Hk|[]]. injection Hk as <- <-. cbn. split; [discriminate|]. split; [constructor; [exact Hc|constructor]|constructor]. }
  assert (R : r = Ok tt).
  { change r with (snd (s', r)). rewrite <- E. apply C110_succeeds; try assumption.
    - constructor. intros k x [Hk|[]]. injection Hk as <- <-. split; [reflexivity|constructor].
    - intros p o [Hp|[]]. injection Hp as <- <-. split; [discriminate|]. intros _. change (resolve (s_cwd s) []) with (s_cwd s). cbn [k_parts fst]. rewrite Ht. discriminate. }
  subst r. split; [reflexivity|]. split.
  - rewrite (C110_result _ _ _ _ _ P S W E). unfold filled. rewrite Ht. change (resolve (s_cwd s) []) with (s_cwd s). cbn. rewrite peqb_refl. reflexivity.
  - destruct (C110_warned _ _ _ _ _ P S W E) as (new & En & A & _). rewrite En, A by discriminate. apply app_nil_r.
Qed.
Print Assumptions C110_force_refuted.

(** A relative key with ".." is not refused: the file is outside topdir. *)
Theorem C110_escape_refuted :
  let v := VDict [(mkKey false [".."; "x"], VText "out")] in
  let '(s', r) := build_directory v FFalse [] (mkSt home ["home"] []) in
  r = Ok tt /\ s_fs s' ["x"] = Some (EFile "out") /\ relative_dict v.
Proof. vm_compute. repeat split; try reflexivity. constructor. intros k x [H|[]]. injection H as <- <-. split; [reflexivity|constructor]. Qed.
Print Assumptions C110_escape_refuted.

(** The example of the documentation, over a directory with one of the files. *)
Example C110_ex :
  let v := VDict [(mkKey false ["old"], VText "new"); (mkKey false ["dir"], VDict [(mkKey false ["f"], VText "1"); (mkKey false ["sub"; "g"], VText "2")])] in
  plain_dict v /\ relative_dict v /\
  (let '(s', r) := build_directory v FFalse ["home"] (mkSt home [] []) in
   r = Ok tt /\ s_cwd s' = [] /\ s_warned s' = [["home"; "old"]] /\ s_fs s' ["home"; "old"] = Some (EFile "keep") /\
   s_fs s' ["home"; "dir"; "f"] = Some (EFile "1") /\ s_fs s' ["home"; "dir"; "sub"] = Some EDir /\ s_fs s' ["home"; "dir"; "sub"; "g"] = Some (EFile "2")) /\
  (let '(s', r) := build_directory v FTrue ["home"] (mkSt home [] []) in r = Ok tt /\ s_warned s' = [] /\ s_fs s' ["home"; "old"] = Some (EFile "new")).
Proof.
  cbn zeta. assert (PN : forall c, String.eqb c ".." = false -> String.eqb c "." = false -> String.eqb c "" = false -> plain_name c).
  { intros c H1 H2 H3. repeat split; intros ->; discriminate. }
  split; [|split; [|vm_compute; repeat split; reflexivity]].
  - constructor. intros k x [H|[H|[]]]; injection H as <- <-; cbn; (split; [discriminate|]); (split; [repeat constructor; cbn; discriminate|]); constructor.
    intros k x [H|[H|[]]]; injection H as <- <-; cbn; (split; [discriminate|]); (split; [repeat constructor; cbn; discriminate|]); constructor.
  - constructor. intros k x [H|[H|[]]]; injection H as <- <-; (split; [reflexivity|]); constructor.
    intros k x [H|[H|[]]]; injection H as <- <-; (split; [reflexivity|]); constructor.
Qed.

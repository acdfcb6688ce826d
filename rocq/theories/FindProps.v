(** C111 find_files and find_up. *)
From Verif Require Import Base BaseFacts ExprModel FindModel FindSpec FindProofs.
Local Open Scope list_scope.

(** What find_files returns: the files below the start directories whose names are wanted,
    reached through directories whose names are wanted, below starts that are wanted. *)
Theorem C111_files : forall fnm disk starts mat exc dirm dire r,
  In r (find_files fnm disk starts mat exc dirm dire) <->
  exists s t ds f, In s starts /\ disk s = Some t /\ wanted fnm dirm dire s /\ has t ds f /\
    Forall (wanted fnm dirm dire) ds /\ wanted fnm mat exc f /\ r = fold_left join (ds ++ [f]) s.
Proof.
  intros. rewrite find_concat, in_concat. setoid_rewrite in_map_iff. unfold file_gen. split.
  - intros (l & (s & <- & Hs) & Hr). destruct (matching fnm dirm dire s) eqn:E; [|contradiction]. cbn [negb] in Hr. destruct (disk s) as [t|] eqn:Ed; [|contradiction].
    apply walk_in in Hr. destruct Hr as (ds & f & H1 & H2 & H3 & ->). exists s, t, ds, f. split; [exact Hs|]. split; [exact Ed|]. split; [apply matching_wanted; exact E|]. split; [exact H1|].
    split; [eapply Forall_impl; [|exact H2]; intros a Ha; apply matching_wanted; exact Ha|]. split; [apply matching_wanted; exact H3|reflexivity].
  - intros (s & t & ds & f & Hs & Ed & Hw & H1 & H2 & H3 & ->). eexists. split; [exists s; split; [reflexivity|exact Hs]|]. apply matching_wanted in Hw. rewrite Hw. cbn [negb]. rewrite Ed.
    apply walk_in. exists ds, f. split; [exact H1|]. split; [eapply Forall_impl; [|exact H2]; intros a Ha; apply matching_wanted; exact Ha|]. split; [apply matching_wanted; exact H3|reflexivity].
Qed.
Print Assumptions C111_files.

(** From one start no file is returned twice. *)
Theorem C111_once : forall fnm disk s mat exc dirm dire,
  (forall t, disk s = Some t -> tree_ok t) -> NoDup (find_files fnm disk [s] mat exc dirm dire).
Proof.
  intros. rewrite find_concat. cbn [map concat]. rewrite app_nil_r. unfold file_gen. destruct (negb _); [constructor|]. destruct (disk s) as [t|] eqn:E; [|constructor]. apply walk_nodup. apply H. reflexivity.
Qed.
Print Assumptions C111_once.

(** Several starts: the files of each in their order, whatever the starts have in common. *)
Theorem C111_starts : forall fnm disk starts more mat exc dirm dire,
  find_files fnm disk (starts ++ more) mat exc dirm dire = find_files fnm disk starts mat exc dirm dire ++ find_files fnm disk more mat exc dirm dire.
Proof. intros. rewrite !find_concat, map_app, concat_app. reflexivity. Qed.
Print Assumptions C111_starts.

(** The filter for directories below the start is put to the start itself, as it was given
    with its path: if it does not match, nothing is found whatever is there. *)
Theorem C111_start_refuted : forall fnm disk s mat exc dirm dire,
  ~ wanted fnm dirm dire s -> find_files fnm disk [s] mat exc dirm dire = [].
Proof.
  intros fnm disk s mat exc dirm dire N. rewrite find_concat. cbn. rewrite app_nil_r. unfold file_gen. destruct (matching fnm dirm dire s) eqn:E; [exfalso; apply N; apply matching_wanted; exact E|reflexivity].
Qed.
Print Assumptions C111_start_refuted.

(** find_up from an absolute path: the nearest directory at or above it that has the name,
    or None when there is none. *)
Theorem C111_up : forall ex cwd name cs,
  plain name -> Forall plain cs -> ex (abs cs) = true ->
  match find_up ex cwd name (abs cs) with
  | Some r => exists k, nearest ex name cs k /\ r = abs (firstn k cs ++ [name])
  | None => forall k, (k <= length cs)%nat -> ex (abs (firstn k cs ++ [name])) = false
  end.
Proof.
  intros ex cwd name cs [Hn Hd] Hcs Hex. assert (Hok : Forall name_ok cs) by (eapply Forall_impl; [|exact Hcs]; intros a [A _]; exact A).
  unfold find_up. assert (En : abs cs <> []) by (destruct cs; discriminate). destruct (abs cs) as [|a p] eqn:E; [contradiction|]. rewrite <- E in *. rewrite Hex. cbn [negb].
  pose proof (up_abs ex cwd name Hn cs (S (length (abs cs))) Hok (Nat.lt_succ_diag_r _)) as U. destruct (up _ _ _ _ _) as [r|]; [|exact U].
  destruct U as (k & Hk & ->). exists k. split; [exact Hk|]. unfold abspath.
  assert (J : forall q, join cwd (abs (q ++ [name])) = abs (q ++ [name])) by (intros q; rewrite abs_snoc; destruct q as [|c q]; reflexivity). rewrite J. apply norm_abs. apply Forall_app. split; [|constructor; [split; assumption|constructor]].
  clear -Hcs. revert k. induction Hcs as [|c cs Hc H IH]; intros [|k]; cbn; try constructor; [exact Hc|apply IH].
Qed.
Print Assumptions C111_up.

(** No path given: the search starts at the working directory.  A path that does not exist:
    None. *)
Theorem C111_up_start : forall ex cwd name path,
  (cwd <> [] -> find_up ex cwd name [] = find_up ex cwd name cwd) /\ (ex path = false -> path <> [] -> find_up ex cwd name path = None).
Proof.
  intros ex cwd name path. split.
  - intros N. unfold find_up. destruct cwd; [contradiction|reflexivity].
  - intros E N. unfold find_up. destruct path; [contradiction|]. rewrite E. reflexivity.
Qed.
Print Assumptions C111_up_start.

(** The loop ends: more turns than the path has characters change nothing. *)
Theorem C111_up_ends : forall ex cwd name path n, (length path < n)%nat -> up ex cwd n name path = up ex cwd (S (length path)) name path.
Proof. intros. apply up_fuel; lia. Qed.
Print Assumptions C111_up_ends.

(** A relative path ends the search below the working directory: from a directory given by
    its name, nothing but that directory is looked into, although the working directory and
    those above it are above it. *)
Theorem C111_up_relative_refuted : forall ex cwd name c,
  name_ok c -> name_ok name -> ex (c ++ slash :: name) = false -> find_up ex cwd name c = None.
Proof.
  intros ex cwd name c Hc Hn E. unfold find_up. destruct c as [|a c0] eqn:Ec; [destruct Hc; contradiction|]. rewrite <- Ec in *. destruct (negb (ex c)); [reflexivity|]. cbn [up].
  assert (J : join c name = c ++ slash :: name).
  { rewrite (join_base _ _ Hn). unfold base. destruct Hc as [N S]. destruct (rev c) as [|d q] eqn:Er; [apply (f_equal (@rev ascii)) in Er; rewrite rev_involutive in Er; contradiction|].
    rewrite (is_slash_no d c S) by (apply in_rev; rewrite Er; left; reflexivity). rewrite <- app_assoc. reflexivity. }
  assert (D : dirname c = []).
  { unfold dirname. rewrite <- (app_nil_r (rev c)). rewrite dropwhile_app; [reflexivity|]. apply not_slash_all. intros A. apply in_rev in A. destruct Hc. contradiction. }
  rewrite Ec at 1. rewrite J, E, D. rewrite teqb_neq by (rewrite Ec; discriminate). rewrite Ec. destruct (length (a :: c0)); reflexivity.
Qed.
Print Assumptions C111_up_relative_refuted.

(** A path with dots: the directories of its text are searched, not those above it. *)
Definition on_disk (l : list string) : txt -> bool := fun p => existsb (teqb (normpath p)) (map t_ l).
Theorem C111_up_dots_refuted :
  let ex := on_disk ["/"; "/a"; "/a/b"; "/a/c"; "/a/b/n"]%string in
  normpath (t_ "/a/b/../c") = t_ "/a/c" /\
  find_up ex (t_ "/") (t_ "n") (t_ "/a/b/../c") = Some (t_ "/a/b/n") /\ find_up ex (t_ "/") (t_ "n") (t_ "/a/c") = None.
Proof. vm_compute. repeat split; reflexivity. Qed.
Print Assumptions C111_up_dots_refuted.

(** A small project. *)
Definition eqm (n p : txt) : bool := teqb n p.
Definition project : tree := Tree [t_ "setup.py"; t_ "README"] [(t_ "src", Tree [t_ "a.py"; t_ "a.pyc"] [(t_ "test", Tree [t_ "t.py"] [])]); (t_ ".git", Tree [t_ "x.py"] [])].
Definition is_py (n : txt) : bool := match rev n with c :: b :: a :: _ => teqb [a; b; c] (t_ ".py") | _ => false end.
Example C111_ex :
  let disk := fun p => if teqb p (t_ "/p") then Some project else None in
  tree_ok project /\
  find_files eqm disk [t_ "/p"] (FFun is_py) (FPat (t_ "setup.py")) FNone (FPat (t_ ".git")) = [t_ "/p/src/a.py"; t_ "/p/src/test/t.py"] /\
  find_files eqm disk [t_ "/p"] (FFun is_py) FNone (FPat (t_ "src")) FNone = [] /\
  find_up (on_disk ["/"; "/p"; "/p/src"; "/p/n"; "/n"]%string) (t_ "/") (t_ "n") (t_ "/p/src") = Some (t_ "/p/n") /\
  find_up (on_disk ["/"; "/p"; "/p/src"; "/p/n"; "/n"; "src"]%string) (t_ "/p") (t_ "n") (t_ "src") = None.
Proof.
  cbn zeta. assert (NK : forall n, forallb (fun c => negb (is_slash c)) n = true -> n <> [] -> name_ok n).
  { intros n H N. split; [exact N|]. intros A. rewrite forallb_forall in H. specialize (H _ A). discriminate. }
  split; [|vm_compute; repeat split; reflexivity].
  repeat (match goal with
  | |- tree_ok _ => constructor
  | |- Forall _ _ => constructor
  | |- NoDup _ => constructor
  | |- name_ok _ => apply NK; [reflexivity|discriminate]
  | |- ~ In _ _ => let A := fresh in intros A; cbn in A; intuition discriminate
  | |- forall d t, In _ _ -> _ => let A := fresh in intros ? ? A; cbn in A
  | H : _ \/ _ |- _ => destruct H as [H|H]
  | H : (_, _) = (_, _) |- _ => injection H as <- <-
  | H : False |- _ => contradiction
  | |- _ /\ _ => split
  end).
Qed.

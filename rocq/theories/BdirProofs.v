From Verif Require Import Base BaseFacts BdirModel BdirSpec.
Local Open Scope list_scope.

(** ** Induction on nested dictionaries *)
Section ValueInd.
Variable P : value -> Prop.
Hypothesis HT : forall t, P (VText t).
Hypothesis HD : forall items, Forall (fun kx => P (snd kx)) items -> P (VDict items).
Fixpoint value_ind2 (v : value) : P v :=
  match v with
  | VText t => HT t
  | VDict items => HD items ((fix go (l : list (key * value)) : Forall (fun kx => P (snd kx)) l :=
      match l with [] => Forall_nil _ | kx :: r => Forall_cons kx (value_ind2 (snd kx)) (go r) end) items)
  end.
End ValueInd.

Lemma peqb_refl : forall p, peqb p p = true.
Proof. intros p. unfold peqb. destruct (path_dec p p); [reflexivity|contradiction]. Qed.
Lemma peqb_eq : forall p q, peqb p q = true -> p = q.
Proof. intros p q H. unfold peqb in H. destruct (path_dec p q); [assumption|discriminate]. Qed.
Lemma peqb_neq : forall p q, p <> q -> peqb p q = false.
Proof. intros p q H. unfold peqb. destruct (path_dec p q); [contradiction|reflexivity]. Qed.
Lemma put_same : forall f p e, put f p e p = Some e.
Proof. intros. unfold put. rewrite peqb_refl. reflexivity. Qed.
Lemma put_other : forall f p e q, q <> p -> put f p e q = f q.
Proof. intros. unfold put. rewrite peqb_neq by assumption. reflexivity. Qed.

(** ** The program as a list of operations *)
Inductive op := OAbs (d : path) | OMk (d p : path) | OFile (d p : path) (t : string).
Definition ws := (fsys * list path)%type.
Definition check (f : fsys) (d : path) : res unit := match f d with Some EDir => Ok tt | _ => Err OSError end.
Definition run_op (force : flag) (o : op) (x : ws) : ws * res unit :=
  let (f, w) := x in
  match o with
  | OAbs d => (x, match check f d with Ok _ => Err RuntimeError | e => e end)
  | OMk d p =>
      match check f d with
      | Err e => (x, Err e)
      | Ok _ => let (f1, r) := if exists_ f (resolve d p) then (f, Ok tt) else makedirs f d p in
                match r with Err e => ((f1, w), Err e) | Ok _ => ((f1, w), check f1 (resolve d p)) end
      end
  | OFile d p t =>
      match check f d with
      | Err e => (x, Err e)
      | Ok _ =>
          if exists_ f (resolve d p) && is_False force then ((f, w ++ [resolve d p]), Ok tt)
          else let (f1, r) := if negb (match removelast p with [] => true | _ => false end) && negb (isdir f (resolve d (removelast p)))
                              then makedirs f d (removelast p) else (f, Ok tt) in
               match r with Err e => ((f1, w), Err e) | Ok _ => let (f2, r2) := write f1 d p t in ((f2, w), r2) end
      end
  end.
Fixpoint run (force : flag) (l : list op) (x : ws) : ws * res unit :=
  match l with [] => (x, Ok tt) | o :: r => match run_op force o x with (x1, Ok _) => run force r x1 | y => y end end.
Fixpoint ops (top : path) (v : value) : list op :=
  match v with
  | VText _ => []
  | VDict items =>
      flat_map (fun kx => if k_abs (fst kx) then [OAbs top]
                          else match snd kx with
                               | VDict _ => OMk top (k_parts (fst kx)) :: ops (resolve top (k_parts (fst kx))) (snd kx)
                               | VText t => [OFile top (k_parts (fst kx)) t]
                               end) items
  end.
Lemma run_app : forall force l1 l2 x, run force (l1 ++ l2) x = match run force l1 x with (x1, Ok _) => run force l2 x1 | y => y end.
Proof.
  induction l1 as [|o l1 IH]; intros l2 x; [reflexivity|]. cbn. destruct (run_op force o x) as [x1 [u|e]]; [apply IH|reflexivity].
Qed.

(** directories stay *)
Lemma makedirs_old : forall p f d q e, f q = Some e -> fst (makedirs f d p) q = Some e.
Proof.
  induction p as [|c p IH]; intros f d q e H; [exact H|]. cbn [makedirs]. destruct (f (resolve d [c])) as [[|t]|] eqn:E.
  - apply IH. exact H.
  - exact H.
  - apply IH. rewrite put_other; [exact H|congruence].
Qed.
Lemma write_dir : forall f d p t q, f q = Some EDir -> fst (write f d p t) q = Some EDir.
Proof.
  intros f d p t q H. unfold write. destruct (f (resolve d p)) as [[|x]|] eqn:E; [exact H| |]; (destruct (isdir f _); [|exact H]); cbn [fst];
    (rewrite put_other; [exact H|congruence]).
Qed.
Lemma run_op_dir : forall force o x q, fst x q = Some EDir -> fst (fst (run_op force o x)) q = Some EDir.
Proof.
  intros force o [f w] q H. cbn [fst] in H. destruct o as [d|d p|d p t]; cbn [run_op].
  - exact H.
  - destruct (check f d); [|exact H]. destruct (exists_ f (resolve d p)).
    + exact H.
    + pose proof (makedirs_old p f d q EDir H) as M. destruct (makedirs f d p) as [f1 [u|e]]; exact M.
  - destruct (check f d); [|exact H]. destruct (exists_ f (resolve d p) && is_False force); [exact H|].
    destruct (negb _ && negb _).
    + pose proof (makedirs_old (removelast p) f d q EDir H) as M. destruct (makedirs f d (removelast p)) as [f1 [u|e]]; [|exact M].
      pose proof (write_dir f1 d p t q M) as Wr. destruct (write f1 d p t) as [f2 r2]. exact Wr.
    + pose proof (write_dir f d p t q H) as Wr. destruct (write f d p t) as [f2 r2]. exact Wr.
Qed.
Lemma run_dir : forall force l x q, fst x q = Some EDir -> fst (fst (run force l x)) q = Some EDir.
Proof.
  induction l as [|o l IH]; intros x q H; [exact H|]. cbn [run]. pose proof (run_op_dir force o x q H) as D.
  destruct (run_op force o x) as [x1 [u|e]]; [apply IH; exact D|exact D].
Qed.

Definition same (s : state) (y : ws * res unit) (out : state * res unit) : Prop :=
  s_fs (fst out) = fst (fst y) /\ s_warned (fst out) = snd (fst y) /\ snd out = snd y.
Definition is_dict (v : value) : Prop := match v with VDict _ => True | VText _ => False end.
Lemma build_run : forall force v, is_dict v -> forall top s, s_fs s (s_cwd s) = Some EDir ->
  build force v top s = (mkSt (fst (fst (run force (ops top v) (s_fs s, s_warned s)))) (s_cwd s) (snd (fst (run force (ops top v) (s_fs s, s_warned s)))),
                         snd (run force (ops top v) (s_fs s, s_warned s))).
Proof.
  intros force. induction v as [t|items IH] using value_ind2; intros D top s Hc; [contradiction|]. clear D.
  cbn [build ops].
  match goal with |- (let (_, _) := ?L items s in _) = _ => set (loop := L) end.
  assert (HL : forall s, same s (run force (ops top (VDict items)) (s_fs s, s_warned s)) (loop items s)).
  { clear s Hc. cbn [ops]. induction items as [|[k x] items IHi]; intros s; [repeat split|]. inversion IH as [|? ? Hx Hr]; subst.
    specialize (IHi Hr). cbn [flat_map fst snd].
    assert (U : loop ((k, x) :: items) s = thenS (chdir top s) (fun s =>
            if k_abs k then (s, Err RuntimeError)
            else
              thenS
                (match x with
                 | VDict _ =>
                     thenS (if exists_ (s_fs s) (resolve (s_cwd s) (k_parts k)) then (s, Ok tt)
                            else with_fs s (makedirs (s_fs s) (s_cwd s) (k_parts k))) (fun s =>
                     thenS (chdir (resolve (s_cwd s) (k_parts k)) s) (fun s =>
                     build force x (s_cwd s) s))
                 | VText t =>
                     if exists_ (s_fs s) (resolve (s_cwd s) (k_parts k)) && is_False force
                     then (mkSt (s_fs s) (s_cwd s) (s_warned s ++ [resolve (s_cwd s) (k_parts k)]), Ok tt)
                     else
                       let dname := removelast (k_parts k) in
                       thenS (if negb (match dname with [] => true | _ => false end) && negb (isdir (s_fs s) (resolve (s_cwd s) dname))
                              then with_fs s (makedirs (s_fs s) (s_cwd s) dname) else (s, Ok tt)) (fun s =>
                       with_fs s (write (s_fs s) (s_cwd s) (k_parts k) t))
                 end) (fun s => loop items s))) by (destruct x; reflexivity).
    rewrite U. clear U. unfold chdir at 1.
    destruct (k_abs k) eqn:Ka.
    - cbn [app run run_op]. unfold check. destruct (s_fs s top) as [[|t]|] eqn:Et; cbn [thenS]; repeat split.
    - destruct x as [t|its].
      + cbn [app run run_op]. unfold check. destruct (s_fs s top) as [[|t0]|] eqn:Et; cbn [thenS]; try (repeat split; fail).
        cbn [s_fs s_cwd s_warned]. destruct (exists_ (s_fs s) (resolve top (k_parts k)) && is_False force).
        * cbn [thenS]. apply (IHi (mkSt (s_fs s) top (s_warned s ++ [resolve top (k_parts k)]))).
        * cbv zeta. destruct (negb _ && negb _).
          -- unfold with_fs at 1. cbn [s_fs s_cwd s_warned]. destruct (makedirs (s_fs s) top (removelast (k_parts k))) as [f1 [u|e]]; cbn [thenS fst snd]; [|repeat split].
             unfold with_fs. cbn [s_fs s_cwd s_warned]. destruct (write f1 top (k_parts k) t) as [f2 [u2|e2]]; cbn [thenS fst snd]; [|repeat split].
             apply (IHi (mkSt f2 top (s_warned s))).
          -- cbn [thenS]. unfold with_fs. cbn [s_fs s_cwd s_warned]. destruct (write (s_fs s) top (k_parts k) t) as [f2 [u2|e2]]; cbn [thenS fst snd]; [|repeat split].
             apply (IHi (mkSt f2 top (s_warned s))).
      + cbn [snd] in Hx. specialize (Hx I). rewrite <- app_comm_cons. cbn [run run_op]. unfold check at 1. destruct (s_fs s top) as [[|t0]|] eqn:Et; cbn [thenS]; try (repeat split; fail).
        cbn [s_fs s_cwd s_warned].
        assert (T : forall f1, let s1 := mkSt f1 top (s_warned s) in
           same s match check f1 (resolve top (k_parts k)) with Ok _ => run force (ops (resolve top (k_parts k)) (VDict its) ++ ops top (VDict items)) (f1, s_warned s) | Err e => ((f1, s_warned s), Err e) end
             (thenS (thenS (chdir (resolve top (k_parts k)) s1) (fun s => build force (VDict its) (s_cwd s) s)) (fun s => loop items s))).
        { intros f1 s1. unfold chdir, check, s1. cbn [s_fs s_warned]. destruct (f1 (resolve top (k_parts k))) as [[|t1]|] eqn:E1; cbn [thenS]; try (repeat split; fail).
          rewrite Hx by exact E1. cbn [s_fs s_cwd s_warned]. rewrite run_app.
          destruct (run force (ops (resolve top (k_parts k)) (VDict its)) (f1, s_warned s)) as [[f2 w2] [u2|e2]]; cbn [fst snd thenS]; [|repeat split].
          apply (IHi (mkSt f2 (resolve top (k_parts k)) w2)). }
        destruct (exists_ (s_fs s) (resolve top (k_parts k))).
        * cbn [thenS]. specialize (T (s_fs s)). cbn [s_cwd]. unfold check in T |- *. destruct (s_fs s (resolve top (k_parts k))) as [[|]|]; exact T.
        * unfold with_fs at 1. cbn [s_fs s_cwd s_warned]. destruct (makedirs (s_fs s) top (k_parts k)) as [f1 [u|e]]; cbn [thenS fst snd]; [|repeat split].
          specialize (T f1). cbn [s_cwd]. unfold check in T |- *. destruct (f1 (resolve top (k_parts k))) as [[|]|]; exact T. }
  destruct (HL s) as (H1 & H2 & H3). cbn [ops] in H1, H2, H3. destruct (loop items s) as [s1 r]. cbn [fst snd] in H1, H2, H3.
  unfold chdir. rewrite H1. rewrite (run_dir force _ (s_fs s, s_warned s) (s_cwd s) Hc). rewrite <- H1, H2, H3. reflexivity.
Qed.

(** ** Places filled one after the other *)
Lemma resolve_plain : forall p d, Forall plain_name p -> resolve d p = d ++ p.
Proof.
  induction p as [|c p IH]; intros d H; [rewrite app_nil_r; reflexivity|]. inversion H as [|? ? (H1 & H2 & H3) Hp]; subst.
  unfold resolve. cbn [fold_left]. apply String.eqb_neq in H1, H2, H3. rewrite H1, H2, H3. cbn [orb].
  specialize (IH (d ++ [c]) Hp). unfold resolve in IH. rewrite IH. rewrite <- app_assoc. reflexivity.
Qed.
Definition mention := (path * option string)%type.
Definition step (force : bool) (f : fsys) (m : mention) : fsys :=
  match snd m, f (fst m) with
  | None, None => put f (fst m) EDir
  | None, Some _ => f
  | Some t, None => put f (fst m) (EFile t)
  | Some t, Some EDir => f
  | Some t, Some (EFile _) => if force then put f (fst m) (EFile t) else f
  end.
Definition fill (force : bool) (m : list mention) (f : fsys) : fsys := fold_left (step force) m f.
Definition feq (f g : fsys) : Prop := forall p, f p = g p.
Lemma put_feq : forall f g p e, feq f g -> feq (put f p e) (put g p e).
Proof. intros f g p e H q. unfold put. destruct (peqb q p); [reflexivity|apply H]. Qed.
Lemma step_feq : forall b f g m, feq f g -> feq (step b f m) (step b g m).
Proof.
  intros b f g [p o] H. unfold step. cbn [fst snd]. rewrite (H p). destruct o; destruct (g p) as [[|]|]; try assumption; try (apply put_feq; assumption). destruct b; [apply put_feq; assumption|assumption].
Qed.
Lemma fill_feq : forall b m f g, feq f g -> feq (fill b m f) (fill b m g).
Proof. induction m as [|x m IH]; intros f g H; [exact H|]. cbn. apply IH. apply step_feq. exact H. Qed.
Lemma feq_trans : forall f g h, feq f g -> feq g h -> feq f h.
Proof. intros f g h H1 H2 p. rewrite H1. apply H2. Qed.
Lemma fill_app : forall b m1 m2 f, fill b (m1 ++ m2) f = fill b m2 (fill b m1 f).
Proof. intros. unfold fill. apply fold_left_app. Qed.
Lemma fill_present : forall b m f, (forall p o, In (p, o) m -> o = None /\ f p <> None) -> feq (fill b m f) f.
Proof.
  induction m as [|[p o] m IH]; intros f H; [intros q; reflexivity|]. cbn. destruct (H p o (or_introl eq_refl)) as [-> Hp].
  replace (step b f (p, None)) with f by (unfold step; cbn; destruct (f p); [reflexivity|contradiction]).
  apply IH. intros q o Hq. apply H. right. exact Hq.
Qed.

(** the directories of a path below a directory, the last one included *)
Definition dirs (d p : path) : list mention := match p with [] => [] | _ :: _ => above d p ++ [(d ++ p, None)] end.
Lemma above_cons : forall d c r, r <> [] -> above d (c :: r) = (d ++ [c], None) :: above (d ++ [c]) r.
Proof. intros d c [|x r] H; [contradiction|reflexivity]. Qed.
Lemma dirs_cons : forall d c r, dirs d (c :: r) = (d ++ [c], None) :: dirs (d ++ [c]) r.
Proof. intros d c [|x r]; [reflexivity|]. unfold dirs. rewrite above_cons by discriminate. cbn [app]. rewrite <- app_assoc. reflexivity. Qed.
Lemma above_dirs : forall p d, p <> [] -> above d p = dirs d (removelast p).
Proof.
  induction p as [|c p IH]; intros d H; [contradiction|]. destruct p as [|x p]; [reflexivity|].
  rewrite above_cons by discriminate. rewrite IH by discriminate. change (removelast (c :: x :: p)) with (c :: removelast (x :: p)). rewrite dirs_cons. reflexivity.
Qed.
Lemma dirs_in : forall p d q o, In (q, o) (dirs d p) -> o = None /\ exists r1 r2, p = r1 ++ r2 /\ r1 <> [] /\ q = d ++ r1.
Proof.
  induction p as [|c p IH]; intros d q o H; [contradiction|]. rewrite dirs_cons in H. destruct H as [H|H].
  - injection H as <- <-. split; [reflexivity|]. exists [c], p. repeat split. discriminate.
  - destruct (IH _ _ _ H) as (-> & r1 & r2 & -> & Hn & ->). split; [reflexivity|]. exists (c :: r1), r2. repeat split; [discriminate|]. rewrite <- app_assoc. reflexivity.
Qed.
Lemma dirs_all : forall p d r1 r2, p = r1 ++ r2 -> r1 <> [] -> In (d ++ r1, None) (dirs d p).
Proof.
  induction p as [|c p IH]; intros d r1 r2 E H; [destruct r1; [contradiction|discriminate]|]. rewrite dirs_cons.
  destruct r1 as [|x r1]; [contradiction|]. injection E as <- E. destruct r1 as [|y r1]; [left; reflexivity|].
  right. replace (d ++ c :: y :: r1) with ((d ++ [c]) ++ y :: r1) by (rewrite <- app_assoc; reflexivity). apply IH with (r2 := r2); [exact E|discriminate].
Qed.

Lemma sound_prefix : forall f, sound f -> forall r p, f (p ++ r) <> None -> r <> [] -> f p = Some EDir.
Proof.
  intros f S r. induction r as [|c r IH] using rev_ind; intros p H Hr; [contradiction|].
  rewrite app_assoc in H. apply S in H. destruct r as [|x r]; [rewrite app_nil_r in H; exact H|]. apply IH; [rewrite H; discriminate|discriminate].
Qed.
Lemma sound_put : forall f d c e, sound f -> f d = Some EDir -> f (d ++ [c]) <> Some EDir \/ e = EDir -> sound (put f (d ++ [c]) e).
Proof.
  intros f d c e S Hd He p x H. destruct (path_dec (p ++ [x]) (d ++ [c])) as [E|E].
  - apply app_inj_tail in E. destruct E as [-> ->]. rewrite put_other; [exact Hd|]. intros A. apply (f_equal (@length string)) in A. rewrite app_length in A. cbn in A. lia.
  - rewrite put_other in H by exact E. apply S in H. destruct (path_dec p (d ++ [c])) as [->|E2]; [|rewrite put_other by exact E2; exact H].
    destruct He as [He|He]; [contradiction|]. subst e. apply put_same.
Qed.
Lemma sound_feq : forall f g, feq f g -> sound f -> sound g.
Proof. intros f g E S p c H. rewrite <- E in H |- *. apply S in H. exact H. Qed.

Lemma makedirs_effect : forall b p f d, Forall plain_name p -> f d = Some EDir -> sound f -> snd (makedirs f d p) = Ok tt ->
  sound (fst (makedirs f d p)) /\ feq (fst (makedirs f d p)) (fill b (dirs d p) f) /\ fst (makedirs f d p) (d ++ p) = Some EDir.
Proof.
  intros b. induction p as [|c p IH]; intros f d Hp Hd S H.
  - cbn in H |- *. split; [exact S|]. split; [intros q; reflexivity|]. rewrite app_nil_r. exact Hd.
  - cbn [makedirs] in H |- *. rewrite (resolve_plain [c] d) in * by (inversion Hp; subst; constructor; [assumption|constructor]).
    inversion Hp as [|? ? Hc Hp']; subst. rewrite dirs_cons. cbn [fill fold_left]. fold (fill b).
    replace (d ++ c :: p) with ((d ++ [c]) ++ p) by (rewrite <- app_assoc; reflexivity).
    destruct (f (d ++ [c])) as [[|t]|] eqn:E.
    + replace (step b f (d ++ [c], None)) with f by (unfold step; cbn; rewrite E; reflexivity). apply IH; assumption.
    + discriminate H.
    + replace (step b f (d ++ [c], None)) with (put f (d ++ [c]) EDir) by (unfold step; cbn; rewrite E; reflexivity).
      apply IH; [assumption|apply put_same| |exact H]. apply sound_put; [assumption|assumption|right; reflexivity].
Qed.
Lemma makedirs_ok : forall p f d, Forall plain_name p -> (forall q o, In (q, o) (dirs d p) -> f q = None \/ f q = Some EDir) -> snd (makedirs f d p) = Ok tt.
Proof.
  induction p as [|c p IH]; intros f d Hp H; [reflexivity|]. cbn [makedirs]. rewrite (resolve_plain [c] d) in * by (inversion Hp; subst; constructor; [assumption|constructor]).
  inversion Hp as [|? ? Hc Hp']; subst. rewrite dirs_cons in H. destruct (H _ _ (or_introl eq_refl)) as [E|E]; rewrite E.
  - apply IH; [assumption|]. intros q o Hq. destruct (path_dec q (d ++ [c])) as [->|Hn]; [right; apply put_same|]. rewrite put_other by exact Hn. apply (H q o). right. exact Hq.
  - apply IH; [assumption|]. intros q o Hq. apply (H q o). right. exact Hq.
Qed.

(** ** One operation *)
Definition op_places (o : op) : list mention :=
  match o with OAbs _ => [] | OMk d p => above d p ++ [(d ++ p, None)] | OFile d p t => above d p ++ [(d ++ p, Some t)] end.
Definition op_plain (o : op) : Prop := match o with OAbs _ => True | OMk d p | OFile d p _ => p <> [] /\ Forall plain_name p end.
Lemma plain_removelast : forall p, Forall plain_name p -> Forall plain_name (removelast p).
Proof. induction p as [|c p IH]; intros H; [constructor|]. destruct p as [|x p]; [constructor|]. inversion H; subst. change (removelast (c :: x :: p)) with (c :: removelast (x :: p)). constructor; [assumption|apply IH; assumption]. Qed.
Lemma removelast_snoc : forall p : path, p <> [] -> exists c, p = removelast p ++ [c].
Proof. intros p H. exists (last p ""%string). apply app_removelast_last. exact H. Qed.
Lemma above_present : forall f d p, sound f -> p <> [] -> f (d ++ removelast p) <> None -> forall q o, In (q, o) (above d p) -> o = None /\ f q <> None.
Proof.
  intros f d p S Hp H q o Hq. rewrite above_dirs in Hq by exact Hp. destruct (dirs_in _ _ _ _ Hq) as (-> & r1 & r2 & E & Hn & ->). split; [reflexivity|].
  rewrite E in H. destruct r2 as [|x r2]; [rewrite app_nil_r in H; exact H|]. rewrite app_assoc in H. rewrite (sound_prefix f S (x :: r2) (d ++ r1) H); discriminate.
Qed.
Lemma isdir_some : forall f p, isdir f p = true -> f p = Some EDir.
Proof. intros f p H. unfold isdir in H. destruct (f p) as [[|]|]; try discriminate. reflexivity. Qed.

Definition forced (force : flag) : bool := negb (is_False force).
Lemma op_effect : forall force o f w f' w', op_plain o -> sound f -> run_op force o (f, w) = ((f', w'), Ok tt) ->
  sound f' /\ feq f' (fill (forced force) (op_places o) f) /\
  (forall p x, In (p, x) (op_places o) -> (x = None -> f' p = Some EDir) /\ (x <> None -> forced force = true -> exists t, f' p = Some (EFile t))) /\
  (exists new, w' = w ++ new /\ forall p, In p new <-> (is_False force = true /\ exists t, In (p, Some t) (op_places o) /\ f p <> None)).
Proof.
  intros force o f w f' w' Hp S H. destruct o as [d|d p|d p t]; cbn [run_op] in H.
  - unfold check in H. destruct (f d) as [[|]|]; discriminate.
  - destruct Hp as [Hn Hp]. unfold check in H. destruct (f d) as [[|]|] eqn:Ed; try discriminate.
    rewrite (resolve_plain p d Hp) in H. cbn [op_places].
    assert (NW : exists new, w = w ++ new /\ forall p0, In p0 new <-> (is_False force = true /\ exists t, In (p0, Some t) (above d p ++ [(d ++ p, None)]) /\ f p0 <> None)).
    { exists []. rewrite app_nil_r. split; [reflexivity|]. intros p0. split; [intros []|]. intros (_ & t & Hi & _). rewrite above_dirs in Hi by exact Hn. apply in_app_or in Hi. destruct Hi as [Hi|[Hi|[]]]; [|discriminate].
      destruct (dirs_in _ _ _ _ Hi) as [A _]. discriminate. }
    assert (K : forall g, sound g -> g (d ++ p) = Some EDir -> forall q x, In (q, x) (above d p ++ [(d ++ p, None)]) -> (x = None -> g q = Some EDir) /\ (x <> None -> forced force = true -> exists t, g q = Some (EFile t))).
    { intros g Sg Eg q x Hq.
      assert (Hq' : In (q, x) (dirs d p)) by (destruct p; [contradiction|exact Hq]).
      destruct (dirs_in _ _ _ _ Hq') as (-> & r1 & r2 & E & Hr & ->). split; [|intros A; contradiction]. intros _.
      rewrite E in Eg. destruct r2 as [|y r2]; [rewrite app_nil_r in Eg; exact Eg|]. rewrite app_assoc in Eg. apply (sound_prefix g Sg (y :: r2)); [rewrite Eg; discriminate|discriminate]. }
    destruct (exists_ f (d ++ p)) eqn:Ex.
    + unfold exists_ in Ex. destruct (f (d ++ p)) as [e|] eqn:Ep; [|discriminate]. unfold check in H. cbv beta iota in H. destruct e; [|discriminate]. injection H as <- <-.
      split; [exact S|]. split; [|split; [apply K; assumption|exact NW]]. intros q. symmetry. apply fill_present. intros q0 o Hq. apply in_app_or in Hq. destruct Hq as [Hq|[Hq|[]]].
      * apply (above_present f d p S Hn); [|exact Hq]. destruct (removelast_snoc p Hn) as (c & Ec). rewrite Ec in Ep. rewrite app_assoc in Ep. rewrite (S (d ++ removelast p) c); [discriminate|rewrite Ep; discriminate].
      * injection Hq as <- <-. split; [reflexivity|rewrite Ep; discriminate].
    + pose proof (makedirs_effect (forced force) p f d Hp Ed S) as M. destruct (makedirs f d p) as [f1 [u|e]] eqn:Em; [|discriminate].
      cbn [fst snd] in M. destruct u. destruct (M eq_refl) as (S1 & F1 & E1). unfold check in H. rewrite E1 in H. injection H as <- <-.
      split; [exact S1|]. split; [|split; [apply K; assumption|exact NW]]. destruct p; [contradiction|exact F1].
  - destruct Hp as [Hn Hp]. unfold check in H. destruct (f d) as [[|]|] eqn:Ed; try discriminate.
    rewrite (resolve_plain p d Hp) in H. rewrite (resolve_plain (removelast p) d (plain_removelast _ Hp)) in H. cbn [op_places].
    destruct (removelast_snoc p Hn) as (c & Ec).
    assert (Edp : d ++ p = (d ++ removelast p) ++ [c]) by (rewrite <- app_assoc, <- Ec; reflexivity).
    destruct (exists_ f (d ++ p) && is_False force) eqn:Ex.
    + apply andb_true_iff in Ex. destruct Ex as [Ex Ef]. unfold exists_ in Ex. destruct (f (d ++ p)) as [e|] eqn:Ep; [|discriminate]. injection H as <- <-.
      assert (Pr : forall q o, In (q, o) (above d p) -> o = None /\ f q <> None).
      { apply (above_present f d p S Hn). rewrite Edp in Ep. rewrite (S (d ++ removelast p) c); [discriminate|rewrite Ep; discriminate]. }
      unfold forced. rewrite Ef. cbn [negb]. split; [exact S|]. split; [|split].
      * intros q. rewrite fill_app. cbn [fill fold_left]. fold (fill false (above d p) f). symmetry. unfold step. cbn [fst snd].
        rewrite (fill_present false _ _ Pr (d ++ p)), Ep. destruct e; apply fill_present; exact Pr.
      * intros q x Hq. apply in_app_or in Hq. destruct Hq as [Hq|[Hq|[]]].
        -- destruct (Pr _ _ Hq) as [-> Hq2]. split; [|intros A; contradiction]. intros _. rewrite above_dirs in Hq by exact Hn. destruct (dirs_in _ _ _ _ Hq) as (_ & r1 & r2 & E & Hr & ->).
           rewrite Ec, E in Ep. rewrite <- app_assoc in Ep. rewrite app_assoc in Ep. apply (sound_prefix f S (r2 ++ [c])); [rewrite Ep; discriminate|destruct r2; discriminate].
        -- injection Hq as <- <-. split; [discriminate|intros _; discriminate].
      * exists [d ++ p]. split; [reflexivity|]. intros q. split.
        -- intros [<-|[]]. split; [reflexivity|]. exists t. split; [apply in_or_app; right; left; reflexivity|rewrite Ep; discriminate].
        -- intros (_ & t0 & Hi & _). apply in_app_or in Hi. destruct Hi as [Hi|[Hi|[]]]; [destruct (Pr _ _ Hi) as [A _]; discriminate|]. injection Hi as <- _. left. reflexivity.
    + assert (Done : forall f1, sound f1 -> feq f1 (fill (forced force) (above d p) f) -> f1 (d ++ removelast p) = Some EDir ->
        (let (f2, r2) := write f1 d p t in ((f2, w), r2)) = ((f', w'), Ok tt) ->
        sound f' /\ feq f' (fill (forced force) (above d p ++ [(d ++ p, Some t)]) f) /\
        (forall q x, In (q, x) (above d p ++ [(d ++ p, Some t)]) -> (x = None -> f' q = Some EDir) /\ (x <> None -> forced force = true -> exists t0, f' q = Some (EFile t0))) /\
        (exists new, w' = w ++ new /\ forall q, In q new <-> (is_False force = true /\ exists t0, In (q, Some t0) (above d p ++ [(d ++ p, Some t)]) /\ f q <> None))).
      { intros f1 S1 F1 E1 Hw. unfold write in Hw. rewrite (resolve_plain p d Hp), (resolve_plain (removelast p) d (plain_removelast _ Hp)) in Hw.
        assert (ND : f1 (d ++ p) <> Some EDir) by (intros A; rewrite A in Hw; discriminate).
        assert (Hf : f' = put f1 (d ++ p) (EFile t) /\ w' = w).
        { destruct (f1 (d ++ p)) as [[|]|]; [contradiction (ND eq_refl)| |]; (destruct (isdir f1 _); [injection Hw as <- <-; split; reflexivity|discriminate]). }
        destruct Hf as [-> ->]. split; [rewrite Edp; apply sound_put; [exact S1|exact E1|left; rewrite <- Edp; exact ND]|].
        assert (FN : f (d ++ p) <> None -> is_False force = false).
        { intros A. unfold exists_ in Ex. destruct (f (d ++ p)); [|contradiction]. exact Ex. }
        split; [|split].
        - intros q. rewrite fill_app. cbn [fill fold_left]. fold (fill (forced force) (above d p) f). unfold step. cbn [fst snd].
          rewrite <- (F1 (d ++ p)).
          assert (X : f1 (d ++ p) = None \/ (exists t0, f1 (d ++ p) = Some (EFile t0) /\ forced force = true)).
          { destruct (f1 (d ++ p)) as [[|t0]|] eqn:E2; [contradiction (ND eq_refl)| |left; reflexivity]. right. exists t0. split; [reflexivity|].
            unfold forced. rewrite FN; [reflexivity|]. intros A. rewrite F1 in E2. clear -E2 A Hn. 
            assert (Y : forall m g, (forall q o, In (q, o) m -> o = None /\ q <> d ++ p) -> fill (forced force) m g (d ++ p) = g (d ++ p)).
            { induction m as [|[q o] m IH]; intros g Hm; [reflexivity|]. change (fill (forced force) ((q, o) :: m) g) with (fill (forced force) m (step (forced force) g (q, o))). rewrite IH by (intros; apply Hm; right; assumption).
              destruct (Hm q o (or_introl eq_refl)) as [-> Hq]. unfold step. cbn. destruct (g q); [reflexivity|]. apply put_other. congruence. }
            rewrite Y in E2; [rewrite A in E2; discriminate|]. intros q o Hq. rewrite above_dirs in Hq by exact Hn. destruct (dirs_in _ _ _ _ Hq) as (-> & r1 & r2 & E & Hr & ->). split; [reflexivity|].
            intros B. apply app_inv_head in B. destruct (removelast_snoc p Hn) as (c & Ec). rewrite E in Ec. rewrite <- B in Ec. apply (f_equal (@length string)) in Ec. rewrite !app_length in Ec. cbn in Ec. lia. }
          destruct X as [->|(t0 & -> & Ef)]; [|rewrite Ef in F1 |- *]; apply put_feq; exact F1.
        - intros q x Hq. apply in_app_or in Hq. destruct Hq as [Hq|[Hq|[]]].
          + rewrite above_dirs in Hq by exact Hn. destruct (dirs_in _ _ _ _ Hq) as (-> & r1 & r2 & E & Hr & ->). split; [|intros A; contradiction]. intros _.
            assert (Nq : d ++ r1 <> d ++ p) by (intros B; apply app_inv_head in B; rewrite E in Ec; rewrite <- B in Ec; apply (f_equal (@length string)) in Ec; rewrite !app_length in Ec; cbn in Ec; lia).
            rewrite put_other by exact Nq. rewrite E in E1. destruct r2 as [|y r2]; [rewrite app_nil_r in E1; exact E1|]. rewrite app_assoc in E1.
            apply (sound_prefix f1 S1 (y :: r2)); [rewrite E1; discriminate|discriminate].
          + injection Hq as <- <-. split; [discriminate|]. intros _ _. exists t. apply put_same.
        - exists []. rewrite app_nil_r. split; [reflexivity|]. intros q. split; [intros []|]. intros (Hf & t0 & Hi & Hq). exfalso.
          apply in_app_or in Hi. destruct Hi as [Hi|[Hi|[]]].
          + rewrite above_dirs in Hi by exact Hn. destruct (dirs_in _ _ _ _ Hi) as [A _]. discriminate.
          + injection Hi as <- _. rewrite (FN Hq) in Hf. discriminate. }
      destruct (negb (match removelast p with [] => true | _ => false end) && negb (isdir f (d ++ removelast p))) eqn:Eb.
      * pose proof (makedirs_effect (forced force) (removelast p) f d (plain_removelast _ Hp) Ed S) as M.
        destruct (makedirs f d (removelast p)) as [f1 [u|e]]; [|discriminate]. destruct u. cbn [fst snd] in M. destruct (M eq_refl) as (S1 & F1 & E1).
        rewrite <- above_dirs in F1 by exact Hn. apply (Done f1); assumption.
      * apply andb_false_iff in Eb. apply (Done f); [exact S| | |exact H].
        -- intros q. symmetry. destruct Eb as [Eb|Eb].
           ++ rewrite above_dirs by exact Hn. destruct (removelast p); [reflexivity|discriminate].
           ++ apply negb_false_iff in Eb. apply isdir_some in Eb. apply fill_present. apply (above_present f d p S Hn). rewrite Eb. discriminate.
        -- destruct Eb as [Eb|Eb]; [destruct (removelast p); [rewrite app_nil_r; exact Ed|discriminate]|apply negb_false_iff in Eb; apply isdir_some; exact Eb].
Qed.

(** ** All operations *)
Lemma fill_cons : forall b m l f, fill b (m :: l) f = fill b l (step b f m).
Proof. reflexivity. Qed.
Lemma step_file : forall b f m p t, f p = Some (EFile t) -> exists t', step b f m p = Some (EFile t').
Proof.
  intros b f [q o] p t H. unfold step. cbn [fst snd]. destruct (path_dec p q) as [->|N].
  - rewrite H. destruct o; [|eauto]. destruct b; [rewrite put_same; eauto|eauto].
  - destruct o; destruct (f q) as [[|]|]; try (destruct b); rewrite ?put_other by exact N; eauto.
Qed.
Lemma fill_file : forall b m f p t, f p = Some (EFile t) -> exists t', fill b m f p = Some (EFile t').
Proof. induction m as [|x m IH]; intros f p t H; [eexists; exact H|]. rewrite fill_cons. destruct (step_file b f x p t H) as (t1 & H1). eapply IH. exact H1. Qed.
Lemma step_other : forall b f m p, p <> fst m -> step b f m p = f p.
Proof. intros b f [q o] p N. cbn in N. unfold step. cbn [fst snd]. destruct o; destruct (f q) as [[|]|]; try (destruct b); rewrite ?put_other by exact N; reflexivity. Qed.
Lemma fill_other : forall b m f p, ~ In p (map fst m) -> fill b m f p = f p.
Proof.
  induction m as [|x m IH]; intros f p H; [reflexivity|]. rewrite fill_cons, IH by (intros A; apply H; right; exact A).
  apply step_other. intros ->. apply H. left. reflexivity.
Qed.
Lemma run_effect : forall force l f w f' w', Forall op_plain l -> sound f -> run force l (f, w) = ((f', w'), Ok tt) ->
  sound f' /\ feq f' (fill (forced force) (flat_map op_places l) f) /\
  (forall p x, In (p, x) (flat_map op_places l) -> (x = None -> f' p = Some EDir) /\ (x <> None -> forced force = true -> exists t, f' p = Some (EFile t))) /\
  (exists new, w' = w ++ new /\
     (forall p t, is_False force = true -> In (p, Some t) (flat_map op_places l) -> f p <> None -> In p new) /\
     (forall p, In p new -> is_False force = true /\ exists m1 t m2, flat_map op_places l = m1 ++ (p, Some t) :: m2 /\ (f p <> None \/ In p (map fst m1)))).
Proof.
  intros force. induction l as [|o l IH]; intros f w f' w' Hl S H.
  - injection H as <- <-. split; [exact S|]. split; [intros q; reflexivity|]. split; [intros p x []|]. exists []. rewrite app_nil_r. repeat split; intros; contradiction.
  - inversion Hl as [|? ? Ho Hl']; subst. cbn [run] in H. destruct (run_op force o (f, w)) as [[f1 w1] [u|e]] eqn:E; [|discriminate]. destruct u.
    destruct (op_effect _ _ _ _ _ _ Ho S E) as (S1 & F1 & K1 & new1 & -> & N1).
    destruct (IH f1 (w ++ new1) f' w' Hl' S1 H) as (S2 & F2 & K2 & new2 & -> & A2 & B2).
    cbn [flat_map]. split; [exact S2|]. split; [|split].
    + intros q. rewrite fill_app. rewrite F2. apply fill_feq. exact F1.
    + intros p x Hp. apply in_app_or in Hp. destruct Hp as [Hp|Hp]; [|apply K2; exact Hp]. destruct (K1 p x Hp) as [Ka Kb]. split.
      * intros Hx. specialize (Ka Hx). pose proof (run_dir force l (f1, w ++ new1) p Ka) as D. rewrite H in D. exact D.
      * intros Hx Hf. destruct (Kb Hx Hf) as (t & Ht). rewrite F2. eapply fill_file. exact Ht.
    + exists (new1 ++ new2). rewrite app_assoc. split; [reflexivity|]. split.
      * intros p t Hf Hp Hn. apply in_or_app. apply in_app_or in Hp. destruct Hp as [Hp|Hp].
        -- left. apply N1. split; [exact Hf|]. exists t. split; assumption.
        -- right. apply (A2 p t Hf Hp). destruct (f p) as [[|t1]|] eqn:Ep; [| |contradiction].
           ++ pose proof (run_op_dir force o (f, w) p Ep) as D. rewrite E in D. cbn in D. rewrite D. discriminate.
           ++ destruct (fill_file (forced force) (op_places o) f p t1 Ep) as (t2 & Ht). rewrite F1, Ht. discriminate.
      * intros p Hp. apply in_app_or in Hp. destruct Hp as [Hp|Hp].
        -- apply N1 in Hp. destruct Hp as (Hf & t & Hi & Hn). split; [exact Hf|]. apply in_split in Hi. destruct Hi as (a & b & Eab).
           exists a, t, (b ++ flat_map op_places l). rewrite Eab. rewrite <- app_assoc. split; [reflexivity|left; exact Hn].
        -- destruct (B2 p Hp) as (Hf & m1 & t & m2 & Em & Hd). split; [exact Hf|]. exists (op_places o ++ m1), t, m2. rewrite Em, app_assoc. split; [reflexivity|].
           rewrite map_app. destruct Hd as [Hd|Hd]; [|right; apply in_or_app; right; exact Hd].
           destruct (in_dec path_dec p (map fst (op_places o))) as [Hi|Hi]; [right; apply in_or_app; left; exact Hi|]. left. intros A. apply Hd. rewrite F1. rewrite fill_other by exact Hi. exact A.
Qed.
Lemma run_no_abs : forall force l x x', run force l x = (x', Ok tt) -> forall d, ~ In (OAbs d) l.
Proof.
  induction l as [|o l IH]; intros x x' H d Hi; [contradiction|]. cbn [run] in H. destruct (run_op force o x) as [x1 [u|e]] eqn:E; [|discriminate].
  destruct Hi as [->|Hi]; [|exact (IH _ _ H d Hi)]. destruct x as [f w]. unfold run_op, check in E. destruct (f d) as [[|]|] eqn:Ed in E; cbv beta iota in E; congruence.
Qed.
Lemma ops_plain : forall v, plain_dict v -> forall top, Forall op_plain (ops top v).
Proof.
  induction v as [t|items IH] using value_ind2; intros Hv top; [constructor|]. inversion Hv as [|? Hi]; subst. cbn [ops].
  apply Forall_forall. intros o Ho. apply in_flat_map in Ho. destruct Ho as ([k x] & Hk & Ho). cbn [fst snd] in Ho. destruct (Hi k x Hk) as (H1 & H2 & H3).
  rewrite Forall_forall in IH. specialize (IH _ Hk). cbn [snd] in IH.
  destruct (k_abs k); [destruct Ho as [<-|[]]; exact I|]. destruct x as [t|its]; [destruct Ho as [<-|[]]; split; assumption|].
  destruct Ho as [<-|Ho]; [split; assumption|]. specialize (IH H3 (resolve top (k_parts k))). rewrite Forall_forall in IH. apply IH. exact Ho.
Qed.
Lemma ops_contents : forall v, plain_dict v -> is_dict v -> forall top, (forall d, ~ In (OAbs d) (ops top v)) -> flat_map op_places (ops top v) = contents top v.
Proof.
  induction v as [t|items IH] using value_ind2; intros Hv D top Ha; [contradiction|]. inversion Hv as [|? Hi]; subst. unfold contents. cbn [ops places tl] in *.
  clear Hv D. induction items as [|[k x] items IHi]; [reflexivity|]. inversion IH as [|? ? Hx Hr]; subst. cbn [flat_map fst snd] in *.
  destruct (Hi k x (or_introl eq_refl)) as (H1 & H2 & H3).
  destruct (k_abs k); [exfalso; apply (Ha top); left; reflexivity|].
  rewrite flat_map_app. f_equal.
  - destruct x as [t|its].
    + cbn [flat_map op_places places]. rewrite app_nil_r. reflexivity.
    + rewrite <- (app_nil_l (_ :: _)). cbn [app flat_map]. rewrite (resolve_plain _ top H2) in *. rewrite Hx; [|exact H3|exact I|].
      * cbn [op_places]. rewrite <- app_assoc. reflexivity.
      * intros d Hd. apply (Ha d). apply in_or_app. left. right. exact Hd.
  - apply IHi; [exact Hr|intros d Hd; apply (Ha d); apply in_or_app; right; exact Hd|intros k0 x0 Hk; apply Hi; right; exact Hk].
Qed.

(** ** Closed forms *)
Lemma fill_first : forall m f p, fill false m f p = filled false f m p.
Proof.
  induction m as [|[q o] m IH]; intros f p.
  - unfold filled. cbn. destruct (f p) as [[|]|]; reflexivity.
  - rewrite fill_cons, IH. unfold filled. cbn [first_of]. destruct (path_dec p q) as [->|N].
    + rewrite peqb_refl. unfold step. cbn [fst snd]. destruct (f q) as [[|t]|] eqn:E.
      * destruct o; rewrite E; reflexivity.
      * destruct o; rewrite E; reflexivity.
      * destruct o; rewrite put_same; reflexivity.
    + rewrite (step_other false f (q, o) p N). rewrite peqb_neq by exact N. reflexivity.
Qed.
Lemma last_snoc : forall p m q o, last_of p (m ++ [(q, o)]) = if peqb p q then Some o else last_of p m.
Proof. intros. unfold last_of. rewrite rev_app_distr. reflexivity. Qed.
Lemma fill_last_files : forall m f p, (forall o, In (p, o) m -> o <> None) -> f p <> Some EDir ->
  fill true m f p = match last_of p m with Some (Some t) => Some (EFile t) | _ => f p end.
Proof.
  intros m f p. induction m as [|[q o] m IH] using rev_ind; intros H Hf; [reflexivity|].
  rewrite fill_app, last_snoc. cbn [fill fold_left]. fold (fill true m f). assert (Hm : forall o0, In (p, o0) m -> o0 <> None) by (intros o0 Ho; apply H; apply in_or_app; left; exact Ho).
  specialize (IH Hm Hf). destruct (path_dec p q) as [->|N].
  - rewrite peqb_refl. destruct o as [t|]; [|exfalso; apply (H None); [apply in_or_app; right; left; reflexivity|reflexivity]].
    unfold step. cbn [fst snd]. rewrite IH. destruct (last_of q m) as [[t'|]|]; [rewrite put_same; reflexivity| |].
    + destruct (f q) as [[|]|] eqn:E; [contradiction|rewrite put_same; reflexivity|rewrite put_same; reflexivity].
    + destruct (f q) as [[|]|] eqn:E; [contradiction|rewrite put_same; reflexivity|rewrite put_same; reflexivity].
  - rewrite peqb_neq by exact N. rewrite step_other by exact N. exact IH.
Qed.
Lemma fill_last_dirs : forall b m f p, (forall o, In (p, o) m -> o = None) -> f p = None ->
  fill b m f p = match last_of p m with Some None => Some EDir | _ => None end.
Proof.
  intros b m f p. induction m as [|[q o] m IH] using rev_ind; intros H Hf; [exact Hf|].
  rewrite fill_app, last_snoc. cbn [fill fold_left]. fold (fill b m f). assert (Hm : forall o0, In (p, o0) m -> o0 = None) by (intros o0 Ho; apply H; apply in_or_app; left; exact Ho).
  specialize (IH Hm Hf). destruct (path_dec p q) as [->|N].
  - rewrite peqb_refl. destruct o as [t|]; [specialize (H (Some t) ltac:(apply in_or_app; right; left; reflexivity)); discriminate|].
    unfold step. cbn [fst snd]. rewrite IH. destruct (last_of q m) as [[t'|]|]; [rewrite put_same; reflexivity|exact IH|rewrite put_same; reflexivity].
  - rewrite peqb_neq by exact N. rewrite step_other by exact N. exact IH.
Qed.
Lemma first_of_in : forall p m o, first_of p m = Some o -> In (p, o) m.
Proof.
  induction m as [|[q x] m IH]; intros o H; [discriminate|]. cbn in H. destruct (peqb p q) eqn:E; [|right; apply IH; exact H].
  apply peqb_eq in E. subst. injection H as ->. left. reflexivity.
Qed.
Lemma last_of_in : forall p m o, last_of p m = Some o -> In (p, o) m.
Proof. intros p m o H. apply first_of_in in H. apply in_rev in H. exact H. Qed.
Lemma fill_last : forall m f p,
  (forall o, In (p, o) m -> (o = None -> fill true m f p = Some EDir) /\ (o <> None -> exists t, fill true m f p = Some (EFile t))) ->
  (f p = Some EDir -> fill true m f p = Some EDir) ->
  fill true m f p = filled true f m p.
Proof.
  intros m f p K Hd. unfold filled. destruct (f p) as [[|t]|] eqn:E; [apply Hd; reflexivity| |].
  - rewrite (fill_last_files m f p); [rewrite E; reflexivity| |rewrite E; discriminate]. intros o Ho ->. destruct (K None Ho) as [A _]. specialize (A eq_refl).
    destruct (fill_file true m f p t E) as (t' & B). congruence.
  - destruct (last_of p m) as [[t|]|] eqn:L.
    + pose proof (last_of_in _ _ _ L) as Hi. destruct (K _ Hi) as [_ B]. destruct (B ltac:(discriminate)) as (t' & Ht).
      rewrite (fill_last_files m f p); [rewrite L; reflexivity| |rewrite E; discriminate]. intros o Ho ->. destruct (K None Ho) as [A _]. rewrite (A eq_refl) in Ht. discriminate.
    + apply last_of_in in L. destruct (K _ L) as [A _]. exact (A eq_refl).
    + rewrite fill_other; [exact E|]. intros Hi. apply in_map_iff in Hi. destruct Hi as ([q o] & Eq & Hi). cbn in Eq. subst q.
      apply in_split in Hi. destruct Hi as (a & b & ->). unfold last_of in L. rewrite rev_app_distr in L. cbn [rev] in L. rewrite <- app_assoc in L. 
      assert (X : forall l1 l2, first_of p (l1 ++ (p, o) :: l2) <> None) by (induction l1 as [|[q x] l1 IH]; intros l2; cbn; [rewrite peqb_refl; discriminate|destruct (peqb p q); [discriminate|apply IH]]).
      exact (X _ _ L).
Qed.

(** ** When it succeeds *)
Lemma compatible_incl : forall f m1 m2, (forall x, In x m1 -> In x m2) -> compatible f m2 -> compatible f m1.
Proof.
  intros f m1 m2 I C p o Ho. destruct (C p o (I _ Ho)) as [A B]. split; [|exact B]. intros E. destruct (A E) as [A1 A2]. split; [exact A1|]. intros t Ht. apply (A2 t). apply I. exact Ht.
Qed.
Lemma compatible_after : forall b f f' m1 m2, compatible f (m1 ++ m2) -> feq f' (fill b m1 f) -> compatible f' m2.
Proof.
  intros b f f' m1 m2 C F p o Ho. destruct (C p o (in_or_app _ _ _ (or_intror Ho))) as [A B]. split.
  - intros E. destruct (A E) as [A1 A2]. split; [|intros t Ht; apply (A2 t); apply in_or_app; right; exact Ht].
    rewrite F. assert (Hm : forall o, In (p, o) m1 -> o = None) by (intros [t|] Hx; [exfalso; apply (A2 t); apply in_or_app; left; exact Hx|reflexivity]).
    destruct A1 as [A1|A1].
    + rewrite (fill_last_dirs b m1 f p Hm A1). destruct (last_of p m1) as [[|]|]; auto.
    + right. clear -Hm A1. revert f A1. induction m1 as [|[q x] m1 IH]; intros f A1; [exact A1|]. rewrite fill_cons. apply IH; [intros o Ho; apply Hm; right; exact Ho|].
      destruct (path_dec p q) as [->|N]; [|rewrite step_other by exact N; exact A1]. unfold step. cbn. destruct x; rewrite A1; exact A1.
  - intros E. specialize (B E). rewrite F. assert (Hm : forall o, In (p, o) m1 -> o <> None).
    { intros x Hx ->. destruct (C p None (in_or_app _ _ _ (or_introl Hx))) as [A2 _]. destruct (A2 eq_refl) as [_ A3]. destruct o as [t|]; [|contradiction]. apply (A3 t). apply in_or_app. right. exact Ho. }
    clear -Hm B. revert f B. induction m1 as [|[q x] m1 IH]; intros f B; [exact B|]. rewrite fill_cons. apply IH; [intros o Ho; apply Hm; right; exact Ho|].
    destruct (path_dec p q) as [->|N]; [|rewrite step_other by exact N; exact B]. unfold step. cbn. destruct x as [t|]; [|exfalso; apply (Hm None); [left; reflexivity|reflexivity]].
    destruct (f q) as [[|]|] eqn:E; [contradiction| |]; [destruct b|]; rewrite ?put_same, ?E; discriminate.
Qed.
Lemma op_ok : forall force o f w, op_plain o -> sound f -> (forall d, o <> OAbs d) -> (forall d p, o = OMk d p \/ (exists t, o = OFile d p t) -> f d = Some EDir) ->
  compatible f (op_places o) -> snd (run_op force o (f, w)) = Ok tt.
Proof.
  intros force o f w Hp S Ha Hd C. destruct o as [d|d p|d p t]; [contradiction (Ha d eq_refl)| |].
  - destruct Hp as [Hn Hp]. cbn [run_op op_places] in *. unfold check at 1. rewrite (Hd d p (or_introl eq_refl)). rewrite (resolve_plain p d Hp).
    assert (G : forall q o, In (q, o) (dirs d p) -> f q = None \/ f q = Some EDir).
    { intros q o Hq. assert (Hq' : In (q, o) (above d p ++ [(d ++ p, None)])) by (destruct p; [contradiction|exact Hq]). destruct (dirs_in _ _ _ _ Hq) as [-> _]. destruct (C q None Hq') as [A _]. apply A. reflexivity. }
    destruct (exists_ f (d ++ p)) eqn:Ex.
    + unfold check. cbn [snd]. unfold exists_ in Ex. destruct (G (d ++ p) None) as [G1|G1]; [apply dirs_all with (r2 := []); [rewrite app_nil_r; reflexivity|exact Hn]|rewrite G1 in Ex; discriminate|rewrite G1; reflexivity].
    + pose proof (makedirs_ok p f d Hp G) as M. pose proof (makedirs_effect true p f d Hp (Hd d p (or_introl eq_refl)) S M) as (_ & _ & E1).
      destruct (makedirs f d p) as [f1 r]. cbn [fst snd] in *. subst r. cbn [snd]. unfold check. rewrite E1. reflexivity.
  - destruct Hp as [Hn Hp]. cbn [run_op op_places] in *. assert (Ed : f d = Some EDir) by (apply (Hd d p); right; eauto). unfold check. rewrite Ed.
    rewrite (resolve_plain p d Hp), (resolve_plain (removelast p) d (plain_removelast _ Hp)).
    destruct (exists_ f (d ++ p) && is_False force); [reflexivity|].
    assert (ND : f (d ++ p) <> Some EDir) by (destruct (C (d ++ p) (Some t)) as [_ B]; [apply in_or_app; right; left; reflexivity|apply B; discriminate]).
    assert (Wr : forall f1, f1 (d ++ p) = f (d ++ p) -> f1 (d ++ removelast p) = Some EDir -> snd (let (f2, r2) := write f1 d p t in ((f2, w), r2)) = Ok tt).
    { intros f1 E1 E2. unfold write. rewrite (resolve_plain p d Hp), (resolve_plain (removelast p) d (plain_removelast _ Hp)), E1. unfold isdir. rewrite E2.
      destruct (f (d ++ p)) as [[|]|]; [contradiction|reflexivity|reflexivity]. }
    destruct (negb _ && negb _) eqn:Eb.
    + assert (G : forall q o, In (q, o) (dirs d (removelast p)) -> f q = None \/ f q = Some EDir).
      { intros q o Hq. destruct (dirs_in _ _ _ _ Hq) as [-> _]. rewrite <- above_dirs in Hq by exact Hn. destruct (C q None (in_or_app _ _ _ (or_introl Hq))) as [A _]. apply A. reflexivity. }
      pose proof (makedirs_ok _ f d (plain_removelast _ Hp) G) as M. pose proof (makedirs_effect true _ f d (plain_removelast _ Hp) Ed S M) as (_ & F1 & E1).
      destruct (makedirs f d (removelast p)) as [f1 r]. cbn [fst snd] in *. subst r. apply Wr; [|exact E1]. rewrite F1. apply fill_other.
      intros Hi. apply in_map_iff in Hi. destruct Hi as ([q o] & Eq & Hi). cbn in Eq. subst q. destruct (dirs_in _ _ _ _ Hi) as (-> & r1 & r2 & E & Hr & B).
      apply app_inv_head in B. destruct (removelast_snoc p Hn) as (c & Ec). rewrite E in Ec. rewrite <- B in Ec. apply (f_equal (@length string)) in Ec. rewrite !app_length in Ec. cbn in Ec. lia.
    + apply Wr; [reflexivity|]. apply andb_false_iff in Eb. destruct Eb as [Eb|Eb]; [destruct (removelast p); [rewrite app_nil_r; exact Ed|discriminate]|apply negb_false_iff in Eb; apply isdir_some; exact Eb].
Qed.
Lemma run_ok : forall force v, plain_dict v -> relative_dict v -> is_dict v -> forall top f w, sound f -> f top = Some EDir -> compatible f (contents top v) ->
  snd (run force (ops top v) (f, w)) = Ok tt.
Proof.
  intros force. induction v as [t|items IH] using value_ind2; intros Hv Hr D top f w S Ht C; [contradiction|]. inversion Hv as [|? Hi]; subst. inversion Hr as [|? Hri]; subst.
  unfold contents in C. cbn [places tl ops] in *. clear Hv Hr D. revert f w S Ht C. induction items as [|[k x] items IHi]; intros f w S Ht C; [reflexivity|].
  inversion IH as [|? ? Hx Hrest]; subst. cbn [flat_map fst snd] in *. destruct (Hi k x (or_introl eq_refl)) as (H1 & H2 & H3). destruct (Hri k x (or_introl eq_refl)) as (H4 & H5). rewrite H4.
  specialize (IHi Hrest (fun k0 x0 Hk => Hi k0 x0 (or_intror Hk)) (fun k0 x0 Hk => Hri k0 x0 (or_intror Hk))).
  rewrite run_app.
  assert (First : forall o, o = OMk top (k_parts k) \/ (exists t, o = OFile top (k_parts k) t) -> (forall y, In y (op_places o) -> In y ((above top (k_parts k) ++ places (top ++ k_parts k) x))) ->
     exists f1 w1, run_op force o (f, w) = ((f1, w1), Ok tt)).
  { intros o Ho Hin. pose proof (op_ok force o f w) as O. destruct (run_op force o (f, w)) as [[f1 w1] r] eqn:E. exists f1, w1. cbn [snd] in O. rewrite O; [reflexivity| |exact S| | |].
    - destruct Ho as [->|(t & ->)]; split; assumption.
    - intros d Hd. destruct Ho as [->|(t & ->)]; discriminate.
    - intros d p Hdp. destruct Ho as [->|(t & ->)]; destruct Hdp as [Hdp|(t0 & Hdp)]; try discriminate; injection Hdp as <- <-; exact Ht.
    - apply compatible_incl with (m2 := (above top (k_parts k) ++ places (top ++ k_parts k) x) ++ flat_map (fun kx => above top (k_parts (fst kx)) ++ places (top ++ k_parts (fst kx)) (snd kx)) items); [|exact C].
      intros y Hy. apply in_or_app. left. apply Hin. exact Hy. }
  destruct x as [t|its].
  - destruct (First (OFile top (k_parts k) t)) as (f1 & w1 & E); [right; eauto|intros y Hy; exact Hy|].
    cbn [run]. rewrite E. destruct (op_effect _ _ _ _ _ _ (conj H1 H2 : op_plain (OFile top (k_parts k) t)) S E) as (S1 & F1 & _ & _).
    apply IHi; [exact S1| |].
    + pose proof (run_op_dir force (OFile top (k_parts k) t) (f, w) top Ht) as D. rewrite E in D. exact D.
    + exact (compatible_after _ _ _ _ _ C F1).
  - destruct (First (OMk top (k_parts k))) as (f1 & w1 & E); [left; reflexivity| |].
    { intros y Hy. cbn [op_places] in Hy. apply in_app_or in Hy. apply in_or_app. destruct Hy as [Hy|[<-|[]]]; [left; exact Hy|right; left; reflexivity]. }
    cbn [run]. rewrite E. destruct (op_effect _ _ _ _ _ _ (conj H1 H2 : op_plain (OMk top (k_parts k))) S E) as (S1 & F1 & K1 & _).
    assert (C1 : compatible f1 (contents (top ++ k_parts k) (VDict its) ++ flat_map (fun kx => above top (k_parts (fst kx)) ++ places (top ++ k_parts (fst kx)) (snd kx)) items)).
    { apply (compatible_after (forced force) f f1 (op_places (OMk top (k_parts k)))); [|exact F1]. cbn [op_places]. unfold contents. cbn [places tl].
      cbn [places] in C. rewrite <- app_assoc in C |- *. cbn [app] in C |- *. exact C. }
    rewrite (resolve_plain _ top H2). cbn [snd] in Hx. specialize (Hx H3 H5 I (top ++ k_parts k) f1 w1 S1).
    assert (E2 : f1 (top ++ k_parts k) = Some EDir) by (apply (K1 _ None); [cbn [op_places]; apply in_or_app; right; left; reflexivity|reflexivity]).
    specialize (Hx E2 (compatible_incl _ _ _ (fun y Hy => in_or_app _ _ _ (or_introl Hy)) C1)).
    destruct (run force (ops (top ++ k_parts k) (VDict its)) (f1, w1)) as [[f2 w2] r2] eqn:E3. cbn [snd] in Hx. subst r2.
    destruct (run_effect _ _ _ _ _ _ (ops_plain _ H3 _) S1 E3) as (S2 & F2 & _ & _). rewrite (ops_contents _ H3 I _ (run_no_abs _ _ _ _ E3)) in F2.
    apply IHi; [exact S2| |exact (compatible_after _ _ _ _ _ C1 F2)].
    pose proof (run_op_dir force (OMk top (k_parts k)) (f, w) top Ht) as D. rewrite E in D. cbn [fst] in D.
    pose proof (run_dir force (ops (top ++ k_parts k) (VDict its)) (f1, w1) top D) as D2. rewrite E3 in D2. exact D2.
Qed.

(** ** What holds for every outcome *)
Definition op_dir (o : op) : path := match o with OAbs d | OMk d _ | OFile d _ _ => d end.
Lemma run_op_old : forall o x q e, fst x q = Some e -> fst (fst (run_op FFalse o x)) q = Some e.
Proof.
  intros o [f w] q e H. cbn [fst] in H. destruct o as [d|d p|d p t]; unfold run_op; [exact H| |].
  - unfold check at 1. destruct (f d) as [[|]|]; [|exact H|exact H]. destruct (exists_ f (resolve d p)).
    + exact H.
    + pose proof (makedirs_old p f d q e H) as M. destruct (makedirs f d p) as [f1 [u|er]]; exact M.
  - unfold check. destruct (f d) as [[|]|]; [|exact H|exact H]. cbn [is_False]. destruct (exists_ f (resolve d p)) eqn:Ex; [exact H|]. cbn [andb].
    assert (N : q <> resolve d p) by (intros ->; unfold exists_ in Ex; rewrite H in Ex; discriminate).
    assert (W : forall f1, f1 q = Some e -> fst (fst (let (f2, r2) := write f1 d p t in ((f2, w), r2))) q = Some e).
    { intros f1 H1. unfold write. destruct (f1 (resolve d p)) as [[|]|]; [exact H1| |]; destruct (isdir f1 _); cbn [fst]; rewrite ?put_other by exact N; exact H1. }
    destruct (negb _ && negb _).
    + pose proof (makedirs_old (removelast p) f d q e H) as M. destruct (makedirs f d (removelast p)) as [f1 [u|er]]; [apply W; exact M|exact M].
    + apply W. exact H.
Qed.
Lemma run_old : forall l x q e, fst x q = Some e -> fst (fst (run FFalse l x)) q = Some e.
Proof.
  induction l as [|o l IH]; intros x q e H; [exact H|]. cbn [run]. pose proof (run_op_old o x q e H) as D. destruct (run_op FFalse o x) as [x1 [u|er]]; [apply IH; exact D|exact D].
Qed.
Lemma makedirs_outside : forall p f d q, Forall plain_name p -> (forall x, q <> d ++ x) -> fst (makedirs f d p) q = f q.
Proof.
  induction p as [|c p IH]; intros f d q Hp N; [reflexivity|]. inversion Hp; subst. cbn [makedirs]. rewrite (resolve_plain [c] d) by (constructor; [assumption|constructor]).
  assert (N1 : forall x, q <> (d ++ [c]) ++ x) by (intros x; rewrite <- app_assoc; apply N).
  destruct (f (d ++ [c])) as [[|]|]; [apply IH; assumption|reflexivity|]. rewrite IH by assumption. apply put_other. apply N.
Qed.
Lemma run_op_outside : forall force o x q, op_plain o -> (forall r, q <> op_dir o ++ r) -> fst (fst (run_op force o x)) q = fst x q.
Proof.
  intros force o [f w] q Hp N. destruct o as [d|d p|d p t]; unfold run_op; cbn [op_dir op_plain fst] in *; [reflexivity| |]; destruct Hp as [Hn Hp].
  - unfold check at 1. destruct (f d) as [[|]|]; [|reflexivity|reflexivity]. destruct (exists_ f (resolve d p)); [reflexivity|].
    pose proof (makedirs_outside p f d q Hp N) as M. destruct (makedirs f d p) as [f1 [u|er]]; exact M.
  - unfold check. destruct (f d) as [[|]|]; [|reflexivity|reflexivity]. destruct (_ && is_False force); [reflexivity|].
    rewrite (resolve_plain (removelast p) d (plain_removelast _ Hp)).
    assert (W : forall f1, f1 q = f q -> fst (fst (let (f2, r2) := write f1 d p t in ((f2, w), r2))) q = f q).
    { intros f1 H1. unfold write. rewrite (resolve_plain p d Hp). destruct (f1 (d ++ p)) as [[|]|]; [exact H1| |]; destruct (isdir f1 _); cbn [fst]; rewrite ?put_other by apply N; exact H1. }
    destruct (negb _ && negb _).
    + pose proof (makedirs_outside (removelast p) f d q (plain_removelast _ Hp) N) as M. destruct (makedirs f d (removelast p)) as [f1 [u|er]]; [apply W; exact M|exact M].
    + apply W. reflexivity.
Qed.
Lemma run_outside : forall force l x q, Forall op_plain l -> (forall o r, In o l -> q <> op_dir o ++ r) -> fst (fst (run force l x)) q = fst x q.
Proof.
  induction l as [|o l IH]; intros x q Hl N; [reflexivity|]. inversion Hl; subst. cbn [run]. pose proof (run_op_outside force o x q) as D. specialize (D ltac:(assumption) (fun r => N o r (or_introl eq_refl))).
  destruct (run_op force o x) as [x1 [u|er]]; [|exact D]. rewrite IH; [exact D|assumption|intros o' r Ho; apply N; right; exact Ho].
Qed.
Lemma ops_dir : forall v, plain_dict v -> forall top o, In o (ops top v) -> exists r, op_dir o = top ++ r.
Proof.
  induction v as [t|items IH] using value_ind2; intros Hv top o Ho; [contradiction|]. inversion Hv as [|? Hi]; subst. cbn [ops] in Ho.
  apply in_flat_map in Ho. destruct Ho as ([k x] & Hk & Ho). cbn [fst snd] in Ho. destruct (Hi k x Hk) as (H1 & H2 & H3).
  rewrite Forall_forall in IH. specialize (IH _ Hk). cbn [snd] in IH.
  destruct (k_abs k); [destruct Ho as [<-|[]]; exists []; rewrite app_nil_r; reflexivity|].
  destruct x as [t|its]; [destruct Ho as [<-|[]]; exists []; rewrite app_nil_r; reflexivity|]. destruct Ho as [<-|Ho]; [exists []; rewrite app_nil_r; reflexivity|].
  destruct (IH H3 _ _ Ho) as (r & E). rewrite (resolve_plain _ top H2) in E. exists (k_parts k ++ r). rewrite app_assoc. exact E.
Qed.

(** ** The same call again *)
Definition files (m : list mention) : list path := flat_map (fun x => match snd x with Some _ => [fst x] | None => [] end) m.
Lemma files_app : forall a b, files (a ++ b) = files a ++ files b.
Proof. intros. apply flat_map_app. Qed.
Lemma files_above : forall p d, files (above d p) = [].
Proof. induction p as [|c [|c' p] IH]; intros d; [reflexivity|reflexivity|]. rewrite above_cons by discriminate. exact (IH (d ++ [c])). Qed.
Lemma run_checked : forall force l x x', run force l x = (x', Ok tt) -> forall o, In o l -> fst x' (op_dir o) = Some EDir.
Proof.
  induction l as [|o l IH]; intros x x' H o' Ho; [contradiction|]. cbn [run] in H. destruct (run_op force o x) as [x1 [u|e]] eqn:E; [|discriminate].
  destruct Ho as [<-|Ho]; [|exact (IH _ _ H o' Ho)].
  assert (D : fst x (op_dir o) = Some EDir).
  { destruct x as [f w]. cbn [fst]. destruct (f (op_dir o)) as [[|]|] eqn:Ed; [reflexivity| |]; exfalso; destruct o; unfold run_op, check in E; cbn [op_dir] in Ed; rewrite Ed in E; discriminate. }
  pose proof (run_op_dir force o x _ D) as D1. rewrite E in D1. cbn [fst] in D1. pose proof (run_dir force l x1 _ D1) as D2. rewrite H in D2. exact D2.
Qed.
Lemma run_again : forall l f w, Forall op_plain l -> (forall d, ~ In (OAbs d) l) -> (forall o, In o l -> f (op_dir o) = Some EDir) ->
  (forall p x, In (p, x) (flat_map op_places l) -> f p <> None /\ (x = None -> f p = Some EDir)) ->
  run FFalse l (f, w) = ((f, w ++ files (flat_map op_places l)), Ok tt).
Proof.
  induction l as [|o l IH]; intros f w Hl Ha Hd Hm; [cbn; rewrite app_nil_r; reflexivity|]. inversion Hl as [|? ? Ho Hl']; subst. cbn [run flat_map].
  assert (E : run_op FFalse o (f, w) = ((f, w ++ files (op_places o)), Ok tt)).
  { pose proof (Hd o (or_introl eq_refl)) as Ed. destruct o as [d|d p|d p t]; [contradiction (Ha d (or_introl eq_refl))| |]; destruct Ho as [Hn Hp]; cbn [op_dir] in Ed; unfold run_op, check; rewrite Ed; rewrite (resolve_plain p d Hp).
    - destruct (Hm (d ++ p) None) as [_ A]; [cbn [flat_map op_places]; apply in_or_app; left; apply in_or_app; right; left; reflexivity|]. specialize (A eq_refl). unfold exists_. rewrite A. rewrite A.
      cbn [op_places]. rewrite files_app, files_above. cbn. rewrite app_nil_r. reflexivity.
    - destruct (Hm (d ++ p) (Some t)) as [A _]; [cbn [flat_map op_places]; apply in_or_app; left; apply in_or_app; right; left; reflexivity|]. unfold exists_. destruct (f (d ++ p)); [|contradiction]. cbn [andb is_False].
      cbn [op_places]. rewrite files_app, files_above. reflexivity. }
  rewrite E. rewrite IH; [rewrite files_app, app_assoc; reflexivity|exact Hl'|intros d Hi; apply (Ha d); right; exact Hi|intros o' Ho'; apply Hd; right; exact Ho'|].
  intros p x Hi. apply Hm. cbn [flat_map]. apply in_or_app. right. exact Hi.
Qed.
Lemma fill_keeps : forall b m f p, f p <> None -> fill b m f p <> None.
Proof.
  induction m as [|[q o] m IH]; intros f p H; [exact H|]. rewrite fill_cons. apply IH. destruct (path_dec p q) as [->|N]; [|rewrite step_other by exact N; exact H].
  unfold step. cbn. destruct o; destruct (f q) as [[|]|] eqn:E; try contradiction; try (destruct b); rewrite ?put_same, ?E; discriminate.
Qed.
Lemma fill_there : forall b m f p x, In (p, x) m -> fill b m f p <> None.
Proof.
  induction m as [|[q o] m IH]; intros f p x H; [contradiction|]. rewrite fill_cons. destruct H as [H|H]; [|apply (IH _ _ _ H)]. injection H as -> ->.
  apply fill_keeps. unfold step. cbn. destruct x; destruct (f p) as [[|]|] eqn:E; try (destruct b); rewrite ?put_same, ?E; discriminate.
Qed.

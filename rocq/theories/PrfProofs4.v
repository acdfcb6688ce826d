(** Proofs for PrfProps.v: process_profile as a whole, and the clock. *)
From Coq Require Import Permutation Sorted Setoid.
From Verif Require Import Base BaseFacts PrfModel PrfSpec PrfProofs PrfProofs2 PrfProofs3.
Local Open Scope string_scope.
Local Open Scope nat_scope.
Local Open Scope list_scope.

Local Arguments Qplus : simpl never.
Local Arguments Qminus : simpl never.
Local Arguments Qmult : simpl never.
Local Arguments Qeq : simpl never.
Local Arguments Qle : simpl never.
Local Arguments sumq : simpl never.

Definition qn (n : nat) : Q := inject_Z (Z.of_nat n).
Lemma qn_add : forall a b, (qn (a + b) == qn a + qn b)%Q.
Proof. intros a b. unfold qn. rewrite Nat2Z.inj_add, inject_Z_plus. reflexivity. Qed.
Lemma qn_inj : forall a b, (qn a == qn b)%Q -> a = b.
Proof. intros a b H. unfold qn in H. apply Nat2Z.inj. unfold inject_Z, Qeq in H. cbn in H. rewrite !Z.mul_1_r in H. exact H. Qed.
Lemma number_sum : forall f C, (qn (number f C) == sumq (fun c => if f c then 1 else 0) C)%Q.
Proof. intros f. unfold number. induction C as [|c C IH]; [reflexivity|]. rewrite sumq_cons. cbn [filter]. destruct (f c); cbn [length]; [change (S (length (filter f C))) with (1 + length (filter f C)); rewrite qn_add, IH; reflexivity|rewrite IH; ring]. Qed.

(** ** Totals by name *)
Definition nm (k : string) : string := last (split_on comma k) "".
Definition tinv (l : list (string * node)) (d : list (string * (Q * nat))) : Prop :=
  forall name, (sget d name = None <-> ~ exists x, In x l /\ nm (fst x) = name) /\
    forall t c, sget d name = Some (t, c) -> (t == sumq (fun x => if String.eqb name (nm (fst x)) then n_time (snd x) else 0%Q) l)%Q /\ (qn c == sumq (fun x => if String.eqb name (nm (fst x)) then qn (n_count (snd x)) else 0%Q) l)%Q.
Lemma tinv_step : forall l d x, tinv l d -> tinv (l ++ [x]) (add_total d x).
Proof.
  intros l d x I name. unfold add_total. fold (nm (fst x)).
  assert (Z : sget d name = None -> forall g : string * node -> Q, (sumq (fun x => if String.eqb name (nm (fst x)) then g x else 0%Q) l == 0)%Q).
  { intros N g. apply sumq_zero. intros y Iy. destruct (String.eqb_spec name (nm (fst y))) as [E|]; [|reflexivity]. exfalso. apply (proj1 (proj1 (I name)) N). exists y. split; [exact Iy|congruence]. }
  assert (Ex : (exists y, In y (l ++ [x]) /\ nm (fst y) = name) <-> (exists y, In y l /\ nm (fst y) = name) \/ nm (fst x) = name).
  { split.
    - intros (y & Iy & E). apply in_app_or in Iy. destruct Iy as [Iy|[<-|[]]]; [left; exists y; split; assumption|right; exact E].
    - intros [(y & Iy & E)|E]; [exists y|exists x]; (split; [apply in_or_app|exact E]); [left; exact Iy|right; left; reflexivity]. }
  assert (Ot : forall v, name <> nm (fst x) -> sget (sset d (nm (fst x)) v) name = sget d name) by (intros v Ne; unfold sget, sset; apply (dget_dset_ne String.eqb String.eqb_eq); exact Ne).
  assert (Sa : forall v, sget (sset d (nm (fst x)) v) (nm (fst x)) = Some v) by (intros v; unfold sget, sset; apply (dget_dset_eq String.eqb String.eqb_eq)).
  destruct (String.eqb_spec name (nm (fst x))) as [->|Ne].
  - split.
    + split; [|intros N; exfalso; apply N; apply Ex; right; reflexivity]. destruct (sget d (nm (fst x))) as [[t c]|]; rewrite Sa; discriminate.
    + intros t c G. rewrite !sumq_app, !sumq_cons, !sumq_nil, String.eqb_refl. destruct (sget d (nm (fst x))) as [[t0 c0]|] eqn:G0; rewrite Sa in G; injection G as <- <-.
      * destruct (proj2 (I (nm (fst x))) t0 c0 G0) as [Et Ec]. rewrite Et, qn_add, Ec. split; ring.
      * pose proof (Z eq_refl) as Z'. rewrite !Z'. split; ring.
  - assert (E : sget (match sget d (nm (fst x)) with Some (t, c) => sset d (nm (fst x)) ((t + n_time (snd x))%Q, c + n_count (snd x)) | None => sset d (nm (fst x)) (n_time (snd x), n_count (snd x)) end) name = sget d name) by (destruct (sget d (nm (fst x))) as [[t c]|]; apply Ot; exact Ne).
    split.
    + rewrite E, (proj1 (I name)), Ex. split; [intros N [X|X]; [exact (N X)|apply Ne; symmetry; exact X]|intros N X; apply N; left; exact X].
    + intros t c G. rewrite E in G. destruct (proj2 (I name) t c G) as [Et Ec]. rewrite !sumq_app, !sumq_cons, !sumq_nil. assert (X : String.eqb name (nm (fst x)) = false) by (apply String.eqb_neq; exact Ne). rewrite X, Et, Ec. split; ring.
Qed.
Lemma tinv_fold : forall m l d, tinv l d -> tinv (l ++ m) (fold_left add_total m d).
Proof. induction m as [|x m IH]; intros l d I; [rewrite app_nil_r; exact I|]. cbn [fold_left]. specialize (IH (l ++ [x]) (add_total d x) (tinv_step l d x I)). rewrite <- app_assoc in IH. exact IH. Qed.
Lemma totals_ok : forall l, tinv l (fold_left add_total l []).
Proof. intros l. apply (tinv_fold l [] []). intros name. split; [|intros t c G; discriminate]. split; [intros _ (x & [] & _)|reflexivity]. Qed.

Lemma totals_nodup : forall l d, NoDup (dkeys d) -> NoDup (dkeys (fold_left add_total l d)).
Proof. induction l as [|x l IH]; intros d ND; [exact ND|]. cbn [fold_left]. apply IH. unfold add_total. destruct (sget d (last (split_on comma (fst x)) "")) as [[t c]|]; apply (NoDup_dkeys_dset String.eqb String.eqb_eq); exact ND. Qed.
Lemma dict_sum : forall (F : string -> node -> Q) (tmp : list (string * node)), NoDup (dkeys tmp) ->
    (sumq (fun x => F (fst x) (snd x)) tmp == sumq (fun k => match sget tmp k with Some nd => F k nd | None => 0%Q end) (dkeys tmp))%Q.
Proof.
  intros F. induction tmp as [|[k nd] tmp IH]; intros ND; [reflexivity|]. unfold dkeys in *. cbn [map fst] in *. inversion ND; subst. rewrite !sumq_cons. cbn [fst snd]. unfold sget at 1. cbn [dget]. rewrite String.eqb_refl, IH by assumption.
  apply Qplus_comp; [reflexivity|]. apply sumq_ext. intros k' I. unfold sget. cbn [dget]. destruct (String.eqb_spec k' k) as [->|]; [contradiction|reflexivity].
Qed.

Section Whole.
  Variable C : list pcall.
  Hypothesis W : Forall wf_call C.
  Hypothesis Cl : closed C.
  Variables (funcs : list (string * (nat * Q * Q))) (tops : list string) (total : Q).
  Hypothesis F : finv C funcs tops.
  Let L := sort_paths funcs.
  Let ks := map fst L.

  Definition names (p : list string) : list string := map nm (filter (kid p) ks).
  Lemma kid_text : forall p k, In k ks -> kid p k = true -> called C (p ++ [nm k]) /\ k = text (p ++ [nm k]).
  Proof.
    intros p k I K. apply (proj1 (ks_in C funcs tops F k)) in I. destruct I as (q & Cq & ->). unfold kid, nm in *. rewrite (csplit C W q Cq) in *. apply same_iff in K. subst p. rewrite <- (csnoc C W q Cq). split; [exact Cq|reflexivity].
  Qed.
  Lemma nm_snoc : forall p n, called C (p ++ [n]) -> nm (text (p ++ [n])) = n /\ kid p (text (p ++ [n])) = true.
  Proof. intros p n Cn. unfold nm, kid. rewrite (csplit C W _ Cn), last_last, removelast_last. split; [reflexivity|apply same_refl]. Qed.
  Lemma names_texts : forall p, filter (kid p) ks = map (fun n => text (p ++ [n])) (names p).
  Proof.
    intros p. unfold names. rewrite map_map. rewrite <- (map_id (filter (kid p) ks)) at 1. apply map_ext_in. intros k I. apply filter_In in I. destruct I as [I K]. apply kid_text; assumption.
  Qed.
  Lemma names_in : forall p n, In n (names p) <-> called C (p ++ [n]).
  Proof.
    intros p n. unfold names. rewrite in_map_iff. split.
    - intros (k & <- & I). apply filter_In in I. destruct I as [I K]. apply kid_text; assumption.
    - intros Cn. destruct (nm_snoc p n Cn) as [E K]. exists (text (p ++ [n])). split; [exact E|]. apply filter_In. split; [|exact K]. apply (proj2 (ks_in C funcs tops F _)). exists (p ++ [n]). split; [exact Cn|reflexivity].
  Qed.
  Lemma names_nodup : forall p, NoDup (names p).
  Proof.
    intros p. assert (ND : NoDup (map (fun n => text (p ++ [n])) (names p))) by (rewrite <- names_texts; apply NoDup_filter; exact (ks_nodup C funcs tops F)). exact (NoDup_map_inv _ _ ND).
  Qed.
  Lemma sorted_nth : forall l i j, StronglySorted (fun a b => String.leb a b = true) l -> i < j -> j < length l -> String.leb (nth i l "") (nth j l "") = true.
  Proof.
    induction l as [|a l IH]; intros i j S Lt Len; [cbn in Len; lia|]. inversion S; subst. destruct j as [|j]; [lia|]. cbn in Len. destruct i as [|i]; cbn [nth].
    - apply (proj1 (Forall_forall _ _) H2). apply nth_In. lia.
    - apply IH; [assumption|lia|lia].
  Qed.
  Lemma sorted_filter : forall (f : string -> bool) l, StronglySorted (fun a b => String.leb a b = true) l -> StronglySorted (fun a b => String.leb a b = true) (filter f l).
  Proof.
    intros f. induction l as [|a l IH]; intros S; [constructor|]. inversion S; subst. cbn. destruct (f a); [|apply IH; assumption]. constructor; [apply IH; assumption|]. apply Forall_forall. intros b I. apply filter_In in I. exact (proj1 (Forall_forall _ _) H2 b (proj1 I)).
  Qed.
  Lemma kids_list_ok : forall p, kids_ok C p (filter (kid p) ks).
  Proof.
    intros p. split; [|split].
    - intros k. rewrite names_texts, in_map_iff. split.
      + intros (n & <- & I). exists n. split; [apply names_in; exact I|reflexivity].
      + intros (n & Cn & ->). exists n. split; [reflexivity|apply names_in; exact Cn].
    - apply NoDup_filter. exact (ks_nodup C funcs tops F).
    - intros i j Lt Len. apply sorted_nth; [apply sorted_filter; exact (ks_sorted funcs)|exact Lt|exact Len].
  Qed.

  (** the paths of the calls, each once *)
  Let P := map (split_on comma) ks.
  Lemma P_in : forall p, In p P <-> called C p.
  Proof.
    intros p. unfold P. rewrite in_map_iff. split.
    - intros (k & <- & I). apply (proj1 (ks_in C funcs tops F k)) in I. destruct I as (q & Cq & ->). rewrite (csplit C W q Cq). exact Cq.
    - intros Cp. exists (text p). split; [exact (csplit C W p Cp)|]. apply (proj2 (ks_in C funcs tops F _)). exists p. split; [exact Cp|reflexivity].
  Qed.
  Lemma P_texts : map text P = ks.
  Proof. unfold P. rewrite map_map. rewrite <- (map_id ks) at 2. apply map_ext_in. intros k I. apply (proj1 (ks_in C funcs tops F k)) in I. destruct I as (q & Cq & ->). rewrite (csplit C W q Cq). reflexivity. Qed.
  Lemma P_nodup : NoDup P.
  Proof. apply (NoDup_map_inv text). rewrite P_texts. exact (ks_nodup C funcs tops F). Qed.

  Lemma over_paths : forall (f : list string -> Q) (g : pcall -> Q), (sumq (fun p => sumq (fun c => if same p (c_path c) then (f p * g c)%Q else 0%Q) C) P == sumq (fun c => f (c_path c) * g c) C)%Q.
  Proof.
    intros f g. rewrite sumq_swap. apply sumq_ext. intros c Ic. rewrite (sumq_one _ (c_path c) P P_nodup).
    - rewrite same_refl. reflexivity.
    - apply P_in. exists c. split; [exact Ic|reflexivity].
    - intros q _ Nq. destruct (same q (c_path c)) eqn:E; [apply same_iff in E; congruence|reflexivity].
  Qed.
  Definition ind (b : bool) : Q := if b then 1%Q else 0%Q.
  Lemma frames : forall name q, called C q -> (sumq (fun p => ind (ends_in name p && below p q)) P == qn (count_occ string_dec (removelast q) name))%Q.
  Proof.
    intros name q. induction q as [|x q IH] using rev_ind; intros Cq; [destruct (cwf C W [] Cq) as [N _]; congruence|]. rewrite removelast_last.
    assert (B : forall p, below p (q ++ [x]) = same p q || below p q).
    { intros p. apply eq_true_iff_eq. rewrite orb_true_iff, same_iff, !below_iff. split.
      - intros (n & r & E). destruct r as [|y r] using rev_ind; [apply app_inj_tail in E; left; symmetry; apply E|]. right. exists n, r. change (p ++ n :: (r ++ [y])) with (p ++ (n :: r) ++ [y]) in E. rewrite app_assoc in E. apply app_inj_tail in E. apply E.
      - intros [->|(n & r & ->)]; [exists x, []; reflexivity|]. exists n, (r ++ [x]). rewrite <- app_assoc. reflexivity. }
    destruct q as [|y q'] eqn:Eq.
    - cbn. apply sumq_zero. intros p Ip. rewrite B. apply P_in in Ip. destruct (cwf C W p Ip) as [Np _]. assert (X : same p [] = false) by (destruct (same p []) eqn:E; [apply same_iff in E; contradiction|reflexivity]).
      assert (Y : below p [] = false) by (unfold below; cbn; reflexivity). cbn [app] in *. rewrite X, Y, andb_false_r. reflexivity.
    - rewrite <- Eq in *. assert (Nq : q <> []) by (rewrite Eq; discriminate). clear Eq. assert (Cq' : called C q) by exact (Cl q x Nq Cq). specialize (IH Cq').
      assert (S : (sumq (fun p => ind (ends_in name p && below p (q ++ [x]))) P == sumq (fun p => ind (ends_in name p && same p q)) P + sumq (fun p => ind (ends_in name p && below p q)) P)%Q).
      { rewrite <- sumq_add. apply sumq_ext. intros p _. rewrite B. destruct (ends_in name p); cbn [andb]; [|unfold ind; ring]. destruct (same p q) eqn:E; cbn [orb]; [|unfold ind; destruct (below p q); ring].
        apply same_iff in E. subst p. unfold below. rewrite Nat.ltb_irrefl. cbn. ring. }
      rewrite S, IH. rewrite (sumq_one _ q P P_nodup (proj2 (P_in q) Cq')).
      + rewrite same_refl, andb_true_r. rewrite (csnoc C W q Cq') at 3. rewrite count_occ_app, qn_add. cbn [count_occ]. unfold ends_in. destruct (String.eqb_spec name (last q "")) as [->|Ne].
        * destruct (string_dec (last q "") (last q "")) as [_|N]; [|congruence]. cbn [ind]. change (qn 1) with 1%Q. ring.
        * destruct (string_dec (last q "") name) as [E|_]; [congruence|]. cbn [ind]. change (qn 0) with 0%Q. ring.
      + intros b _ Nb. assert (X : same b q = false) by (destruct (same b q) eqn:E; [apply same_iff in E; contradiction|reflexivity]). rewrite X, andb_false_r. reflexivity.
  Qed.
  Lemma time_name : forall name, (sumq (fun p => if ends_in name p then time_of C p else 0%Q) P == time_of_name C name)%Q.
  Proof.
    intros name. assert (S : (sumq (fun p => if ends_in name p then time_of C p else 0%Q) P == sumq (fun p => ind (ends_in name p) * elapsed C p) P + sumq (fun p => - (ind (ends_in name p) * overhead_below C p)) P)%Q).
    { rewrite <- sumq_add. apply sumq_ext. intros p _. unfold ind, time_of. destruct (ends_in name p); ring. }
    assert (Neg : forall {A} (g : A -> Q) l, (sumq (fun a => - g a) l == - sumq g l)%Q) by (intros A g l; induction l as [|a l IH]; [reflexivity|]; rewrite !sumq_cons, IH; ring).
    assert (Sc : forall {A} q (g : A -> Q) l, (q * sumq g l == sumq (fun a => q * g a) l)%Q) by (intros A q g l; induction l as [|a l IH]; [rewrite !sumq_nil; ring|]; rewrite !sumq_cons, <- IH; ring).
    rewrite S, Neg. unfold time_of_name. apply Qplus_comp; [|apply Qopp_comp].
    - rewrite (sumq_ext (fun p => ind (ends_in name p) * elapsed C p)%Q (fun p => sumq (fun c => if same p (c_path c) then (ind (ends_in name p) * c_elapsed c)%Q else 0%Q) C)).
      + rewrite (over_paths (fun p => ind (ends_in name p)) c_elapsed). apply sumq_ext. intros c _. unfold ind. destruct (ends_in name (c_path c)); ring.
      + intros p _. unfold elapsed. rewrite Sc. apply sumq_ext. intros c _. destruct (same p (c_path c)); ring.
    - rewrite (sumq_ext (fun p => ind (ends_in name p) * overhead_below C p)%Q (fun p => sumq (fun c => ind (ends_in name p && below p (c_path c)) * c_ovr c)%Q C)).
      + rewrite sumq_swap. apply sumq_ext. intros c Ic. fold (qn (count_occ string_dec (removelast (c_path c)) name)). rewrite <- (frames name (c_path c)) by (exists c; split; [exact Ic|reflexivity]).
        rewrite Qmult_comm, Sc. apply sumq_ext. intros p _. ring.
      + intros p _. unfold overhead_below. rewrite Sc. apply sumq_ext. intros c _. unfold ind. destruct (ends_in name p), (below p (c_path c)); cbn [andb]; ring.
  Qed.
  Lemma count_name : forall name, (sumq (fun p => if ends_in name p then qn (number (fun c => same p (c_path c)) C) else 0%Q) P == qn (number (fun c => ends_in name (c_path c)) C))%Q.
  Proof.
    intros name. rewrite number_sum. rewrite (sumq_ext _ (fun p => sumq (fun c => if same p (c_path c) then (ind (ends_in name p) * 1)%Q else 0%Q) C)).
    - rewrite (over_paths (fun p => ind (ends_in name p)) (fun _ => 1%Q)). apply sumq_ext. intros c _. unfold ind. destruct (ends_in name (c_path c)); ring.
    - intros p _. unfold ind. destruct (ends_in name p).
      + rewrite number_sum. apply sumq_ext. intros c _. destruct (same p (c_path c)); ring.
      + symmetry. apply sumq_zero. intros c _. destruct (same p (c_path c)); ring.
  Qed.

  (** the rest of process_profile *)
  Definition finish (fuel : nat) : res (node * list (string * node) * list (string * (Q * nat))) :=
    let! (tree, tmp) := build tops (sort_paths funcs) (mkNode "." [] 0 0 1 total 1) [] in
    let! (o, tmp1) := kids_ovr (remove_child_ovr fuel) (n_children tree) 0%Q tmp in
    let tree1 := match n_children tree with [] => tree | _ => set_time tree (n_time tree - o) end in
    let totals := fold_left add_total tmp1 [] in
    Ok (tree1, map (set_totals totals) tmp1, totals).

  Lemma sget_map : forall T tmp k, sget (map (set_totals T) tmp) k = match sget tmp k with Some nd => Some (snd (set_totals T (k, nd))) | None => None end.
  Proof.
    intros T tmp k. unfold sget. induction tmp as [|[k' nd] tmp IH]; [reflexivity|]. cbn [map dget]. assert (E : fst (set_totals T (k', nd)) = k') by (cbn; destruct (sget T (last (split_on comma k') "")) as [[t c]|]; reflexivity).
    destruct (set_totals T (k', nd)) as [k2 nd2] eqn:X. cbn in E. subst k2. destruct (String.eqb_spec k k') as [->|]; [rewrite X; reflexivity|exact IH].
  Qed.
  Lemma keys_map : forall T tmp, dkeys (map (set_totals T) tmp) = dkeys tmp.
  Proof. intros T tmp. unfold dkeys. rewrite map_map. apply map_ext. intros [k nd]. cbn. destruct (sget T (last (split_on comma k) "")) as [[t c]|]; reflexivity. Qed.

  Lemma finish_ok : forall fuel, (forall p, called C p -> length p <= fuel) -> exists out, finish fuel = Ok out /\ tree_ok C total out /\
      (n_time (fst (fst out)) == sumq (fun c => if (length (c_path c) =? 1)%nat then c_elapsed c else 0%Q) C - sumq c_ovr C)%Q.
  Proof.
    intros fuel Fu. unfold finish. destruct (build_ok C W Cl funcs tops total F L [] (mkNode "." [] 0 0 1 total 1) []) as (tree & tmp & E & Bk & Bc & Bt & Bm & Bn).
    { reflexivity. }
    { split; [reflexivity|]. split; [reflexivity|]. split; [reflexivity|]. split; [reflexivity|]. intros p n t o _ []. }
    fold L. rewrite E. cbn [bind]. fold L in Bk, Bc, Bn, Bm. fold ks in Bk, Bc, Bn.
    set (base := fun p => match sget tmp (text p) with Some nd => nd | None => mkNode "" [] 0 0 0 0 0 end).
    assert (Hb : forall p, called C p -> exists n t o, sget tmp (text p) = Some (base p) /\ base p = mkNode (last p "") (filter (kid p) ks) t o n 0 0 /\ n = number (fun c => same p (c_path c)) C /\ (t == elapsed C p)%Q /\ (o == ovr_at C p)%Q).
    { intros p Cp. destruct (L_val C funcs tops F p Cp) as (n & t & o & I & V). exists n, t, o. pose proof (Bn p n t o Cp I) as G. unfold base. rewrite G. split; [reflexivity|]. split; [reflexivity|exact V]. }
    assert (Bkids : forall p, called C p -> n_children (base p) = map (fun n => text (p ++ [n])) (names p)).
    { intros p Cp. destruct (Hb p Cp) as (n & t & o & _ & Eb & _). rewrite Eb. apply names_texts. }
    assert (Bovr : forall p, called C p -> (n_ovr (base p) == ovr_at C p)%Q) by (intros p Cp; destruct (Hb p Cp) as (n & t & o & _ & Eb & _ & _ & Eo); rewrite Eb; exact Eo).
    assert (Bc' : n_children tree = map (fun n => text ([] ++ [n])) (names [])) by (rewrite Bc; apply names_texts).
    destruct (kids_ok' C base (remove_child_ovr fuel) [] (names []) (names_nodup [])) with (tot := 0%Q) (tmp := tmp) as (o & tmp1 & E1 & Eo & D & [Kk Kv]).
    { intros n I. apply names_in. exact I. }
    { intros n t' I R. apply (remove_ok C W Cl base names names_nodup names_in Bkids Bovr fuel ([] ++ [n]) t'); [apply names_in; exact I| |exact R]. intros q Cq. specialize (Fu q Cq). cbn. lia. }
    { intros n I q Cq U. destruct (Hb q Cq) as (n' & t' & o' & G & _). exact G. }
    rewrite Bc', E1. cbn [bind]. set (T := fold_left add_total tmp1 []).
    eexists. split; [reflexivity|].
    assert (Fx : forall p, called C p -> exists nd, sget tmp1 (text p) = Some nd /\ fixed C base p nd).
    { intros p Cp. assert (I : exists n r, p = [] ++ n :: r) by (destruct p as [|n r]; [destruct (cwf C W [] Cp); congruence|exists n, r; reflexivity]). destruct I as (n & r & Ep).
      apply (D n); [|exact Cp|apply under_iff; exists r; rewrite Ep; reflexivity]. apply names_in. apply (cprefix C Cl r); [discriminate|]. rewrite Ep in Cp. exact Cp. }
    assert (Dk : dkeys tmp1 = ks) by (rewrite Kk; exact Bk).
    assert (Nod : NoDup (dkeys tmp1)) by (rewrite Dk; exact (ks_nodup C funcs tops F)).
    assert (Tm : forall name (G : node -> Q) (g : list string -> Q), (forall p nd, called C p -> sget tmp1 (text p) = Some nd -> (G nd == g p)%Q) ->
        (sumq (fun x => if String.eqb name (nm (fst x)) then G (snd x) else 0%Q) tmp1 == sumq (fun p => if ends_in name p then g p else 0%Q) P)%Q).
    { intros name G g H. rewrite (dict_sum (fun k nd => if String.eqb name (nm k) then G nd else 0%Q) tmp1 Nod), Dk. rewrite <- P_texts, sumq_map. apply sumq_ext. intros p Ip. apply P_in in Ip. destruct (Fx p Ip) as (nd & Gn & _). rewrite Gn.
      unfold nm, ends_in. rewrite (csplit C W p Ip). destruct (String.eqb name (last p "")); [apply H; assumption|reflexivity]. }
    assert (Tt : forall name, (sget T name = None <-> ~ exists p, called C p /\ last p "" = name) /\ forall t c, sget T name = Some (t, c) -> (t == time_of_name C name)%Q /\ c = number (fun c => ends_in name (c_path c)) C).
    { intros name. destruct (totals_ok tmp1 name) as [TN TS]. fold T in TN, TS. split.
      - rewrite TN. assert (X : (exists x, In x tmp1 /\ nm (fst x) = name) <-> exists p, called C p /\ last p "" = name); [|rewrite X; reflexivity]. split.
        + intros ([k nd] & I & En). cbn in En. assert (Ik : In k ks) by (rewrite <- Dk; apply in_map_iff; exists (k, nd); split; [reflexivity|exact I]). apply (proj1 (ks_in C funcs tops F k)) in Ik. destruct Ik as (q & Cq & ->). exists q. split; [exact Cq|]. unfold nm in En. rewrite (csplit C W q Cq) in En. exact En.
        + intros (q & Cq & En). destruct (Fx q Cq) as (nd & Gn & _). exists (text q, nd). split; [exact (dget_in String.eqb String.eqb_eq _ _ _ Gn)|]. cbn. unfold nm. rewrite (csplit C W q Cq). exact En.
      - intros t c G. destruct (TS t c G) as [Et Ec]. split.
        + rewrite Et, (Tm name n_time (time_of C)); [apply time_name|]. intros p nd Cp Gn. destruct (Fx p Cp) as (nd' & Gn' & (q & -> & Eq)). rewrite Gn in Gn'. injection Gn' as ->. cbn. rewrite Eq. destruct (Hb p Cp) as (n & t' & o' & _ & Eb & _ & Et' & _). rewrite Eb. cbn. rewrite Et'. reflexivity.
        + apply qn_inj. rewrite Ec, (Tm name (fun nd => qn (n_count nd)) (fun p => qn (number (fun c => same p (c_path c)) C))); [apply count_name|]. intros p nd Cp Gn. destruct (Fx p Cp) as (nd' & Gn' & (q & -> & Eq)). rewrite Gn in Gn'. injection Gn' as ->. cbn. destruct (Hb p Cp) as (n & t' & o' & _ & Eb & En & _). rewrite Eb. cbn. rewrite En. reflexivity. }
    split.
    - split; [|split; [|split; [|split; [|split; [|split]]]]].
      + intros k. rewrite keys_map, Dk. exact (ks_in C funcs tops F k).
      + rewrite keys_map. exact Nod.
      + intros p Cp. destruct (Fx p Cp) as (nd & Gn & (q & Eq & Etq)). destruct (Hb p Cp) as (n & t & o' & _ & Eb & En & Et & _).
        assert (St : exists t' c', set_totals T (text p, nd) = (text p, mkNode (n_name nd) (n_children nd) (n_time nd) (n_ovr nd) (n_count nd) t' c') /\ sget T (last p "") = Some (t', c')).
        { unfold set_totals. rewrite (csplit C W p Cp). destruct (sget T (last p "")) as [[t' c']|] eqn:G; [exists t', c'; split; reflexivity|]. exfalso. apply (proj1 (proj1 (Tt (last p ""))) G). exists p. split; [exact Cp|reflexivity]. }
        destruct St as (t' & c' & St & Gt). destruct (proj2 (Tt (last p "")) t' c' Gt) as [Ett Ecc]. rewrite sget_map, Gn, St. cbn [snd]. eexists. split; [reflexivity|]. cbn [n_name n_count n_time n_children n_tot_count n_tot_time]. rewrite Eq, Eb. unfold set_time. cbn [n_name n_count n_time n_children].
        split; [reflexivity|]. split; [exact En|]. split; [rewrite Etq, Eb; cbn; rewrite Et; reflexivity|]. split; [apply kids_list_ok|]. split; [exact Ecc|exact Ett].
      + rewrite <- Bc'. assert (X : n_children (match n_children tree with [] => tree | _ :: _ => set_time tree (n_time tree - o) end) = n_children tree) by (destruct (n_children tree) eqn:Z; [exact Z|cbn; exact Z]). rewrite X, Bc. apply kids_list_ok.
      + rewrite <- Bc'. rewrite <- Bt. destruct (n_children tree); reflexivity.
      + unfold T. apply totals_nodup. constructor.
      + exact Tt.
    - cbn [fst]. rewrite <- Bc'.
      assert (R : (n_time (match n_children tree with [] => tree | _ :: _ => set_time tree (n_time tree - o) end) == n_time tree - o)%Q).
      { rewrite Bc'. destruct (names []) eqn:Z; cbn [map]; [|reflexivity]. rewrite Eo, sumq_nil. ring. }
      rewrite R, Eo, Bm. unfold ovr_under. rewrite (partition C Cl c_ovr [] (names []) (names_nodup []) (names_in [])).
      assert (A : (sumq (fun c => if below [] (c_path c) then c_ovr c else 0%Q) C == sumq c_ovr C)%Q).
      { apply sumq_ext. intros c Ic. assert (X : below [] (c_path c) = true); [|rewrite X; reflexivity]. apply below_iff. destruct (c_path c) as [|n r] eqn:Ec; [|exists n, r; reflexivity]. destruct (proj1 (Forall_forall _ _) W c Ic). congruence. }
      rewrite A. assert (B : (sumq (fun x => if kid [] (fst x) then snd (fst (snd x)) else 0%Q) L == sumq (fun c => if (length (c_path c) =? 1)%nat then c_elapsed c else 0%Q) C)%Q); [|rewrite B; ring].
      transitivity (sumq (fun p => sumq (fun c => if same p (c_path c) then (ind (length p =? 1)%nat * c_elapsed c)%Q else 0%Q) C) P).
      + unfold P, ks. rewrite map_map, sumq_map. apply sumq_ext. intros [k [[n t] o']] I. cbn [fst snd].
        assert (Ik : In k ks) by (unfold ks; apply in_map_iff; eexists; split; [|exact I]; reflexivity). apply (proj1 (ks_in C funcs tops F k)) in Ik. destruct Ik as (q & Cq & ->).
        pose proof (Bn q n t o' Cq I) as G. destruct (Hb q Cq) as (n2 & t2 & o2 & G2 & Eb & _ & Et & _). rewrite G2, Eb in G. injection G as G3 G4 G5. subst t2. unfold kid. rewrite (csplit C W q Cq).
        assert (K : same [] (removelast q) = (length q =? 1)%nat).
        { rewrite (csnoc C W q Cq) at 2. rewrite app_length. cbn. destruct (removelast q); [reflexivity|]. cbn. rewrite Nat.add_1_r. reflexivity. }
        rewrite K. destruct (length q =? 1)%nat.
        * rewrite Et. unfold elapsed. apply sumq_ext. intros c _. destruct (same q (c_path c)); cbn [ind]; ring.
        * symmetry. apply sumq_zero. intros c _. destruct (same q (c_path c)); cbn [ind]; ring.
      + rewrite (over_paths (fun p => ind (length p =? 1)%nat) c_elapsed). apply sumq_ext. intros c _. destruct (length (c_path c) =? 1)%nat; cbn [ind]; ring.
  Qed.
End Whole.

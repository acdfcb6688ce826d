(** C126: the hierarchy as json. *)
From Verif Require Import Base BaseFacts PathModel PathSpec TrvModel TrvSpec TrvProps JtrModel JtrSpec.
Local Open Scope list_scope.

Section Props.
  Context {V : Type} (unknowns : sys -> V).
  Lemma assign_keys : forall (d : list (string * jtree V)) k v n, In n (map fst (assign d k v)) <-> In n (map fst d) \/ n = k.
  Proof.
    induction d as [|[k' v'] d IH]; intros k v n; cbn; [intuition|]. destruct (String.eqb_spec k' k) as [->|N]; cbn; [intuition|]. rewrite IH. intuition.
  Qed.
  Lemma build_keys : forall (l d : list (string * jtree V)) n, In n (map fst (fold_left (fun d e => assign d (fst e) (snd e)) l d)) <-> In n (map fst d) \/ In n (map fst l).
  Proof.
    induction l as [|[k v] l IH]; intros d n; cbn [fold_left map]; [cbn; intuition|]. rewrite IH, assign_keys. cbn. intuition.
  Qed.
  Lemma assign_new : forall (d : list (string * jtree V)) k v, ~ In k (map fst d) -> assign d k v = d ++ [(k, v)].
  Proof.
    induction d as [|[k' v'] d IH]; intros k v H; [reflexivity|]. cbn in *. destruct (String.eqb_spec k' k) as [->|N]; [exfalso; apply H; left; reflexivity|]. rewrite IH; [reflexivity|]. intros I. apply H. right. exact I.
  Qed.
  Lemma build_nodup : forall (l d : list (string * jtree V)), NoDup (map fst (d ++ l)) -> fold_left (fun d e => assign d (fst e) (snd e)) l d = d ++ l.
  Proof.
    induction l as [|[k v] l IH]; intros d N; [rewrite app_nil_r; reflexivity|]. cbn [fold_left fst snd]. rewrite map_app in N. cbn [map fst] in N. rewrite assign_new.
    - rewrite IH; [rewrite <- app_assoc; reflexivity|]. rewrite <- app_assoc, map_app. exact N.
    - apply NoDup_remove_2 in N. intros I. apply N. apply in_or_app. left. exact I.
  Qed.
  Lemma entries_names : forall x, tree_ok x -> forall n, In n (map fst (entries unknowns x)) <-> exists p y, p <> [] /\ reach x p y /\ name y = n.
  Proof.
    induction x as [m k l IH] using sys_ind'. intros T n. rewrite Forall_forall in IH. cbn [entries]. rewrite in_map_iff. split.
    - intros (e & <- & I). apply in_flat_map in I. destruct I as (y & Iy & I). destruct (is_group y) eqn:G.
      + destruct I as [<-|I]; [exists [name y], y; split; [discriminate|]; split; [econstructor; [exact Iy|constructor]|reflexivity]|]. destruct (tree_child (Sys m k l) y T Iy) as [Ty _]. destruct (proj1 (IH y Iy Ty (fst e)) (in_map fst _ _ I)) as (p & z & P & R & E). exists (name y :: p), z. split; [discriminate|]. split; [econstructor; eassumption|exact E].
      + destruct I as [<-|[]]. exists [name y], y. split; [discriminate|]. split; [econstructor; [exact Iy|constructor]|reflexivity].
    - intros (p & z & P & R & <-). inversion R as [|x' y q w I R' E1 E2]; subst; [contradiction|]. cbn [subs] in I. destruct (tree_child (Sys m k l) y T I) as [Ty _]. inversion R' as [|x' w q' z' I' R2 E1 E2]; subst.
      + destruct (is_group z) eqn:G; eexists; (split; [|apply in_flat_map; exists z; split; [exact I|rewrite G; left; reflexivity]]); reflexivity.
      + assert (G : is_group y = true). { unfold is_group. destruct (solvers y) eqn:K; [reflexivity|]. destruct (Ty [] y (r_here y)) as (C & _). rewrite (C K) in I'. contradiction. }
        assert (J : In (name z) (map fst (entries unknowns y))) by (apply (IH y I Ty); exists (name w :: q'), z; split; [discriminate|]; split; [exact R'|reflexivity]). apply in_map_iff in J. destruct J as (e & E & J). exists e. split; [exact E|]. apply in_flat_map. exists y. split; [exact I|]. rewrite G. right. exact J.
  Qed.
  (** The dictionary of a group has the names of all the systems below it, at any depth. *)
  Theorem C126_keys : forall x, tree_ok x -> forall n, In n (keys (tree_dict unknowns x)) <-> exists p y, p <> [] /\ reach x p y /\ name y = n.
  Proof. intros x T n. unfold tree_dict, keys, build. rewrite build_keys. cbn [map In]. rewrite <- entries_names by exact T. tauto. Qed.
  (** It shows the hierarchy if no subgroup has subsystems ... *)
  Theorem C126_flat : forall x, tree_ok x -> is_group x = true -> (forall y, In y (subs x) -> subs y = []) -> shows unknowns x (tree_dict unknowns x).
  Proof.
    intros x T G H. destruct (T [] x (r_here x)) as (_ & N & _). constructor; [exact G|]. unfold build.
    assert (E : entries unknowns x = map (fun y => (name y, if is_group y then Node [] else Leaf (unknowns y))) (subs x)).
    { destruct x as [m k l]. cbn [subs entries] in *. clear - H. induction l as [|y l IH]; [reflexivity|]. cbn [flat_map map]. rewrite IH by (intros z Z; apply H; right; exact Z). specialize (H y (or_introl eq_refl)). destruct y as [m k' l']. cbn in H. subst l'. destruct (is_group (Sys m k' [])); reflexivity. }
    rewrite E, build_nodup by (cbn; rewrite map_map; exact N). cbn [app]. clear E N T G. induction (subs x) as [|y l IH]; [constructor|]. cbn [map]. constructor; [|apply IH; intros z Z; apply H; right; exact Z]. specialize (H y (or_introl eq_refl)). destruct (is_group y) eqn:Gy; [constructor; [exact Gy|rewrite H; constructor]|constructor; exact Gy].
  Qed.
  Lemma all_show_names : forall l d, all_show unknowns l d -> map fst d = map name l.
  Proof. induction 1 as [|x l t d S H IH]; [reflexivity|]. cbn. rewrite IH. reflexivity. Qed.
  (** ... but not if it has one whose name is not also that of a subsystem of the group. *)
  Theorem C126_nested_refuted : forall x y z, tree_ok x -> In y (subs x) -> In z (subs y) -> ~ In (name z) (map name (subs x)) -> ~ shows unknowns x (tree_dict unknowns x).
  Proof.
    intros x y z T Y Z N S. inversion S as [x' d G A E1 E2|]; subst. apply N. rewrite <- (all_show_names _ _ A). apply (C126_keys x T). exists [name y; name z], z. split; [discriminate|]. split; [econstructor; [exact Y|econstructor; [exact Z|constructor]]|reflexivity].
  Qed.
End Props.
Print Assumptions C126_keys.
Print Assumptions C126_flat.
Print Assumptions C126_nested_refuted.

(** one group; a group in a group, where the names coincide *)
Example C126_ex : let s := Some (Basic 0%Z, Basic 0%Z) in
  tree_dict name (Sys "" s [Sys "a" None []; Sys "b" None []]) = Node [("a", Leaf "a"); ("b", Leaf "b")]%string
  /\ tree_dict name (Sys "" s [Sys "a" None []; Sys "g" s [Sys "c" None []]]) = Node [("a", Leaf "a"); ("g", Node [("c", Leaf "c")]); ("c", Leaf "c")]%string
  /\ tree_dict (fun x => Some (subs x, name x)) (Sys "" s [Sys "g" s [Sys "g" None []]]) = Node [("g", Leaf (Some ([], "g")))]%string.
Proof. repeat split. Qed.

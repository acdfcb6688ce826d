(** Lemmas about reading and setting variables: the dictionary of unconnected inputs. *)
From Coq Require Import Permutation.
From Verif Require Import Base BaseFacts GraphSpec GraphProofs OrderModel PathModel OrderProofs2 NameModel NameSpec NameProofs ConnModel ConnSpec ConnProofs ConnProofs2 ConnProofs3 ConnProofs4 ConnProofs5.
Local Open Scope nat_scope.

Section Dangling.
  Variable s : sys.
  Variable g : igraph.
  Variable dfs : igraph -> path -> list (path * path).
  Hypothesis DF : dfs_tree_spec dfs.
  Variable srcs : list path.
  Hypothesis NE : forall a b, ed g a b -> ~ In b srcs.
  Variable nc : conns_dict.
  Hypothesis FO : found s g srcs srcs nc.
  Variable d : data.
  Notation root := (root g srcs).
  Definition dinv (done : list path) (st : state) : Prop :=
    (forall P l, pget (dangling st) P = Some l -> exists n, root n /\ reached g n l /\ In n done /\ pget (newc st) n = None /\ In P (map (to_prom_name d) l)) /\
    (forall n, In n done -> root n -> pget (newc st) n = None -> forall x, reach (shape g) n x -> pget (dangling st) (to_prom_name d x) <> None) /\
    (forall t, pget (newc st) t <> None -> pget nc t <> None \/ exists n x, root n /\ reach (shape g) n t /\ pget (newc st) n <> None /\ reach (shape g) n x /\
       (pget nc x <> None \/ exists n', root n' /\ n' <> n /\ reach (shape g) n' x /\ pget (newc st) n' <> None)).
  Lemma scan_hit : forall c es nosrc u r, scan es nosrc c = Ok (Some u, r) -> exists t, In t (map snd es) /\ pget c t <> None.
  Proof.
    intros c. induction es as [|[a b] es IH]; intros nosrc u r K; cbn [scan] in K; [discriminate|]. destruct (pget c b) as [[|[x i] l]|] eqn:E.
    - discriminate.
    - exists b. split; [left; reflexivity|congruence].
    - destruct (IH _ _ _ K) as (t & A & B). exists t. split; [right; exact A|exact B].
  Qed.
  Lemma dangling_step : forall done st n st', inv g srcs nc d done st -> dinv done st -> ~ In n done -> upstream_step dfs d g st n = Ok st' -> dinv (done ++ [n]) st'.
  Proof.
    intros done st n st' (SD & I1 & I2) (D1 & D2 & D3) Hn ES.
    assert (KEEP : ~ root n \/ pget (newc st) n <> None -> dinv (done ++ [n]) st).
    { intros HR. split; [|split; [|exact D3]].
      - intros P l K. destruct (D1 P l K) as (m & A & B & C & E). exists m. split; [exact A|]. split; [exact B|]. split; [apply in_or_app; auto|exact E].
      - intros m Hm R K. apply in_app_or in Hm. destruct Hm as [Hm|[<-|[]]]; [apply D2; assumption|]. exfalso. tauto. }
    unfold upstream_step in ES. destruct (pget (newc st) n) as [l|] eqn:EN.
    { injection ES as <-. apply KEEP. right. congruence. }
    destruct (has_pred g n) eqn:HP.
    { injection ES as <-. apply KEEP. left. intros [_ R]. apply has_pred_iff in HP. destruct HP as (a & K). exact (R a K). }
    clear KEEP. assert (NS : ~ In n srcs). { intros K. destruct FO as (_ & F1 & _). destruct SD as (_ & S1 & _). rewrite (S1 n [] (F1 n K)) in EN. discriminate. }
    assert (RN : root n) by (split; [exact NS|]; intros a K; assert (has_pred g n = true) by (apply has_pred_iff; exists a; exact K); congruence).
    destruct (DF g n) as (E1 & E2 & E3).
    assert (A1 : forall x, In x [n] -> pget (newc st) x = None /\ reach (shape g) n x) by (intros x [<-|[]]; split; [exact EN|constructor]).
    assert (A2 : forall t, In t (map snd (dfs g n)) -> reach (shape g) n t /\ ~ In t srcs).
    { intros t Ht. split; [apply E2; exact Ht|]. intros K. apply E2 in Ht. destruct Ht as [Ht Htn]. apply Htn. symmetry. exact (reach_src g srcs NE n t K Ht). }
    pose proof (scan_ok s g srcs nc FO (newc st) n SD (dfs g n) [n] A1 A2) as SC. destruct (scan (dfs g n) [n] (newc st)) as [[[u|] r]|e] eqn:ESC; [| |contradiction]; cbn [bind] in ES; injection ES as <-.
    - destruct (scan_hit _ _ _ _ _ ESC) as (h & H1 & H2). apply A2 in H1. destruct H1 as [H1 _]. destruct SC as (U1 & U2 & U3 & U4). destruct (fold_set [(u, None)] r (newc st)) as [G1 _]. assert (IN : In n r) by (apply U4; left; reflexivity).
      assert (NR : forall m, root m -> m <> n -> ~ In m r) by (intros m R Hm K; destruct (U3 m K) as [_ K']; apply (root_reach g srcs n m R) in K'; congruence).
      split; [|split]; cbn [newc dangling].
      + intros P l K. destruct (D1 P l K) as (m & A & B & C & E & F). exists m. split; [exact A|]. split; [exact B|]. split; [apply in_or_app; auto|]. split; [|exact F].
        rewrite G1. destruct (in_dec path_dec m r) as [H|_]; [|exact E]. exfalso. apply (NR m A); [|exact H]. intros ->. contradiction.
      + intros m Hm R K. rewrite G1 in K. destruct (in_dec path_dec m r) as [|H]; [discriminate|]. apply in_app_or in Hm. destruct Hm as [Hm|[<-|[]]]; [apply D2; assumption|contradiction].
      + intros t K. rewrite G1 in K. destruct (in_dec path_dec t r) as [H|H].
        * right. exists n, h. split; [exact RN|]. split; [apply U3; exact H|]. split; [rewrite G1; destruct (in_dec path_dec n r); [discriminate|contradiction]|]. split; [exact H1|].
          destruct (D3 h H2) as [K'|(m & y & A & B & C & _)]; [auto|]. right. exists m. split; [exact A|]. split; [intros ->; congruence|]. split; [exact B|]. rewrite G1. destruct (in_dec path_dec m r); [discriminate|exact C].
        * destruct (D3 t K) as [K'|(m & y & A & B & C & D & F)]; [auto|]. right. exists m, y. split; [exact A|]. split; [exact B|]. split; [rewrite G1; destruct (in_dec path_dec m r); [discriminate|exact C]|]. split; [exact D|].
          destruct F as [F|(m' & F1 & F2 & F3 & F4)]; [auto|]. right. exists m'. split; [exact F1|]. split; [exact F2|]. split; [exact F3|]. rewrite G1. destruct (in_dec path_dec m' r); [discriminate|exact F4].
    - destruct SC as [ -> U3]. set (r := [n] ++ map snd (dfs g n)) in *. assert (RR : reached g n r).
      { intros x. unfold r. cbn [app In]. rewrite E2. split; [intros [<-|[K _]]; [constructor|exact K]|]. intros K. destruct (path_dec x n) as [ ->|Hx]; [auto|auto]. }
      pose proof (fold_set_l r (to_prom_name d) r (dangling st)) as G2. cbv zeta in G2. split; [|split; [|exact D3]]; cbn [newc dangling].
      + intros P l K. rewrite G2 in K. destruct (in_dec path_dec P (map (to_prom_name d) r)) as [H|H].
        * injection K as <-. exists n. split; [exact RN|]. split; [exact RR|]. split; [apply in_or_app; right; left; reflexivity|]. split; [exact EN|exact H].
        * destruct (D1 P l K) as (m & A & B & C & E). exists m. split; [exact A|]. split; [exact B|]. split; [apply in_or_app; auto|exact E].
      + intros m Hm R K x Rx. rewrite G2. destruct (in_dec path_dec (to_prom_name d x) (map (to_prom_name d) r)) as [|H]; [discriminate|]. apply in_app_or in Hm. destruct Hm as [Hm|[<-|[]]]; [eapply D2; eassumption|].
        exfalso. apply H. apply in_map. apply RR. exact Rx.
  Qed.
  Lemma dangling_all : forall ns done st st', NoDup (done ++ ns) -> inv g srcs nc d done st -> dinv done st -> upstream dfs d g ns st = Ok st' -> dinv (done ++ ns) st'.
  Proof.
    induction ns as [|n ns IH]; intros done st st' N I D E; cbn [upstream] in E.
    - injection E as <-. rewrite app_nil_r. exact D.
    - assert (Hn : ~ In n done) by (intros K; apply NoDup_remove_2 in N; apply N; apply in_or_app; auto).
      destruct (upstream_step_ok s g dfs DF srcs NE nc FO d done st n I Hn) as (st1 & E1 & I1). rewrite E1 in E. cbn [bind] in E.
      change (n :: ns) with ([n] ++ ns). rewrite app_assoc. apply (IH (done ++ [n]) st1 st'); [rewrite <- app_assoc; exact N|exact I1| |exact E]. eapply dangling_step; eassumption.
  Qed.
End Dangling.

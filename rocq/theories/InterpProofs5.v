(** Lemmas about interpolants: the linear interpolant. *)
From Coq Require Import Ring Field.
From Verif Require Import Base InterpModel InterpSpec InterpProofs InterpProofs2 InterpProofs4.
Local Open Scope nat_scope.
Local Open Scope list_scope.

Section Proofs.
  Context {F : Type} (F0 F1 : F) (fadd fmul fsub : F -> F -> F) (fopp : F -> F) (fdiv : F -> F -> F) (finv : F -> F).
  Variable feqb : F -> F -> bool.
  Variable fltb : F -> F -> bool.
  Hypothesis Fth : field_theory F0 F1 fadd fmul fsub fopp fdiv finv (@eq F).
  Add Field Fint5 : Fth.
  Hypothesis EQ : forall a b, feqb a b = true <-> a = b.
  Notation flt := (fun a b => fltb a b = true).
  Notation sum := (sum F0 fadd). Notation entry := (entry F0). Notation dot := (dot F0 fadd fmul).
  Notation normalize := (normalize fsub fdiv). Notation unnormalize := (unnormalize fadd fmul).
  Notation nn_base := (nn_base F0 F1 fsub fdiv feqb fltb).
  Notation along := (along F0 fadd fmul).
  Notation vsub := (vsub fsub).

  Lemma dot_along : forall a b, dot a b = along a b.
  Proof. induction a as [|x a IH]; intros [|y b]; cbn; try reflexivity. unfold InterpModel.dot in *. cbn in *. rewrite <- IH. reflexivity. Qed.
  Lemma along_comm : forall a b, along a b = along b a.
  Proof. induction a as [|x a IH]; intros [|y b]; cbn; try reflexivity. rewrite IH. ring. Qed.
  Lemma along_app : forall d a v N, length a = d -> length N = S d -> along (a ++ [v]) N = fadd (along a (firstn d N)) (fmul v (entry N d)).
  Proof.
    induction d as [|d IH]; intros [|x a] v [|y N] A B; try discriminate.
    - destruct N; [|discriminate]. cbn. ring.
    - cbn [app InterpSpec.along firstn]. rewrite (IH a v N) by (cbn in *; lia). change (entry (y :: N) (S d)) with (entry N d). ring.
  Qed.
  Lemma along_vsub : forall a b N, length a = length b -> along (vsub a b) N = fsub (along a N) (along b N).
  Proof.
    induction a as [|x a IH]; intros [|y b] N H; try discriminate; [cbn; ring|]. change (vsub (x :: a) (y :: b)) with (fsub x y :: vsub a b). destruct N as [|z N]; cbn [InterpSpec.along]; [ring|]. rewrite IH by (cbn in H; lia). ring.
  Qed.
  Lemma along_vsub_r : forall N a b, length a = length b -> along N (vsub a b) = fsub (along N a) (along N b).
  Proof. intros N a b H. rewrite along_comm, along_vsub by exact H. rewrite (along_comm a N), (along_comm b N). reflexivity. Qed.
  Lemma diffs_length : forall l : list (list F), length (diffs fsub l) = length l - 1.
  Proof. induction l as [|a l IH]; [reflexivity|]. destruct l as [|b l]; [reflexivity|]. change (diffs fsub (a :: b :: l)) with (vsub b a :: diffs fsub (b :: l)). cbn [length] in *. rewrite IH. lia. Qed.
  Lemma diffs_rows : forall d l, (forall r, In r l -> length r = d) -> forall r, In r (diffs fsub l) -> length r = d.
  Proof.
    induction l as [|a l IH]; intros H r I; [destruct I|]. destruct l as [|b l]; [destruct I|]. change (diffs fsub (a :: b :: l)) with (vsub b a :: diffs fsub (b :: l)) in I. destruct I as [ <-|I].
    - unfold InterpModel.vsub. rewrite zip_with_length, (H b), (H a) by (cbn; auto). lia.
    - apply IH; [intros q Hq; apply H; right; exact Hq|exact I].
  Qed.
  (** a vector orthogonal to the differences has the same product with all rows *)
  Lemma diffs_const : forall d N l, (forall r, In r l -> length r = d) -> (forall r, In r (diffs fsub l) -> along r N = F0) -> forall r r', In r l -> In r' l -> along r N = along r' N.
  Proof.
    intros d N. assert (K : forall l a, (forall r, In r (a :: l) -> length r = d) -> (forall r, In r (diffs fsub (a :: l)) -> along r N = F0) -> forall r, In r (a :: l) -> along r N = along a N).
    { induction l as [|b l IH]; intros a H O r I; [destruct I as [ ->|[]]; reflexivity|]. change (diffs fsub (a :: b :: l)) with (vsub b a :: diffs fsub (b :: l)) in O.
      assert (E : along b N = along a N).
      { pose proof (O _ (or_introl eq_refl)) as Z. rewrite along_vsub in Z by (rewrite (H b), (H a) by (cbn; auto); reflexivity). transitivity (fadd (fsub (along b N) (along a N)) (along a N)); [ring|]. rewrite Z. ring. }
      destruct I as [ ->|I]; [reflexivity|]. rewrite <- E. apply IH; [intros q Hq; apply H; right; exact Hq|intros q Hq; apply O; right; exact Hq|exact I]. }
    intros [|a l] H O r r' I I'; [destruct I|]. rewrite (K l a H O r I), (K l a H O r' I'). reflexivity.
  Qed.
  Lemma opp_nz : forall a, a <> F0 -> fopp a <> F0.
  Proof. intros a H K. apply H. transitivity (fopp (fopp a)); [ring|]. rewrite K. ring. Qed.
  Lemma entry_firstn : forall N d l, l < d -> entry (firstn d N) l = entry N l.
  Proof. induction N as [|x N IH]; intros [|d] [|l] H; cbn; try lia; try reflexivity. apply IH. lia. Qed.

  Section Trained.
    Variables (m d k : nat) (tp tv : list (list F)).
    Hypothesis RP : rect m d tp.
    Hypothesis RV : rect m k tv.
    Hypothesis M : m <> 0.
    Let b := nn_base tp tv.
    Variable query : list (list F) -> list F -> nat -> list (F * nat).
    Variable null_vector : list (list F) -> list F.
    (** the vectors returned for the differences of the neighbours are orthogonal to them *)
    Definition planes (l : list nat) : Prop := forall c, c < k -> orthogonal F0 fadd fmul d (diffs fsub (augmented F0 b l c)) (null_vector (diffs fsub (augmented F0 b l c))).
    Notation linear := (linear F0 fadd fmul fsub fopp fdiv feqb query null_vector).
    Notation linear_gradient := (linear_gradient F0 fadd fmul fsub fopp fdiv feqb query null_vector).
    Notation hyperplane := (hyperplane F0 fadd fmul fsub null_vector).
    Let nl (x : list F) := map snd (query (b_tp b) (normalize (b_tpm b) (b_tpr b) x) (d + 1)).
    (** the normal of an output *)
    Let N (l : list nat) c := fst (hyperplane b l c).
    Let P (x : list F) (l : list nat) c := fdiv (fsub (along (normalize (b_tpm b) (b_tpr b) x) (firstn d (N l c))) (snd (hyperplane b l c))) (fopp (entry (N l c) d)).

    Lemma k_ndim : ndim (b_tp b) = d /\ ndim (b_tv b) = k. Proof. exact (b_ndim F0 F1 fsub fdiv feqb fltb m d k tp tv RP RV M). Qed.
    Lemma lens : length (b_tpm b) = d /\ length (b_tpr b) = d /\ length (b_tvm b) = k /\ length (b_tvr b) = k /\ length (b_tp b) = m /\ length (b_tv b) = m.
    Proof. exact (b_lengths F0 F1 fsub fdiv feqb fltb m d k tp tv RP RV M). Qed.
    Lemma aug_rows : forall l c, (forall i, In i l -> i < m) -> forall r, In r (augmented F0 b l c) -> length r = S d.
    Proof.
      intros l c H r I. apply in_map_iff in I. destruct I as (i & <- & Hi). destruct lens as (L1 & L2 & _). destruct (tp_row F0 F1 fsub fdiv feqb fltb m d tp tv RP i (H i Hi)) as [T1 T2]. fold b in T1. rewrite app_length, T1, (normalize_length fsub fdiv _ _ _ d) by assumption. cbn. lia.
    Qed.
    Lemma N_spec : forall l c, c < k -> planes l -> length l = S d -> (forall i, In i l -> i < m) -> length (N l c) = S d /\
        (forall i j, In i l -> In j l -> along (row (b_tp b) i ++ [entry (row (b_tv b) i) c]) (N l c) = along (row (b_tp b) j ++ [entry (row (b_tv b) j) c]) (N l c)) /\ N l c <> repeat F0 (S d).
    Proof.
      intros l c Hc PL LL H. unfold N, InterpModel.hyperplane. cbn [fst]. assert (LA : length (augmented F0 b l c) = S d) by (unfold augmented; rewrite map_length; exact LL).
      destruct (PL c Hc) as (A & B & C). split; [exact A|]. split; [|exact C]. intros i j Hi Hj. apply (diffs_const (S d) _ (augmented F0 b l c)); [apply aug_rows; exact H|exact B| |]; unfold augmented; apply (in_map (fun i => row (b_tp b) i ++ [entry (row (b_tv b) i) c])); assumption.
    Qed.
    (** the constant of the plane *)
    Lemma pc_value : forall l j0 r c, c < k -> planes l -> l = j0 :: r -> length l = S d -> (forall i, In i l -> i < m) ->
        snd (hyperplane b l c) = fadd (along (row (b_tp b) j0) (firstn d (N l c))) (fmul (entry (row (b_tv b) j0) c) (entry (N l c) d)).
    Proof.
      intros l j0 r c Hc PL E LL H. destruct (N_spec l c Hc PL LL H) as (A & _). unfold N in *. unfold InterpModel.hyperplane in *. cbn [snd fst] in *. rewrite dot_along. destruct lens as (L1 & L2 & _).
      assert (Hj : j0 < m) by (apply H; rewrite E; left; reflexivity). destruct (tp_row F0 F1 fsub fdiv feqb fltb m d tp tv RP j0 Hj) as [T1 T2]. fold b in T1.
      rewrite <- (along_app d); [|rewrite T1; apply (normalize_length fsub fdiv); assumption|exact A]. f_equal. unfold row at 1. rewrite E. reflexivity.
    Qed.

    Section Point.
      Variable x : list F.
      Let l := nl x.
      Lemma linear_unfold : linear b x =
        (let preds := map (fun c => fsub (along (normalize (b_tpm b) (b_tpr b) x) (firstn d (N l c))) (snd (hyperplane b l c))) (seq 0 k) in
         let lasts := map (fun c => entry (N l c) d) (seq 0 k) in
         let n0 := filter (fun c => feqb (entry (N l c) d) F0) (seq 0 k) in
         let! preds := match n0 with [] => Ok preds | [0] => Ok (row (b_tv b) (nth 0 l 0)) | _ => Err IndexError end in
         Ok (unnormalize (b_tvm b) (b_tvr b) (zip_with (fun z e => if feqb e F0 then z else fdiv z (fopp e)) preds lasts))).
      Proof.
        unfold InterpModel.linear. destruct k_ndim as [-> ->]. fold (nl x). fold l. cbv zeta. rewrite !map_map.
        assert (F1' : filter (fun c => feqb (entry (map (fun a => entry (fst (hyperplane b l a)) d) (seq 0 k)) c) F0) (seq 0 k) = filter (fun c => feqb (entry (N l c) d) F0) (seq 0 k)).
        { apply filter_ext_in. intros c Hc. apply in_seq in Hc. rewrite (entry_map F0 (fun a => entry (fst (hyperplane b l a)) d)) by lia. reflexivity. }
        rewrite F1'. assert (P1 : map (fun x0 => fsub (dot (normalize (b_tpm b) (b_tpr b) x) (firstn d (fst (hyperplane b l x0)))) (snd (hyperplane b l x0))) (seq 0 k) = map (fun c => fsub (along (normalize (b_tpm b) (b_tpr b) x) (firstn d (N l c))) (snd (hyperplane b l c))) (seq 0 k)) by (apply map_ext; intros c; rewrite dot_along; reflexivity).
        rewrite P1. reflexivity.
      Qed.
      Lemma linear_main : (forall c, c < k -> entry (N l c) d <> F0) -> linear b x = Ok (unnormalize (b_tvm b) (b_tvr b) (map (P x l) (seq 0 k))).
      Proof.
        intros H. rewrite linear_unfold. cbv zeta. assert (N0 : filter (fun c => feqb (entry (N l c) d) F0) (seq 0 k) = []).
        { assert (G : forall s, (forall c, In c s -> c < k) -> filter (fun c => feqb (entry (N l c) d) F0) s = []).
          { induction s as [|c s IH]; intros HS; [reflexivity|]. cbn. rewrite (eqb_neq feqb EQ) by (apply H; apply HS; left; reflexivity). apply IH. intros c' Hc'. apply HS. right. exact Hc'. }
          apply G. intros c Hc. apply in_seq in Hc. lia. }
        rewrite N0. cbn [bind]. f_equal. f_equal. rewrite zip_maps. apply map_ext_in. intros c Hc. apply in_seq in Hc. rewrite (eqb_neq feqb EQ) by (apply H; lia). reflexivity.
      Qed.
      Lemma linear_flat : k = 1 -> entry (N l 0) d = F0 -> nth 0 l 0 < m -> linear b x = Ok (unnormalize (b_tvm b) (b_tvr b) (row (b_tv b) (nth 0 l 0))).
      Proof.
        intros K H J. rewrite linear_unfold. cbv zeta. rewrite K. cbn [seq filter map]. rewrite (proj2 (EQ _ _) H). cbn [bind]. f_equal. f_equal.
        assert (LR : length (row (b_tv b) (nth 0 l 0)) = 1).
        { destruct lens as (_ & _ & L3 & L4 & _). destruct (tv_row F0 F1 fsub fdiv feqb fltb m k tp tv RV (nth 0 l 0) J) as [T1 T2]. fold b in T1. rewrite T1, (normalize_length fsub fdiv _ _ _ k) by assumption. exact K. }
        destruct (row (b_tv b) (nth 0 l 0)) as [|z [|? ?]]; try discriminate. cbn [zip_with]. rewrite (proj2 (EQ _ _) H). reflexivity.
      Qed.
      Lemma gradient_main : (forall c, c < k -> entry (N l c) d <> F0) -> k <> 0 ->
          exists G, linear_gradient b x = Ok G /\ length G = k /\ forall c, c < k -> length (row G c) = Nat.min (length (firstn d (N l c))) d /\ forall i, i < length (firstn d (N l c)) -> i < d -> entry (row G c) i = fmul (fdiv (fopp (entry (N l c) i)) (entry (N l c) d)) (fdiv (entry (b_tvr b) c) (entry (b_tpr b) i)).
      Proof.
        intros H K0. unfold InterpModel.linear_gradient. destruct k_ndim as [-> ->]. fold (nl x). fold l. cbv zeta. rewrite !map_map. destruct lens as (L1 & L2 & L3 & L4 & _).
        assert (A : forallb (fun e => feqb e F0) (map (fun c => entry (fst (hyperplane b l c)) d) (seq 0 k)) = false).
        { destruct k as [|k'] eqn:EK; [congruence|]. cbn [seq map forallb]. rewrite (eqb_neq feqb EQ) by (apply (H 0); lia). reflexivity. }
        assert (B : existsb (fun e => feqb e F0) (map (fun c => entry (fst (hyperplane b l c)) d) (seq 0 k)) = false).
        { destruct (existsb _ _) eqn:Z; [|reflexivity]. apply existsb_exists in Z. destruct Z as (e & I & Z). apply in_map_iff in I. destruct I as (c & <- & Hc). apply in_seq in Hc. apply EQ in Z. exfalso. apply (H c); [lia|exact Z]. }
        rewrite A, B. eexists. split; [reflexivity|]. split; [rewrite zip_with_length, map_length, seq_length; lia|]. intros c Hc.
        assert (RW : row (zip_with (fun (h : list F * F) vr => zip_with (fun z pr => fmul (fdiv (fopp z) (entry (fst h) d)) (fdiv vr pr)) (firstn d (fst h)) (b_tpr b)) (map (hyperplane b l) (seq 0 k)) (b_tvr b)) c =
                     zip_with (fun z pr => fmul (fdiv (fopp z) (entry (N l c) d)) (fdiv (entry (b_tvr b) c) pr)) (firstn d (N l c)) (b_tpr b)).
        { unfold row. rewrite (zip_with_nth _ _ _ _ _ _ c (hyperplane b l 0) F0) by (try rewrite map_length, seq_length; lia). rewrite map_nth, seq_nth by exact Hc. reflexivity. }
        rewrite RW. split; [rewrite zip_with_length, L2; reflexivity|]. intros i Hi Hd. unfold InterpModel.entry at 1. rewrite (zip_with_nth _ _ _ _ _ _ i F0 F0) by lia. fold (entry (firstn d (N l c)) i). rewrite entry_firstn by exact Hd. reflexivity.
      Qed.
    End Point.

    (** exact at the training points *)
    Section Exact.
      Variable dist : list F -> list F -> F.
      Hypothesis ORD : ordered F0 fadd fmul flt.
      Hypothesis DI : distance F0 flt dist.
      Hypothesis Hm : d + 1 <= m.
      Lemma nl_facts : forall x, nearest flt dist (b_tp b) (normalize (b_tpm b) (b_tpr b) x) (d + 1) (query (b_tp b) (normalize (b_tpm b) (b_tpr b) x) (d + 1)) -> length (nl x) = S d /\ forall i, In i (nl x) -> i < m.
      Proof.
        intros x (Q1 & Q2 & Q3 & Q4 & Q5). destruct lens as (_ & _ & _ & _ & L5 & _). unfold nl. rewrite map_length, Q1. split; [lia|].
        intros i I. apply in_map_iff in I. destruct I as ([e i'] & E & I). cbn in E. subst i'. rewrite <- L5. apply (Q3 e i I).
      Qed.
      Lemma unnormalize_row : forall j, j < m -> unnormalize (b_tvm b) (b_tvr b) (row (b_tv b) j) = row tv j.
      Proof.
        intros j Hj. destruct lens as (_ & _ & L3 & L4 & _). destruct (tv_row F0 F1 fsub fdiv feqb fltb m k tp tv RV j Hj) as [T1 T2]. fold b in T1.
        assert (LR : length (row (b_tv b) j) = k) by (rewrite T1; apply (normalize_length fsub fdiv); assumption).
        apply (entry_ext F0); [rewrite (unnormalize_length fadd fmul _ _ _ k) by assumption; lia|]. intros c Hc. rewrite (unnormalize_length fadd fmul _ _ _ k) in Hc by assumption.
        rewrite (entry_unnormalize F0 F1 fadd fmul fsub fopp fdiv finv Fth _ _ _ k) by assumption. apply (tv_entry F0 F1 fadd fmul fsub fopp fdiv finv feqb fltb Fth EQ m d k tp tv RP RV M j c Hj Hc).
      Qed.
      Variable j : nat.
      Hypothesis Hj : j < m.
      Hypothesis DT : distinct tp.
      Hypothesis NQ : nearest flt dist (b_tp b) (normalize (b_tpm b) (b_tpr b) (row tp j)) (d + 1) (query (b_tp b) (normalize (b_tpm b) (b_tpr b) (row tp j)) (d + 1)).
      Lemma first_is_j : exists r, nl (row tp j) = j :: r.
      Proof.
        assert (IX : forall e, In e (query (b_tp b) (normalize (b_tpm b) (b_tpr b) (row tp j)) (d + 1)) -> snd e < m) by (intros e He; apply (proj2 (nl_facts (row tp j) NQ)); apply (in_map snd); exact He).
        destruct (hit_j F0 F1 fadd fmul fsub fopp fdiv finv feqb fltb Fth EQ m d k tp tv RP RV M query (row tp j) (d + 1) IX dist ORD DI NQ ltac:(lia) j Hj DT eq_refl) as [H1 H2]. fold b in H1, H2.
        destruct lens as (_ & _ & _ & _ & L5 & _). destruct NQ as (Q1 & Q2 & Q3 & Q4 & Q5).
        unfold nl. destruct (query (b_tp b) (normalize (b_tpm b) (b_tpr b) (row tp j)) (d + 1)) as [|[e i] r] eqn:EQ'; [cbn in Q1; lia|].
        assert (E0 : e = F0).
        { apply (le_antisym F0 fadd fmul fltb ORD); [|destruct (Q3 e i (or_introl eq_refl)) as [_ D0]; rewrite D0; apply (proj1 DI)]. destruct H1 as [H1|H1]; [injection H1 as -> _; intros K; exact (o_irr _ _ _ _ ORD F0 K)|]. exact (Q5 (e, i) r eq_refl (F0, j) H1). }
        exists (map snd r). cbn. f_equal. exact (H2 (e, i) (or_introl eq_refl) E0).
      Qed.
      Lemma linear_exact : planes (nl (row tp j)) -> (k = 1 \/ forall c, c < k -> entry (N (nl (row tp j)) c) d <> F0) -> linear b (row tp j) = Ok (row tv j).
      Proof.
        intros PL H. destruct first_is_j as [r E]. destruct (nl_facts (row tp j) NQ) as [LL IX]. destruct lens as (L1 & L2 & L3 & L4 & L5 & L6).
        assert (MAIN : (forall c, c < k -> entry (N (nl (row tp j)) c) d <> F0) -> linear b (row tp j) = Ok (row tv j)).
        { intros H'. rewrite (linear_main (row tp j) H'). f_equal. rewrite <- (unnormalize_row j Hj). f_equal. destruct (tv_row F0 F1 fsub fdiv feqb fltb m k tp tv RV j Hj) as [T1 T2]. destruct (tp_row F0 F1 fsub fdiv feqb fltb m d tp tv RP j Hj) as [T3 T4]. fold b in T1, T3.
          apply (entry_ext F0); [rewrite map_length, seq_length, T1, (normalize_length fsub fdiv _ _ _ k) by assumption; reflexivity|]. intros c Hc. rewrite map_length, seq_length in Hc. rewrite (entry_map F0) by exact Hc.
          unfold P. rewrite (pc_value _ j r c Hc PL E LL IX), <- T3. field. apply opp_nz. apply H'. exact Hc. }
        destruct H as [K|H]; [|exact (MAIN H)]. destruct (feqb (entry (N (nl (row tp j)) 0) d) F0) eqn:Z.
        - apply EQ in Z. rewrite (linear_flat (row tp j) K Z) by (rewrite E; exact Hj). rewrite E. cbn [nth]. rewrite unnormalize_row by exact Hj. reflexivity.
        - apply MAIN. intros c Hc. assert (c = 0) by lia. subst c. intros Z'. apply EQ in Z'. congruence.
      Qed.
    End Exact.

    Lemma flat_index : forall x c, 1 <= c -> c < k -> entry (N (nl x) c) d = F0 -> linear b x = Err IndexError.
    Proof.
      intros x c H1 Hc Z. rewrite linear_unfold. cbv zeta. assert (I : In c (filter (fun c => feqb (entry (N (nl x) c) d) F0) (seq 0 k))) by (apply filter_In; split; [apply in_seq; lia|apply EQ; exact Z]).
      destruct (filter _ (seq 0 k)) as [|a [|a' r]]; [destruct I| |].
      - destruct I as [ ->|[]]. destruct c; [lia|reflexivity].
      - destruct a; reflexivity.
    Qed.
    Lemma flat_gradient : forall x c c', c < k -> c' < k -> entry (N (nl x) c) d = F0 -> entry (N (nl x) c') d <> F0 -> linear_gradient b x = Err ZeroDivisionError.
    Proof.
      intros x c c' Hc Hc' Z NZ. unfold InterpModel.linear_gradient. destruct k_ndim as [-> ->]. fold (nl x). cbv zeta. rewrite !map_map. change (fun x0 : nat => entry (fst (hyperplane b (nl x) x0)) d) with (fun c => entry (N (nl x) c) d).
      destruct (forallb (fun e => feqb e F0) (map (fun c => entry (N (nl x) c) d) (seq 0 k))) eqn:A.
      - exfalso. rewrite forallb_forall in A. apply NZ. apply EQ. apply A. apply in_map_iff. exists c'. split; [reflexivity|apply in_seq; lia].
      - assert (B : existsb (fun e => feqb e F0) (map (fun c => entry (N (nl x) c) d) (seq 0 k)) = true) by (apply existsb_exists; exists (entry (N (nl x) c) d); split; [apply in_map_iff; exists c; split; [reflexivity|apply in_seq; lia]|apply EQ; exact Z]).
        rewrite B. reflexivity.
    Qed.

    (** the slope of the plane through the same neighbours *)
    Lemma linear_slope : forall x x' y y' G, k <> 0 -> length x = d -> length x' = d -> length (nl x) = S d -> (forall i, In i (nl x) -> i < m) -> nl x' = nl x -> planes (nl x) ->
        linear b x = Ok y -> linear b x' = Ok y' -> linear_gradient b x = Ok G ->
        forall c, c < k -> fsub (entry y' c) (entry y c) = along (row G c) (vsub x' x).
    Proof.
      intros x x' y y' G K0 LX LX' LL IX E PL HY HY' HG c Hc. destruct lens as (L1 & L2 & L3 & L4 & L5 & L6).
      destruct (existsb (fun e => feqb e F0) (map (fun c => entry (N (nl x) c) d) (seq 0 k))) eqn:Z.
      - (* the plane is vertical *)
        assert (AZ : forallb (fun e => feqb e F0) (map (fun c => entry (N (nl x) c) d) (seq 0 k)) = true /\ G = repeat (repeat F0 d) k).
        { unfold InterpModel.linear_gradient in HG. destruct k_ndim as [K1 K2]. rewrite K1, K2 in HG. fold (nl x) in HG. cbv zeta in HG. rewrite !map_map in HG. fold N in HG. change (map (fun c => entry (fst (hyperplane b (nl x) c)) d) (seq 0 k)) with (map (fun c => entry (N (nl x) c) d) (seq 0 k)) in HG.
          rewrite Z in HG. destruct (forallb _ _); [|discriminate]. apply ok_inj in HG. auto. }
        destruct AZ as [AZ GZ]. assert (AL : forall i, i < k -> entry (N (nl x) i) d = F0) by (intros i Hi; rewrite forallb_forall in AZ; apply EQ; apply AZ; apply in_map_iff; exists i; split; [reflexivity|apply in_seq; lia]).
        assert (K : k = 1).
        { destruct (Nat.eq_dec k 1) as [K|K]; [exact K|]. exfalso. rewrite linear_unfold in HY. cbv zeta in HY.
          assert (N0 : filter (fun c => feqb (entry (N (nl x) c) d) F0) (seq 0 k) = seq 0 k).
          { assert (FT : forall s, (forall i, In i s -> i < k) -> filter (fun c => feqb (entry (N (nl x) c) d) F0) s = s).
            { induction s as [|i s IH]; intros HS; [reflexivity|]. cbn [filter]. rewrite (proj2 (EQ _ _) (AL i (HS i (or_introl eq_refl)))), IH; [reflexivity|]. intros i' Hi'. apply HS. right. exact Hi'. }
            apply FT. intros i Hi. apply in_seq in Hi. lia. }
          rewrite N0 in HY. destruct k as [|[|k']]; try congruence. cbn in HY. discriminate. }
        assert (J0 : nth 0 (nl x) 0 < m) by (apply IX; apply nth_In; lia).
        rewrite (linear_flat x K (AL 0 ltac:(lia)) J0) in HY. rewrite (linear_flat x' K) in HY' by (rewrite E; [exact (AL 0 ltac:(lia))|exact J0] || (rewrite E; first [exact (AL 0 ltac:(lia))|exact J0])). rewrite E in HY'. assert (YY : y = y') by congruence. subst y'.
        replace (row G c) with (repeat F0 d) by (rewrite GZ, K; replace c with 0 by lia; reflexivity).
        transitivity F0; [ring|]. symmetry. assert (ZZ : forall n v, along (repeat F0 n) v = F0) by (induction n as [|n IH]; intros [|z v]; cbn; try reflexivity; rewrite IH; ring). apply ZZ.
      - assert (NZ : forall i, i < k -> entry (N (nl x) i) d <> F0).
        { intros i Hi K. assert (Z' : existsb (fun e => feqb e F0) (map (fun c => entry (N (nl x) c) d) (seq 0 k)) = true) by (apply existsb_exists; exists (entry (N (nl x) i) d); split; [apply in_map_iff; exists i; split; [reflexivity|apply in_seq; lia]|apply EQ; exact K]). congruence. }
        rewrite (linear_main x NZ) in HY. rewrite (linear_main x') in HY' by (rewrite E; exact NZ). rewrite E in HY'. apply ok_inj in HY. apply ok_inj in HY'.
        destruct (gradient_main x NZ K0) as (G' & EG & LG & GE). assert (G' = G) by congruence. subst G'. destruct (GE c Hc) as [LGC GC]. destruct (N_spec (nl x) c Hc PL LL IX) as (LN & _). rewrite firstn_length, LN in *. replace (Nat.min (Nat.min d (S d)) d) with d in LGC by lia.
        rewrite <- HY, <- HY'. assert (LP : forall z, length (map (P z (nl x)) (seq 0 k)) = k) by (intros z; rewrite map_length, seq_length; reflexivity).
        rewrite !(entry_unnormalize F0 F1 fadd fmul fsub fopp fdiv finv Fth _ _ _ k) by auto. rewrite !(entry_map F0) by exact Hc. unfold P.
        set (N' := firstn d (N (nl x) c)) in *. set (l := entry (N (nl x) c) d) in *. assert (NL : l <> F0) by (apply NZ; exact Hc). set (pc := snd _).
        transitivity (fmul (fdiv (fopp (entry (b_tvr b) c)) l) (fsub (along (normalize (b_tpm b) (b_tpr b) x') N') (along (normalize (b_tpm b) (b_tpr b) x) N'))); [field; split; [exact NL|apply opp_nz; exact NL]|].
        rewrite <- along_vsub by (rewrite !(normalize_length fsub fdiv _ _ _ d) by assumption; reflexivity).
        assert (LNX : forall z, length z = d -> length (normalize (b_tpm b) (b_tpr b) z) = d) by (intros z Hz; apply (normalize_length fsub fdiv); assumption).
        rewrite !(along_sum F0 fadd fmul d) by (try exact LGC; unfold N', InterpModel.vsub; try rewrite firstn_length; try rewrite zip_with_length; try rewrite !LNX by assumption; lia).
        rewrite <- (sum_map_mul F0 F1 fadd fmul fsub fopp fdiv finv Fth). apply sum_map_ext. intros i Hi. apply in_seq in Hi. rewrite (GC i) by lia. rewrite !(entry_vsub F0 F1 fadd fmul fsub fopp fdiv finv Fth) by (rewrite ?LNX by assumption; lia).
        rewrite !(entry_normalize F0 F1 fadd fmul fsub fopp fdiv finv Fth _ _ _ d) by (assumption || lia). assert (RN := tpr_nz F0 F1 fadd fmul fsub fopp fdiv finv feqb fltb Fth EQ m d k tp tv RP RV M i ltac:(lia)). fold b in RN.
        unfold N'. rewrite entry_firstn by lia. fold l. field. split; assumption.
    Qed.

    (** exact on affine data *)
    Section Affine.
      Variables (a : list (list F)) (b0 : list F).
      Hypothesis LB : length b0 = k.
      Hypothesis LA : forall c, c < k -> length (row a c) = d.
      Hypothesis AF : affine F0 fadd fmul a b0 tp tv.
      Variable x : list F.
      Hypothesis LX : length x = d.
      Let l := nl x.
      Hypothesis LL : length l = S d.
      Hypothesis IX : forall i, In i l -> i < m.
      Hypothesis PL : planes l.
      Hypothesis GP : general_position F0 fadd fmul d (map (row tp) l).
      (** the coefficients in normalized coordinates *)
      Let al c := map (fun i => fdiv (fmul (entry (row a c) i) (entry (b_tpr b) i)) (entry (b_tvr b) c)) (seq 0 d).
      Let be c := fdiv (fsub (fadd (along (row a c) (b_tpm b)) (entry b0 c)) (entry (b_tvm b) c)) (entry (b_tvr b) c).
      Lemma al_length : forall c, length (al c) = d. Proof. intros c. unfold al. rewrite map_length, seq_length. reflexivity. Qed.
      Lemma al_value : forall c z, c < k -> length z = d -> fadd (fmul (fadd (along (al c) (normalize (b_tpm b) (b_tpr b) z)) (be c)) (entry (b_tvr b) c)) (entry (b_tvm b) c) = fadd (along (row a c) z) (entry b0 c).
      Proof.
        intros c z Hc Lz. destruct lens as (L1 & L2 & L3 & L4 & _). assert (VN := tvr_nz F0 F1 fadd fmul fsub fopp fdiv finv feqb fltb Fth EQ m d k tp tv RP RV M c Hc). fold b in VN.
        transitivity (fadd (fadd (fmul (entry (b_tvr b) c) (along (al c) (normalize (b_tpm b) (b_tpr b) z))) (along (row a c) (b_tpm b))) (entry b0 c)); [unfold be; field; exact VN|]. f_equal.
        rewrite !(along_sum F0 fadd fmul d) by (try apply al_length; try apply (normalize_length fsub fdiv); try apply LA; assumption).
        rewrite <- (sum_map_mul F0 F1 fadd fmul fsub fopp fdiv finv Fth), <- (sum_map_add F0 F1 fadd fmul fsub fopp fdiv finv Fth). apply sum_map_ext. intros i Hi. apply in_seq in Hi.
        assert (RN := tpr_nz F0 F1 fadd fmul fsub fopp fdiv finv feqb fltb Fth EQ m d k tp tv RP RV M i ltac:(lia)). fold b in RN.
        rewrite (entry_normalize F0 F1 fadd fmul fsub fopp fdiv finv Fth _ _ _ d) by (assumption || lia). unfold al. rewrite (entry_map F0) by lia. field. split; assumption.
      Qed.
      Lemma tv_norm : forall i c, In i l -> c < k -> entry (row (b_tv b) i) c = fadd (along (al c) (row (b_tp b) i)) (be c).
      Proof.
        intros i c Hi Hc. assert (VN := tvr_nz F0 F1 fadd fmul fsub fopp fdiv finv feqb fltb Fth EQ m d k tp tv RP RV M c Hc). fold b in VN. assert (TR : forall i, In i l -> row (b_tp b) i = normalize (b_tpm b) (b_tpr b) (row tp i) /\ length (row tp i) = d) by (intros i' Hi'; exact (tp_row F0 F1 fsub fdiv feqb fltb m d tp tv RP i' (IX i' Hi'))).
        destruct (TR i Hi) as [T1 T2]. rewrite T1. pose proof (al_value c (row tp i) Hc T2) as K. assert (A0 := AF i c ltac:(rewrite (proj1 RP); apply IX; exact Hi) ltac:(lia)). fold (row tv i) (row a c) (row tp i) in A0. fold (entry (row tv i) c) (entry b0 c) in A0. rewrite <- A0 in K.
          rewrite <- (tv_entry F0 F1 fadd fmul fsub fopp fdiv finv feqb fltb Fth EQ m d k tp tv RP RV M i c (IX i Hi) Hc) in K. fold b in K.
          set (u := fadd (along (al c) (normalize (b_tpm b) (b_tpr b) (row tp i))) (be c)) in *. set (v := entry (row (b_tv b) i) c) in *.
          transitivity (fdiv (fsub (fadd (fmul v (entry (b_tvr b) c)) (entry (b_tvm b) c)) (entry (b_tvm b) c)) (entry (b_tvr b) c)); [field; exact VN|]. rewrite <- K. field. exact VN.
      Qed.
      Lemma normal_form : forall c, c < k -> entry (N l c) d <> F0 /\ forall i, i < d -> entry (N l c) i = fmul (fopp (entry (N l c) d)) (entry (al c) i).
      Proof.
        intros c Hc. destruct lens as (L1 & L2 & L3 & L4 & _). destruct (N_spec l c Hc PL LL IX) as (LN & CO & NZ). assert (VN := tvr_nz F0 F1 fadd fmul fsub fopp fdiv finv feqb fltb Fth EQ m d k tp tv RP RV M c Hc). fold b in VN.
        assert (TR : forall i, In i l -> row (b_tp b) i = normalize (b_tpm b) (b_tpr b) (row tp i) /\ length (row tp i) = d) by (intros i Hi; exact (tp_row F0 F1 fsub fdiv feqb fltb m d tp tv RP i (IX i Hi))).
        assert (LNX : forall z, length z = d -> length (normalize (b_tpm b) (b_tpr b) z) = d) by (intros z Hz; apply (normalize_length fsub fdiv); assumption).
        assert (VV := fun i Hi => tv_norm i c Hi Hc).
        set (u := map (fun i => fdiv (fadd (entry (N l c) i) (fmul (entry (N l c) d) (entry (al c) i))) (entry (b_tpr b) i)) (seq 0 d)).
        assert (LU : length u = d) by (unfold u; rewrite map_length, seq_length; reflexivity).
        assert (UV : forall i, In i l -> along u (row tp i) = fsub (along (row (b_tp b) i ++ [entry (row (b_tv b) i) c]) (N l c)) (fsub (fmul (be c) (entry (N l c) d)) (along u (b_tpm b)))).
        { intros i Hi. destruct (TR i Hi) as [T1 T2]. rewrite (along_app d) by (try rewrite T1; auto). rewrite (VV i Hi), T1.
          transitivity (fadd (fadd (along (normalize (b_tpm b) (b_tpr b) (row tp i)) (firstn d (N l c))) (fmul (entry (N l c) d) (along (al c) (normalize (b_tpm b) (b_tpr b) (row tp i))))) (along u (b_tpm b))); [|ring].
          rewrite !(along_sum F0 fadd fmul d) by (try apply al_length; try apply LNX; try exact LU; try (rewrite firstn_length; lia); assumption).
          rewrite <- (sum_map_mul F0 F1 fadd fmul fsub fopp fdiv finv Fth), <- !(sum_map_add F0 F1 fadd fmul fsub fopp fdiv finv Fth). apply sum_map_ext. intros q Hq. apply in_seq in Hq.
          assert (RN := tpr_nz F0 F1 fadd fmul fsub fopp fdiv finv feqb fltb Fth EQ m d k tp tv RP RV M q ltac:(lia)). fold b in RN.
          rewrite (entry_normalize F0 F1 fadd fmul fsub fopp fdiv finv Fth _ _ _ d), entry_firstn by (assumption || lia). unfold u. rewrite (entry_map F0) by lia. field. exact RN. }
        assert (U0 : u = repeat F0 d).
        { apply GP; [exact LU|]. intros p q Hp Hq. apply in_map_iff in Hp. apply in_map_iff in Hq. destruct Hp as (i & <- & Hi). destruct Hq as (j & <- & Hj). rewrite (UV i Hi), (UV j Hj), (CO i j Hi Hj). reflexivity. }
        assert (EN : forall i, i < d -> entry (N l c) i = fmul (fopp (entry (N l c) d)) (entry (al c) i)).
        { intros i Hi. assert (K : entry u i = F0) by (rewrite U0; unfold InterpModel.entry; apply nth_repeat). unfold u in K. rewrite (entry_map F0) in K by exact Hi.
          assert (RN := tpr_nz F0 F1 fadd fmul fsub fopp fdiv finv feqb fltb Fth EQ m d k tp tv RP RV M i Hi). fold b in RN.
          transitivity (fsub (fmul (fdiv (fadd (entry (N l c) i) (fmul (entry (N l c) d) (entry (al c) i))) (entry (b_tpr b) i)) (entry (b_tpr b) i)) (fmul (entry (N l c) d) (entry (al c) i))); [field; exact RN|]. rewrite K. ring. }
        split; [|exact EN]. intros Z. apply NZ. apply (entry_ext F0); [rewrite repeat_length; exact LN|]. intros i Hi. rewrite LN in Hi. replace (entry (repeat F0 (S d)) i) with F0 by (unfold InterpModel.entry; symmetry; apply nth_repeat).
        destruct (Nat.eq_dec i d) as [ ->|ND]; [exact Z|]. rewrite (EN i ltac:(lia)), Z. ring.
      Qed.
      Lemma linear_affine : k <> 0 -> (exists y, linear b x = Ok y /\ length y = k /\ forall c, c < k -> entry y c = fadd (along (row a c) x) (entry b0 c)) /\
          exists G, linear_gradient b x = Ok G /\ length G = k /\ forall c, c < k -> row G c = row a c.
      Proof.
        intros K0. destruct lens as (L1 & L2 & L3 & L4 & _). assert (NZ : forall c, c < k -> entry (N l c) d <> F0) by (intros c Hc; apply (normal_form c Hc)).
        assert (LNX : forall z, length z = d -> length (normalize (b_tpm b) (b_tpr b) z) = d) by (intros z Hz; apply (normalize_length fsub fdiv); assumption). split.
        - eexists. split; [exact (linear_main x NZ)|]. assert (LP : length (map (P x (nl x)) (seq 0 k)) = k) by (rewrite map_length, seq_length; reflexivity). split; [apply (unnormalize_length fadd fmul); assumption|]. intros c Hc.
          rewrite (entry_unnormalize F0 F1 fadd fmul fsub fopp fdiv finv Fth _ _ _ k) by assumption. rewrite (entry_map F0) by exact Hc. rewrite <- (al_value c x Hc LX). f_equal. f_equal. fold l.
          unfold P. destruct (normal_form c Hc) as [NL EN]. destruct (N_spec l c Hc PL LL IX) as (LN & _).
          assert (AN : forall z, length z = d -> along z (firstn d (N l c)) = fmul (fopp (entry (N l c) d)) (along (al c) z)).
          { intros z Lz. rewrite !(along_sum F0 fadd fmul d) by (try apply al_length; try (rewrite firstn_length; lia); assumption). rewrite <- (sum_map_mul F0 F1 fadd fmul fsub fopp fdiv finv Fth). apply sum_map_ext. intros i Hi. apply in_seq in Hi. rewrite entry_firstn, (EN i) by lia. ring. }
          assert (exists j0 r, l = j0 :: r) as (j0 & r & EL) by (assert (LL' := LL); destruct l as [|j0 r]; [discriminate|eauto]). assert (I0 : In j0 l) by (rewrite EL; left; reflexivity). destruct (tp_row F0 F1 fsub fdiv feqb fltb m d tp tv RP j0 (IX j0 I0)) as [T1 T2]. fold b in T1.
          rewrite (pc_value l j0 r c Hc PL EL LL IX), (tv_norm j0 c I0 Hc), !AN by (try rewrite T1; apply LNX; assumption). field. apply opp_nz. exact NL.
        - destruct (gradient_main x NZ K0) as (G & EG & LG & GE). exists G. split; [exact EG|]. split; [exact LG|]. intros c Hc. destruct (GE c Hc) as [LGC GC]. fold l in LGC, GC. destruct (normal_form c Hc) as [NL EN]. destruct (N_spec l c Hc PL LL IX) as (LN & _). rewrite firstn_length, LN in *.
          apply (entry_ext F0); [rewrite LA by exact Hc; lia|]. intros i Hi. rewrite (GC i), (EN i) by lia. unfold al. rewrite (entry_map F0) by lia.
          assert (RN := tpr_nz F0 F1 fadd fmul fsub fopp fdiv finv feqb fltb Fth EQ m d k tp tv RP RV M i ltac:(lia)). assert (VN := tvr_nz F0 F1 fadd fmul fsub fopp fdiv finv feqb fltb Fth EQ m d k tp tv RP RV M c Hc). fold b in RN, VN. field. repeat split; assumption.
      Qed.
    End Affine.
  End Trained.
End Proofs.

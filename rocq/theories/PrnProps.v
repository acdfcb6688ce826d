(** C140: the line a solver prints. *)
From Verif Require Import Base BaseFacts PrnModel PrnSpec.
Local Open Scope string_scope.
Local Open Scope nat_scope.

Lemma app_assoc_s : forall a b c : string, (a ++ b) ++ c = a ++ (b ++ c).
Proof. induction a as [|x a IH]; intros b c; [reflexivity|]. cbn. rewrite IH. reflexivity. Qed.
Lemma spaces_add : forall a b, spaces (a + b) = spaces a ++ spaces b.
Proof. induction a as [|a IH]; intros b; [reflexivity|]. cbn. rewrite IH. reflexivity. Qed.
Lemma times_spaces : forall n k, times n (spaces k) = spaces (k * n).
Proof. induction n as [|n IH]; intros k; [rewrite Nat.mul_0_r; reflexivity|]. cbn [times]. rewrite IH, <- spaces_add. f_equal. lia. Qed.
Lemma count_app : forall a b, count_dots (a ++ b) = count_dots a + count_dots b.
Proof. induction a as [|c a IH]; intros b; [reflexivity|]. cbn. rewrite IH. lia. Qed.
Lemma count_plain : forall n, plain n -> count_dots n = 0.
Proof.
  intros n (_ & H). induction n as [|c n IH]; [reflexivity|]. cbn [count_dots]. destruct (Ascii.eqb_spec c ".") as [->|_]; [exfalso; apply H; left; reflexivity|]. apply IH. intros J. apply H. right. exact J.
Qed.
Lemma count_path : forall n names, plain n -> Forall plain names -> count_dots (path (n :: names)) = length names.
Proof.
  intros n names P F. revert n P. induction F as [|m names Pm F IH]; intros n P; [exact (count_plain n P)|]. unfold path. cbn [String.concat]. rewrite !count_app, (count_plain n P). specialize (IH m Pm). unfold path in IH. cbn [String.concat] in IH. rewrite IH. reflexivity.
Qed.
Lemma path_empty : forall n names, plain n -> path (n :: names) <> "".
Proof. intros n names (N & _). unfold path. destruct n; [contradiction|]. destruct names; discriminate. Qed.
Lemma name_ok : forall names, Forall plain names -> (if String.eqb (path names) "" then "root" else "root." ++ path names) = String.concat "." ("root" :: names).
Proof. intros names F. destruct F as [|n names P F]; [reflexivity|]. destruct (String.eqb_spec (path (n :: names)) "") as [E|_]; [exfalso; exact (path_empty n names P E)|]. reflexivity. Qed.
Lemma root_plain : plain "root".
Proof. split; [discriminate|]. cbn. intuition discriminate. Qed.
Lemma lead_ok : forall n i p, (if 0 <? p then times (n + i) "   " ++ times p "  " else times (n + i) "   ") = spaces (3 * (n + i) + 2 * p).
Proof.
  intros n i p. change "   " with (spaces 3). change "  " with (spaces 2). rewrite !times_spaces. destruct p as [|p]; [cbn [Nat.ltb Nat.leb]; f_equal; lia|]. cbn [Nat.ltb Nat.leb]. rewrite <- spaces_add. reflexivity.
Qed.
Lemma leading_spaces : forall n c s, c <> " "%char -> leading (spaces n ++ String c s) = n.
Proof. intros n c s H. induction n as [|n IH]; cbn; [destruct (Ascii.eqb_spec c " "); [contradiction|reflexivity]|]. rewrite IH. reflexivity. Qed.

Lemma ok_inj : forall a b : string, Ok a = Ok b -> a = b.
Proof. congruence. Qed.

Section Facts.
  Variable d_text : nat -> string.
  Variable g_text : Q -> string.
  Variable str : Q -> string.
  Variable divide : Q -> Q -> res Q.
  Notation print_norm := (print_norm d_text g_text str divide).

  Lemma heading_ok : forall names indent precon solver ss it tail, Forall plain names ->
    (if 0 <? precon then times (count_dots (String.concat "." ("root" :: names)) + indent) "   " ++ times precon "  " else times (count_dots (String.concat "." ("root" :: names)) + indent) "   ")
      ++ "[" ++ String.concat "." ("root" :: names) ++ "] " ++ solver ++ ": " ++ (if 0 <? precon then "PRECON:" ++ ss else ss) ++ "   " ++ it ++ " | " ++ tail
    = heading names indent precon solver ss it ++ tail.
  Proof.
    intros names indent precon solver ss it tail F. rewrite lead_ok. pose proof (count_path "root" names root_plain F) as C. unfold path in C. rewrite C. unfold heading, blanks_of. rewrite !app_assoc_s.
    destruct precon as [|p]; cbn [Nat.ltb Nat.leb Nat.eqb]; rewrite ?app_assoc_s; reflexivity.
  Qed.
  (** The residual, absolute and relative, of the system, indented by its depth. *)
  Theorem C140_line : forall names ss precon it r r0 q indent solver, Forall plain names -> divide r r0 = Ok q ->
    print_norm ss (path names) precon it r r0 None indent solver None = Ok (heading names indent precon solver ss (d_text it) ++ g_text r ++ " " ++ g_text q)
    /\ forall u, ~ (u == 0)%Q -> print_norm ss (path names) precon it r r0 None indent solver (Some u) = Ok (heading names indent precon solver ss (d_text it) ++ g_text r ++ " " ++ g_text q ++ " (" ++ str u ++ ")").
  Proof.
    intros names ss precon it r r0 q indent solver F D. unfold PrnModel.print_norm. rewrite (name_ok names F). cbv zeta. rewrite D. cbn [bind]. split.
    - rewrite heading_ok by exact F. cbn [u_tail]. f_equal. f_equal. rewrite <- !app_assoc_s. induction ((g_text r ++ " ") ++ g_text q) as [|c s IH]; [reflexivity|]. cbn. rewrite IH. reflexivity.
    - intros u U. rewrite heading_ok by exact F. unfold u_tail. destruct (Qeq_bool u 0) eqn:E; [exfalso; exact (U (Qeq_bool_eq u 0 E))|]. reflexivity.
  Qed.
  (** A message is printed whatever the norms are. *)
  Theorem C140_message : forall names ss precon it r r0 m indent solver, Forall plain names ->
    (exists out, print_norm ss (path names) precon it r r0 (Some m) indent solver None = Ok out /\ out = heading names indent precon solver ss (d_text it) ++ m)
    /\ forall u, ~ (u == 0)%Q -> print_norm ss (path names) precon it r r0 (Some m) indent solver (Some u) = Ok (heading names indent precon solver ss (d_text it) ++ m ++ " (" ++ str u ++ ")").
  Proof.
    intros names ss precon it r r0 m indent solver F. unfold PrnModel.print_norm. rewrite (name_ok names F). cbv zeta. split.
    - eexists. split; [reflexivity|]. rewrite heading_ok by exact F. cbn [u_tail]. f_equal. induction m as [|c s IH]; [reflexivity|]. cbn. rewrite IH. reflexivity.
    - intros u U. rewrite heading_ok by exact F. unfold u_tail. destruct (Qeq_bool u 0) eqn:E; [exfalso; exact (U (Qeq_bool_eq u 0 E))|]. reflexivity.
  Qed.
  (** The lines of a system are indented by one level more than those of the system it is in. *)
  Theorem C140_nested : forall names n ss ss' precon it it' r r' r0 r0' msg msg' indent solver solver' u u' out out', Forall plain names -> plain n ->
    print_norm ss (path names) precon it r r0 msg indent solver u = Ok out -> print_norm ss' (path (names ++ [n])%list) precon it' r' r0' msg' indent solver' u' = Ok out' -> leading out' = leading out + 3.
  Proof.
    assert (L : forall names ss precon it r r0 msg indent solver u out, Forall plain names -> print_norm ss (path names) precon it r r0 msg indent solver u = Ok out -> leading out = blanks_of names indent precon).
    { intros names ss precon it r r0 msg indent solver u out F E. unfold PrnModel.print_norm in E. rewrite (name_ok names F) in E. cbv zeta in E. destruct msg as [m|].
      - apply ok_inj in E. rewrite <- E. rewrite heading_ok by exact F. unfold heading. rewrite app_assoc_s. apply leading_spaces. discriminate.
      - destruct (divide r r0) as [q|]; [|discriminate E]. cbn [bind] in E. apply ok_inj in E. rewrite <- E. rewrite heading_ok by exact F. unfold heading. rewrite app_assoc_s. apply leading_spaces. discriminate. }
    intros names n ss ss' precon it it' r r' r0 r0' msg msg' indent solver solver' u u' out out' F P E E'. rewrite (L _ _ _ _ _ _ _ _ _ _ _ F E). assert (F' : Forall plain (names ++ [n])%list) by (apply Forall_app; split; [exact F|constructor; [exact P|constructor]]). rewrite (L _ _ _ _ _ _ _ _ _ _ _ F' E'). unfold blanks_of. rewrite app_length. cbn. lia.
  Qed.
  (** But a change of zero, which means convergence, is printed as if it had not been computed. *)
  Theorem C140_zero_refuted : forall ss pathname precon it r r0 msg indent solver u, (u == 0)%Q -> print_norm ss pathname precon it r r0 msg indent solver (Some u) = print_norm ss pathname precon it r r0 msg indent solver None.
  Proof. intros ss pathname precon it r r0 msg indent solver u U. unfold PrnModel.print_norm, u_tail. apply Qeq_eq_bool in U. rewrite U. reflexivity. Qed.
End Facts.
Print Assumptions C140_line.
Print Assumptions C140_message.
Print Assumptions C140_nested.
Print Assumptions C140_zero_refuted.

Definition prn_div (a b : Q) : res Q := if Qeq_bool b 0 then Err ZeroDivisionError else Ok (a / b)%Q.
Definition prn_ex := print_norm (fun n => if n =? 0 then "0" else "1") (fun q => if Qeq_bool q 1 then "1" else "2") (fun _ => "0.5") prn_div.
Example C140_ex : prn_ex "NEWTON" "" 0 1 2 2 None 0 "NL" (Some (1#2)) = Ok "[root] NL: NEWTON   1 | 2 1 (0.5)"
  /\ prn_ex "LN_GS" "sub.g" 1 0 2 2 None 0 "LN" None = Ok "        [root.sub.g] LN: PRECON:LN_GS   0 | 2 1"
  /\ prn_ex "BK_TKG" "sub" 0 1 0 0 (Some "Converged") 1 "LS" None = Ok "      [root.sub] LS: BK_TKG   1 | Converged"
  /\ prn_ex "NEWTON" "" 0 1 2 2 None 0 "NL" (Some 0%Q) = Ok "[root] NL: NEWTON   1 | 2 1"
  /\ path ["sub"; "g"] = "sub.g" /\ Forall plain ["sub"; "g"] /\ prn_div 2 2 = Ok (2 / 2)%Q.
Proof.
  do 4 (split; [reflexivity|]). split; [reflexivity|]. split; [|reflexivity]. repeat constructor; try discriminate; cbn; intuition discriminate.
Qed.

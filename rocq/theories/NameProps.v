(** Theorems about promoted names (C36). *)
From Verif Require Import Base BaseFacts OrderModel PathModel NameModel NameSpec NameProofs.
Local Open Scope string_scope.
Local Open Scope list_scope.

(** Setting up the names of a system fails exactly when, in some group, two unknowns
    share a promoted name or a promotion pattern matches no variable of its
    subsystem; the error is a RuntimeError. *)
Theorem name_setup_fails_iff : forall s pth, wf_sys s ->
    (faulty s <-> setup_variables pth s = Err RuntimeError) /\ ((exists d, setup_variables pth s = Ok d) \/ setup_variables pth s = Err RuntimeError).
Proof.
  intros s pth W. destruct (setup_ok s W pth) as [[F E]|(NF & d & E & _)]; rewrite E.
  - split; [tauto|auto].
  - split; [split; [contradiction|discriminate]|]. left. exists d. reflexivity.
Qed.
Print Assumptions name_setup_fails_iff.

(** Otherwise its variables are those of its components, under their paths, each
    once; each has the promoted name determined by its path; and the dictionaries
    from promoted to absolute names are the inverses. *)
Theorem names_resolve : forall s pth d, wf_sys s -> setup_variables pth s = Ok d ->
    params d = map (app pth) (plist s) /\ unknowns d = map (app pth) (ulist s) /\ NoDup (params d ++ unknowns d) /\
    (forall q, In q (plist s) \/ In q (ulist s) -> to_prom_name d (pth ++ q) = prom_of s q) /\
    (forall m u, pget (abs_u d) m = Some u <-> exists q, In q (ulist s) /\ u = pth ++ q /\ prom_of s q = m) /\
    (forall m, match pget (abs_p d) m with
               | Some l => l <> [] /\ l = map (app pth) (filter (fun q => peqb (prom_of s q) m) (plist s))
               | None => forall q, In q (plist s) -> prom_of s q <> m
               end).
Proof. exact names_ok. Qed.
Print Assumptions names_resolve.

(** In a system that was set up, different unknowns have different promoted names,
    at this level and at every level below. *)
Inductive sub_of (c : sys) : sys -> Prop :=
| sub_self : sub_of c c
| sub_in : forall subs src n pats b, In (n, (pats, b)) subs -> sub_of c b -> sub_of c (Grp subs src).
Theorem unknown_names_distinct : forall s pth d c, wf_sys s -> setup_variables pth s = Ok d -> sub_of c s ->
    forall q1 q2, In q1 (ulist c) -> In q2 (ulist c) -> prom_of c q1 = prom_of c q2 -> q1 = q2.
Proof.
  intros s pth d c W E HS. assert (NF : ~ faulty s) by (destruct (setup_ok s W pth) as [[_ E']|(NF & _)]; [rewrite E' in E; discriminate|exact NF]). clear E.
  induction HS as [|subs src n pats b HIn HS IH].
  - intros q1 q2 H1 H2 E. destruct (setup_ok c W []) as [[F _]|(_ & d' & _ & _ & ND)]; [contradiction|]. eapply nodup_inj; eassumption.
  - inversion W; subst. apply IH; [eauto|]. intros F. apply NF. eapply f_sub; eassumption.
Qed.
Print Assumptions unknown_names_distinct.

(** Every promotion pattern of every subsystem matches one of its variables. *)
Theorem patterns_match : forall s pth d subs src n pats b f, wf_sys s -> setup_variables pth s = Ok d -> sub_of (Grp subs src) s -> In (n, (pats, b)) subs -> In f pats ->
    ~ forall q, In q (plist b) \/ In q (ulist b) -> f (join_dot (prom_of b q)) = false.
Proof.
  intros s pth d subs src n pats b f W E HS HIn Hf K. assert (NF : ~ faulty s) by (destruct (setup_ok s W pth) as [[_ E']|(NF & _)]; [rewrite E' in E; discriminate|exact NF]).
  apply NF. clear E NF W. remember (Grp subs src) as c. induction HS as [|subs' src' n' pats' b' HIn' HS IH]; subst; [eapply f_idle; [exact HIn|exists f; auto]|]. eapply f_sub; [exact HIn'|]. apply IH; auto.
Qed.
Print Assumptions patterns_match.

Definition eqs (a b : string) : bool := String.eqb a b.
Definition any (_ : string) : bool := true.
Example names_case :
  let g := Grp [("c1", ([eqs "y"], Comp ["x"] ["y"])); ("c2", ([any], Comp ["x"; "a"] ["z"]))] [] in
  let s := Grp [("p", ([eqs "x"], Comp [] ["x"])); ("g", ([eqs "c1.x"; eqs "a"], g))] [] in
  wf_sys s /\ ~ faulty s /\
  match setup_variables [] s with
  | Ok d => abs_u d = [(["x"], ["p"; "x"]); (["g"; "y"], ["g"; "c1"; "y"]); (["g"; "z"], ["g"; "c2"; "z"])] /\
            abs_p d = [(["c1"; "x"], [["g"; "c1"; "x"]]); (["g"; "x"], [["g"; "c2"; "x"]]); (["a"], [["g"; "c2"; "a"]])]
  | Err _ => False
  end /\
  setup_variables [] (Grp [("c1", ([any], Comp [] ["y"])); ("c2", ([eqs "y"], Comp ["x"] ["y"]))] []) = Err RuntimeError /\
  setup_variables [] (Grp [("c1", ([any; eqs "q"], Comp [] ["y"]))] []) = Err RuntimeError.
Proof.
  cbv zeta. assert (W : wf_sys (Grp [("p", ([eqs "x"], Comp [] ["x"])); ("g", ([eqs "c1.x"; eqs "a"], Grp [("c1", ([eqs "y"], Comp ["x"] ["y"])); ("c2", ([any], Comp ["x"; "a"] ["z"]))] []))] [])).
  { apply wf_grp; [repeat constructor; cbn; intuition discriminate|]. intros n pats c [E|[E|[]]]; injection E as <- <- <-.
    - apply wf_comp. repeat constructor; cbn; intuition discriminate.
    - apply wf_grp; [repeat constructor; cbn; intuition discriminate|]. intros n pats c [E|[E|[]]]; injection E as <- <- <-; apply wf_comp; repeat constructor; cbn; intuition discriminate. }
  split; [exact W|]. split; [|repeat split; reflexivity]. intros F. apply (proj1 (name_setup_fails_iff _ [] W)) in F. discriminate.
Qed.

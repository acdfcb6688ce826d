(** A tactic for permutations of concatenated lists. *)
From Coq Require Import Permutation.
From Verif Require Import Base.
Local Open Scope nat_scope.

Section Solve.
  Context {A : Type}.
  Inductive lexp := LNil | LAtom (i : nat) | LApp (a b : lexp).
  Fixpoint atoms (e : lexp) : list nat := match e with LNil => [] | LAtom i => [i] | LApp a b => atoms a ++ atoms b end.
  Fixpoint leval (env : list (list A)) (e : lexp) : list A := match e with LNil => [] | LAtom i => nth i env [] | LApp a b => leval env a ++ leval env b end.
  Lemma leval_atoms : forall env e, leval env e = flat_map (fun i => nth i env []) (atoms e).
  Proof. intros env. induction e as [|i|a IHa b IHb]; cbn; [reflexivity|rewrite app_nil_r; reflexivity|]. rewrite flat_map_app, IHa, IHb. reflexivity. Qed.
  Fixpoint take_one (i : nat) (l : list nat) : option (list nat) :=
    match l with [] => None | j :: r => if i =? j then Some r else match take_one i r with Some r' => Some (j :: r') | None => None end end.
  Fixpoint same (l m : list nat) : bool := match l with [] => match m with [] => true | _ => false end | i :: r => match take_one i m with Some m' => same r m' | None => false end end.
  Lemma take_one_perm : forall i l r, take_one i l = Some r -> Permutation l (i :: r).
  Proof.
    intros i. induction l as [|j l IH]; intros r; cbn; [discriminate|]. destruct (i =? j) eqn:E.
    - apply Nat.eqb_eq in E. subst. intros H. injection H as ->. reflexivity.
    - destruct (take_one i l) as [r'|]; [|discriminate]. intros H. injection H as <-. rewrite (IH r' eq_refl). apply perm_swap.
  Qed.
  Lemma same_perm : forall l m, same l m = true -> Permutation l m.
  Proof.
    induction l as [|i l IH]; intros m; cbn; [destruct m; [constructor|discriminate]|]. destruct (take_one i m) as [m'|] eqn:E; [|discriminate]. intros H. apply take_one_perm in E. rewrite E. apply perm_skip. apply IH. exact H.
  Qed.
  Lemma flat_perm : forall (f : nat -> list A) l m, Permutation l m -> Permutation (flat_map f l) (flat_map f m).
  Proof.
    intros f l m H. induction H; cbn; [constructor|apply Permutation_app_head; assumption| |etransitivity; eassumption]. rewrite !app_assoc. apply Permutation_app_tail. apply Permutation_app_comm.
  Qed.
  Lemma solve_perm : forall env e f, same (atoms e) (atoms f) = true -> Permutation (leval env e) (leval env f).
  Proof. intros env e f H. rewrite !leval_atoms. apply flat_perm. apply same_perm. exact H. Qed.
End Solve.

Ltac find_atom x env :=
  match env with
  | [] => constr:(0)
  | x :: _ => constr:(0)
  | _ :: ?r => let i := find_atom x r in constr:(S i)
  end.
Ltac add_atom x env :=
  match env with
  | [] => constr:([x])
  | x :: _ => env
  | ?y :: ?r => let r' := add_atom x r in constr:(y :: r')
  end.
Ltac gather_atoms e env :=
  match e with
  | [] => env
  | ?a ++ ?b => let env := gather_atoms a env in gather_atoms b env
  | ?x :: [] => add_atom [x] env
  | ?x :: ?l => let env := add_atom [x] env in gather_atoms l env
  | _ => add_atom e env
  end.
Ltac quote_list e env :=
  match e with
  | [] => constr:(LNil)
  | ?a ++ ?b => let a' := quote_list a env in let b' := quote_list b env in constr:(LApp a' b')
  | ?x :: [] => let i := find_atom [x] env in constr:(LAtom i)
  | ?x :: ?l => let i := find_atom [x] env in let l' := quote_list l env in constr:(LApp (LAtom i) l')
  | _ => let i := find_atom e env in constr:(LAtom i)
  end.
(** solves [Permutation a b] for a and b built from the same parts *)
Ltac perm :=
  match goal with
  | |- @Permutation ?A ?a ?b =>
      let env := gather_atoms a (@nil (list A)) in let env := gather_atoms b env in
      let a' := quote_list a env in let b' := quote_list b env in
      exact (solve_perm env a' b' eq_refl)
  end.
Goal forall A (a b c : list A) x y, Permutation (x :: a ++ (b ++ [y]) ++ c) (c ++ y :: b ++ x :: a).
Proof. intros. perm. Qed.

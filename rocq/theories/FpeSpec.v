(** What a failure in a stack of solvers should look like. *)
From Verif Require Import Base ExprModel LcnModel FpeModel.
Local Open Scope list_scope.

(** the names to be listed: those of numbers with an entry that is not finite *)
Inductive listed : list var -> list txt -> Prop :=
| li_nil : listed [] []
| li_bad : forall n b l r, In false b -> listed l r -> listed (mkVar n false (Flat b) :: l) (n :: r)
| li_fine : forall n b l r, (forall x, In x b -> x = true) -> listed l r -> listed (mkVar n false (Flat b) :: l) r
| li_object : forall n v l r, listed l r -> listed (mkVar n true v :: l) r.
(** no number that is not an array *)
Definition arrays (l : list var) : Prop := forall v, In v l -> v_pbo v = false -> exists b, v_val v = Flat b.
Definition all_arrays (g : vectors) : Prop := arrays (g_unknowns g) /\ arrays (g_resids g) /\ arrays (g_params g).
(** a name without quotes *)
Definition unquoted (n : txt) : Prop := ~ In "'"%char n.

Section Spec.
  Context {S : Type}.
  (** Without any wrapper: the run of a solver ends well in a state, or fails in a state with the
      exception of an action; the vectors are those of the solver that the action belongs to. *)
  Inductive outcome := Well (s : S) | Fails (s : S) (e : exn) (view : S -> vectors).
  Inductive runs : solver S -> S -> outcome -> Prop :=
  | r_solver : forall view steps s o, body view steps s o -> runs (Solver view steps) s o
  with body : (S -> vectors) -> list (step S) -> S -> outcome -> Prop :=
  | b_nil : forall view s, body view [] s (Well s)
  | b_act : forall view a l s s' o, a s = (s', None) -> body view l s' o -> body view (Act a :: l) s o
  | b_raise : forall view a l s s' e, a s = (s', Some e) -> body view (Act a :: l) s (Fails s' e view)
  | b_sub : forall view x l s s' o, runs x s (Well s') -> body view l s' o -> body view (Sub x :: l) s o
  | b_fail : forall view x l s s' e v, runs x s (Fails s' e v) -> body view (Sub x :: l) s (Fails s' e v).
End Spec.
Arguments outcome : clear implicits.
(** a further line of the message *)
Definition line (what : string) (l : list txt) : txt :=
  match l with
  | [] => []
  | n :: r => "010"%char :: t_ "The following " ++ t_ what ++ t_ " are nonfinite: ['" ++ n ++ flat_map (fun x => t_ "', '" ++ x) r ++ t_ "']"
  end.
Definition message (m : txt) (u r p : list txt) : txt := m ++ line "unknowns" u ++ line "resids" r ++ line "params" p.

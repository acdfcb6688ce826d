(** Promoted names, specified by recursion over the path of a variable. *)
From Verif Require Import Base OrderModel PathModel NameModel.
Local Open Scope nat_scope.

(** the params and the unknowns of a system, by their paths relative to it *)
Fixpoint plist (s : sys) : list path :=
  match s with
  | Comp ps _ => map (fun n => [n]) ps
  | Grp subs _ => flat_map (fun e : string * (list pattern * sys) => map (cons (fst e)) (plist (snd (snd e)))) subs
  end.
Fixpoint ulist (s : sys) : list path :=
  match s with
  | Comp _ us => map (fun n => [n]) us
  | Grp subs _ => flat_map (fun e : string * (list pattern * sys) => map (cons (fst e)) (ulist (snd (snd e)))) subs
  end.
(** the promoted name of a variable in a system: its name in the component; in a
    group the name in the subsystem, prefixed by the subsystem's name unless the
    subsystem promotes it *)
Definition promotes (pats : list pattern) (name : path) : bool := existsb (fun f => f (join_dot name)) pats.
Fixpoint prom_of (s : sys) (q : path) : path :=
  match q with
  | [] => []
  | n :: q' => match s with
               | Comp _ _ => q
               | Grp subs _ => match sget subs n with
                               | Some (pats, c) => if promotes pats (prom_of c q') then prom_of c q' else n :: prom_of c q'
                               | None => q
                               end
               end
  end.
(** names are distinct in every component and every group *)
Inductive wf_sys : sys -> Prop :=
| wf_comp : forall ps us, NoDup (ps ++ us) -> wf_sys (Comp ps us)
| wf_grp : forall subs src, NoDup (map fst subs) -> (forall n pats c, In (n, (pats, c)) subs -> wf_sys c) -> wf_sys (Grp subs src).
(** two unknowns of one group with the same promoted name *)
Definition clash (s : sys) : Prop := exists q1 q2, In q1 (ulist s) /\ In q2 (ulist s) /\ q1 <> q2 /\ prom_of s q1 = prom_of s q2.
(** a pattern that matches no variable *)
Definition idle (pats : list pattern) (c : sys) : Prop := exists f, In f pats /\ forall q, In q (plist c) \/ In q (ulist c) -> f (join_dot (prom_of c q)) = false.
(** the system or some system below it has one of the two faults *)
Inductive faulty : sys -> Prop :=
| f_clash : forall subs src, clash (Grp subs src) -> faulty (Grp subs src)
| f_idle : forall subs src n pats c, In (n, (pats, c)) subs -> idle pats c -> faulty (Grp subs src)
| f_sub : forall subs src n pats c, In (n, (pats, c)) subs -> faulty c -> faulty (Grp subs src).

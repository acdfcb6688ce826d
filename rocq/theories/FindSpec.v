(** What is below a directory, and where a file lies above one. *)
From Verif Require Import Base ExprModel FindModel.
Local Open Scope list_scope.

(** the file [f] in the directories [ds] below a tree *)
Inductive has : tree -> list txt -> txt -> Prop :=
| has_here : forall files dirs f, In f files -> has (Tree files dirs) [] f
| has_below : forall files dirs d t ds f, In (d, t) dirs -> has t ds f -> has (Tree files dirs) (d :: ds) f.
(** a name is wanted: matched (any name, if nothing is given) and not excluded *)
Definition matches (fnm : txt -> txt -> bool) (m : filt) (n : txt) : Prop :=
  match m with FNone => n <> [] | FPat p => fnm n p = true | FFun f => f n = true end.
Definition excludes (fnm : txt -> txt -> bool) (m : filt) (n : txt) : Prop :=
  match m with FNone => False | FPat p => fnm n p = true | FFun f => f n = true end.
Definition wanted (fnm : txt -> txt -> bool) (m e : filt) (n : txt) : Prop := matches fnm m n /\ ~ excludes fnm e n.
(** names as a directory has them: not empty, without slash *)
Definition name_ok (n : txt) : Prop := n <> [] /\ ~ In slash n.
Inductive tree_ok : tree -> Prop :=
| tree_ok_intro : forall files dirs,
    Forall name_ok files -> NoDup files -> NoDup (map fst dirs) ->
    (forall d t, In (d, t) dirs -> name_ok d /\ tree_ok t) ->
    tree_ok (Tree files dirs).
(** the absolute path of a list of names *)
Definition abs (cs : list txt) : txt := match cs with [] => [slash] | _ => concat (map (fun c => slash :: c) cs) end.
(** the name is in the directory of the first [k] names and in none below it *)
Definition nearest (ex : txt -> bool) (name : txt) (cs : list txt) (k : nat) : Prop :=
  (k <= length cs)%nat /\ ex (abs (firstn k cs ++ [name])) = true /\
  forall j, (k < j <= length cs)%nat -> ex (abs (firstn j cs ++ [name])) = false.
(** names that stand for themselves *)
Definition plain (n : txt) : Prop := name_ok n /\ n <> dot /\ n <> dotdot.

(** The N2 diagram: the hierarchy, the order of execution, the loops. *)
From Verif Require Import Base PathSpec TrvModel TrvSpec N2Model.
Local Open Scope list_scope.
Local Open Scope nat_scope.

Section Spec.
  Context {V : Type} (vars : sys -> list V).
  (** a node for the system, with those of its subsystems in order or of its variables *)
  Inductive depicts : sys -> node V -> Prop :=
  | d_group : forall x c, is_group x = true -> all_depict (subs x) c -> depicts x (TSub (name x) "subsystem" true c)
  | d_comp : forall x, is_group x = false -> depicts x (TSub (name x) "subsystem" false (map TVar (vars x)))
  with all_depict : list sys -> list (node V) -> Prop :=
  | l_nil : all_depict [] []
  | l_cons : forall x l t c, depicts x t -> all_depict l c -> all_depict (x :: l) (t :: c).
End Spec.
(** the pathnames of the components below the root, depth first *)
Definition component_paths (root : sys) : list string := map fst (filter (fun e => negb (is_group (snd e))) (subsystems "" root)).

Section Graph.
  Variable G : list (string * string).
  Inductive leads : string -> string -> Prop :=
  | e_refl : forall a, leads a a
  | e_step : forall a b c, In (a, b) G -> leads b c -> leads a c.
  Definition in_loop (a b : string) : Prop := leads a b /\ leads b a.
  (** the strongly connected components with more than one node *)
  Definition scc_ok (sccs : list (list string)) : Prop :=
    NoDup (concat sccs) /\ (forall li a b, In li sccs -> In a li -> In b li -> in_loop a b) /\
    (forall a b, a <> b -> in_loop a b -> exists li, In li sccs /\ In a li /\ In b li).
End Graph.
(** every node in a loop has one place in the order *)
Definition orders_ok (orders : list (string * nat)) (sccs : list (list string)) : Prop :=
  NoDup (map fst orders) /\ NoDup (map snd orders) /\ forall li a, In li sccs -> In a li -> In a (map fst orders).
Definition no_space (s : string) : Prop := ~ In " "%char (list_ascii_of_string s).

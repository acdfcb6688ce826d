(** Dataflow between components, in terms of the connections only. *)
From Verif Require Import Base OrderModel OrderSpec.

Inductive flow (conns : list (path * path * nat)) : path -> path -> Prop :=
| flow_refl : forall c, flow conns c c
| flow_step : forall s t w d, In (s, t, w) conns -> flow conns (removelast t) d -> flow conns (removelast s) d.
(** component c lies on a path from the component of variable i to that of o *)
Definition on_path (conns : list (path * path * nat)) (i o : path) (c : path) : Prop := flow conns (removelast i) c /\ flow conns c (removelast o).
(** variable v lies on such a path: one of the two, or an end of a connection on it *)
Definition var_on_path (conns : list (path * path * nat)) (i o v : path) : Prop :=
  ((v = i \/ v = o) /\ flow conns (removelast i) (removelast o)) \/
  exists s t w, In (s, t, w) conns /\ (v = s \/ v = t) /\ flow conns (removelast i) (removelast s) /\ flow conns (removelast t) (removelast o).
(** p is q or a system above q *)
Definition above (p q : path) : Prop := p <> [] /\ exists r, q = p ++ r.

(** Model of the breadth-first search: openmdao/util/graph.py plain_bfs (lines 47-68).
    Nodes are any type with a decidable equality; G.succ and G.pred are dictionaries, as functions
    to the nodes adjacent, None for a node which is not in the graph.  A set is a list without
    repetition; the order in which the set of a level is run through is an argument, which may be
    different for each level.  A generator is the values it yields and the exception that ends it;
    [fuel] bounds the number of levels. *)
From Verif Require Import Base.
Local Open Scope list_scope.
Local Open Scope nat_scope.

Section Bfs.
  Context {N : Type} (dec : forall a b : N, {a = b} + {a <> b}) (succ pred : N -> option (list N)) (order : nat -> list N -> list N).

  Definition mem (v : N) (s : list N) : bool := if in_dec dec v s then true else false.
  Definition add (s : list N) (v : N) : list N := if mem v s then s else v :: s.
  (** set.update *)
  Definition update (s l : list N) : list N := fold_left add l s.
  Definition get (d : N -> option (list N)) (v : N) : res (list N) := match d v with Some l => Ok l | None => Err KeyError end.

  (** lines 62-68: what is yielded, then the seen and the next level or the exception *)
  Fixpoint level (l seen next : list N) : list N * res (list N * list N) :=
    match l with
    | [] => ([], Ok (seen, next))
    | v :: l =>
        if mem v seen then level l seen next
        else
          let seen := add seen v in
          let (out, r) :=
            match get succ v with
            | Err e => ([], Err e)
            | Ok a => match get pred v with
                      | Err e => ([], Err e)
                      | Ok b => level l seen (update (update next a) b)
                      end
            end in
          (v :: out, r)
    end.
  (** lines 59-61 *)
  Fixpoint loop (fuel k : nat) (seen next : list N) : option (list N * option pyerr) :=
    match next with
    | [] => Some ([], None)
    | _ =>
        match fuel with
        | 0 => None
        | S fuel =>
            match level (order k next) seen [] with
            | (out, Err e) => Some (out, Some e)
            | (out, Ok (seen, next)) =>
                match loop fuel (S k) seen next with
                | Some (out', r) => Some (out ++ out', r)
                | None => None
                end
            end
        end
    end.
  Definition plain_bfs (fuel : nat) (source : N) : option (list N * option pyerr) := loop fuel 0 [] [source].
End Bfs.

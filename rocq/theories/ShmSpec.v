(** Variables with cells of their own: the vectors of one group of variables of interest
    behave as if every variable of every vector were an array of its own. *)
From Verif Require Import Base ShmModel.
Local Open Scope nat_scope.

(** two ranges without a common cell *)
Definition apart (r s : nat * nat) : Prop := fst r + snd r <= fst s \/ fst s + snd s <= fst r.
(** [cells k] is where the variable [k] is, [size k] what it needs, in [n] cells *)
Definition separate {K} (n : nat) (mem : K -> Prop) (size : K -> nat) (cells : K -> option (nat * nat)) : Prop :=
  (forall k, mem k -> exists b, cells k = Some (b, size k) /\ b + size k <= n) /\
  (forall k l r s, mem k -> mem l -> k <> l -> cells k = Some r -> cells l = Some s -> apart r s).
(** what was last assigned to a variable *)
Fixpoint last_to {K V} (dec : forall a b : K, {a = b} + {a <> b}) (k : K) (ws : list (K * list V)) (old : list V) : list V :=
  match ws with
  | [] => old
  | (l, vals) :: r => last_to dec k r (if dec k l then vals else old)
  end.
(** the assignments of [ws] one after the other *)
Fixpoint assigns {K V} (cells : K -> option (nat * nat)) (buf : list V) (ws : list (K * list V)) : res (list V) :=
  match ws with
  | [] => Ok buf
  | (k, vals) :: r =>
      match cells k with
      | None => Err KeyError
      | Some c => let! buf := assign buf c vals in assigns cells buf r
      end
  end.
(** the variables of interest of one solve: None alone, or those of one group *)
Definition together (groups : list (list string)) (top_lin_gs : bool) (g : list (option string)) : Prop :=
  g = [None] \/ (top_lin_gs = true /\ exists vois, In vois groups /\ g = map Some vois).
Definition okv {A} (x : res (option A)) : option A := match x with Ok o => o | Err _ => None end.
(** param and source agree: both passed by object or both not, and the same size unless
    there are indices; what is passed by object has size 0 *)
Definition agrees (m : vmeta) (c : source) : Prop :=
  (v_pbo m = true -> v_size m = 0) /\ (c_pbo c = true -> c_size c = 0) /\
  (c_pbo c = false -> v_pbo m = false /\ (v_idx m = false -> c_idx c = false -> v_size m = c_size c)).
Definition size_of (l : list vmeta) (path : string) : nat := match find (fun m => String.eqb path (v_path m)) l with Some m => v_size m | None => 0 end.
(** the cells needed by the variables passed by value and relevant to [voi] *)
Definition cells_for (rel : relevance) (udict : list vmeta) (voi : option string) : nat :=
  list_sum (map v_size (filter (fun m => negb (v_pbo m) && is_relevant rel voi (v_top m)) udict)).

(** What a sparse Jacobian and the evaluation functions should give. *)
From Verif Require Import Base SpsModel.
Local Open Scope string_scope.
Local Open Scope nat_scope.
Local Open Scope list_scope.

(** the elements of a set, each once *)
Definition enumerates (enum : list nat -> list nat) : Prop := forall l, NoDup (enum l) /\ forall x, In x (enum l) <-> In x l.

Section Chain.
  Context {A : Type}.
  Variable zero : A.
  Variable add : A -> A -> A.
  Definition total (l : list A) : A := fold_right add zero l.
  (** the source entries a target of [size] entries takes *)
  Definition takes (idx : option (list nat)) (size : nat) : list nat := match idx with Some l => l | None => seq 0 size end.
  (** [D t i k]: derivative of row [i] of the constraint by entry [k] of the parameter [t] *)
  Variable D : string -> nat -> nat -> A.
  (** derivative by entry [e] of the source: the sum over its targets *)
  Definition chain (path : string) (size : nat) (cs : list connection) (i e : nat) : A :=
    total (map (fun c => total (map (fun k => D (fst c) i k) (filter (fun k => nth k (takes (snd (snd c)) size) 0 =? e) (seq 0 (length (takes (snd (snd c)) size))))))
               (filter (fun c => String.eqb (fst (snd c)) path) cs)).
End Chain.
(** the source entry at a position of the design variable *)
Definition entry_at (dv_idx : option (list nat)) (j : nat) : nat := match dv_idx with Some dv => nth j dv 0 | None => j end.
Definition width (dv_idx : option (list nat)) (size : nat) : nat := match dv_idx with Some dv => length dv | None => size end.

Section Coo.
  Context {A : Type}.
  Variable zero : A.
  (** the entry of a block; what a sparse matrix does not list is zero *)
  Fixpoint listed (rows cols : list nat) (data : list A) (i j : nat) : option A :=
    match rows, cols, data with
    | r :: rs, c :: cs, x :: xs => if (r =? i) && (c =? j) then Some x else listed rs cs xs i j
    | _, _, _ => None
    end.
  Definition entry (b : @block A) (i j : nat) : A :=
    match b with
    | Dense m => nth j (nth i m []) zero
    | Coo rows cols data _ _ => match listed rows cols data i j with Some x => x | None => zero end
    end.
  (** a sparse matrix with one value for each position *)
  Definition well_formed (b : @block A) : Prop :=
    match b with
    | Dense _ => True
    | Coo rows cols data nrow ncol => length rows = length cols /\ length data = length cols /\ NoDup (combine rows cols) /\ Forall (fun r => r < nrow) rows /\ Forall (fun c => c < ncol) cols
    end.
  Definition shape (b : @block A) (nrow ncol : nat) : Prop :=
    match b with Dense m => length m = nrow /\ Forall (fun r => length r = ncol) m | Coo _ _ _ r c => r = nrow /\ c = ncol end.
End Coo.

Section Obj.
  Context {State Val : Type}.
  Variable set_desvar : string -> Val -> State -> res State.
  (** all design variables set to the requested values *)
  Inductive set_to (dv : list (string * Val)) : list string -> State -> State -> Prop :=
  | set_none : forall s, set_to dv [] s s
  | set_one : forall n v r s s1 s2, dget String.eqb dv n = Some v -> set_desvar n v s = Ok s1 -> set_to dv r s1 s2 -> set_to dv (n :: r) s s2.
End Obj.

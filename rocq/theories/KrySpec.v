(** What the Krylov and direct solvers should do. *)
From Verif Require Import Base LinModel LinSpec GradModel GradSpec KryModel.
Local Open Scope nat_scope.
Local Open Scope list_scope.

Section Spec.
  Context {F : Type} (F0 F1 : F) (fadd fmul fsub : F -> F -> F) (fopp : F -> F).
  Notation sys := (sys (F:=F)).
  Notation state := (state (F:=F)).
  Notation gm := (gm (F:=F)).

  (** the equations of a system: y = A x, or y = A^T x, for arrays over its positions *)
  Definition equations (fwd : bool) (s : sys) (x y : list F) : Prop :=
    length x = length (rows s) /\ length y = length (rows s) /\
    forall z w : nat -> F, map z (rows s) = x -> map w (rows s) = y -> forall k, In k (rows s) ->
      (if fwd then row_of F0 fadd fmul (sys_mat F1 fmul fopp None s) (over z (fun _ => F0)) k
       else col_of F0 fadd fmul (sys_mat F1 fmul fopp None s) z (CU k)) = w k.

  (** what a procedure may return when every product is answered according to the
      relation A, and applications of the preconditioner by anything *)
  Inductive runs (A : list F -> list F -> Prop) : gm -> list F -> Z -> Prop :=
  | runs_done : forall x info, runs A (Done x info) x info
  | runs_product : forall v k w x info, A v w -> runs A (k w) x info -> runs A (Product v k) x info
  | runs_precon : forall v k w x info, runs A (k w) x info -> runs A (Precon v k) x info.

  (** a procedure whose arrays have n entries *)
  Fixpoint sized (n : nat) (t : gm) : Prop :=
    match t with
    | Done x _ => length x = n
    | Product v k => length v = n /\ forall w, length w = n -> sized n (k w)
    | Precon v k => length v = n /\ forall w, length w = n -> sized n (k w)
    end.
  (** gmres solves what it is given, whatever the preconditioner: if it reports
      convergence the right hand side is the product *)
  Definition gmres_sound (A : list F -> list F -> Prop) (n : nat) (g : list F -> gm) : Prop :=
    forall rhs, length rhs = n -> sized n (g rhs) /\ forall x, runs A (g rhs) x 0%Z -> A x rhs.

  (** no parameter connected from outside has a value (in forward mode) *)
  Definition ready (fwd : bool) (s : sys) (st : state) : Prop := fwd = true -> forall t, In t (outside_params s) -> dp st t = F0.
  (** nothing outside the system was touched *)
  Definition only_inside (s : sys) (st st' : state) : Prop :=
    (forall k, ~ In k (rows s) -> du st' k = du st k /\ dr st' k = dr st k) /\ (forall t, ~ In t (all_params s) -> dp st' t = dp st t).
  (** a preconditioner that works on the vectors of the system only *)
  Definition harmless (fwd : bool) (s : sys) (pre : option (state -> res state)) : Prop :=
    forall f, pre = Some f -> forall st, ready fwd s st -> exists st', f st = Ok st' /\ ready fwd s st' /\ only_inside s st st'.

  (** the root's solver is ScipyGMRES, and it converges *)
  Definition krylov (p : prob (F:=F)) (s : sys) (g : list F -> gm) : Prop :=
    forall (fwd : bool) (rhs : nat -> F), exists pre st x st',
      harmless fwd s pre /\ ready fwd s st /\
      drive F0 fadd fmul fsub fwd s pre (g (map rhs (rows s))) st = Ok (x, 0%Z, st') /\
      map (p_solve p fwd None rhs) (rows s) = x.

  (** a dense matrix and a product *)
  Definition times_row (x row : list F) : F := fold_right fadd F0 (map (fun ab => fmul (fst ab) (snd ab)) (combine row x)).
  Definition lin_sound (lin : list (list F) -> list F -> res (list F)) : Prop :=
    forall M b x, lin M b = Ok x -> length x = length M /\ map (times_row x) M = b.
  Definition direct (p : prob (F:=F)) (s : sys) (lin : list (list F) -> list F -> res (list F)) : Prop :=
    forall (fwd : bool) (rhs : nat -> F), exists st x st', ready fwd s st /\
      direct_mvp F0 F1 fadd fmul fsub fwd s lin (map rhs (rows s)) st = Ok (x, st') /\ map (p_solve p fwd None rhs) (rows s) = x.
End Spec.

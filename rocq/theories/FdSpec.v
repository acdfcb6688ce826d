(** Polynomials and their formal derivatives; what a finite difference should
    return. *)
From Verif Require Import Base FdModel.
Local Open Scope nat_scope.

Section Poly.
  Context {F : Type} (F0 F1 : F) (fadd fmul fsub : F -> F -> F) (fopp : F -> F).
  Context {V : Type} (veqb : V -> V -> bool).

  Inductive pexpr : Type :=
  | PC (c : F) | PV (v : V) | PAdd (a b : pexpr) | PMul (a b : pexpr) | PNeg (a : pexpr).

  Fixpoint peval (x : V -> F) (e : pexpr) : F :=
    match e with
    | PC c => c | PV v => x v
    | PAdd a b => fadd (peval x a) (peval x b)
    | PMul a b => fmul (peval x a) (peval x b)
    | PNeg a => fopp (peval x a)
    end.

  (** partial derivative with respect to v *)
  Fixpoint pderiv (v : V) (e : pexpr) : pexpr :=
    match e with
    | PC _ => PC F0
    | PV w => PC (if veqb w v then F1 else F0)
    | PAdd a b => PAdd (pderiv v a) (pderiv v b)
    | PMul a b => PAdd (PMul (pderiv v a) b) (PMul a (pderiv v b))
    | PNeg a => PNeg (pderiv v a)
    end.

  Fixpoint pdeg (e : pexpr) : nat :=
    match e with
    | PC _ => 0 | PV _ => 1
    | PAdd a b => Nat.max (pdeg a) (pdeg b)
    | PMul a b => pdeg a + pdeg b
    | PNeg a => pdeg a
    end.

  (** evaluation in complex numbers *)
  Fixpoint pceval (x : V -> @cx F) (e : pexpr) : @cx F :=
    match e with
    | PC c => cx_of F0 c | PV v => x v
    | PAdd a b => cadd fadd (pceval x a) (pceval x b)
    | PMul a b => cmul fadd fmul fsub (pceval x a) (pceval x b)
    | PNeg a => (fopp (fst (pceval x a)), fopp (snd (pceval x a)))
    end.
End Poly.
Arguments pexpr : clear implicits.

(** the degree for which a difference formula is exact *)
Definition deg_bound (fm : form) : nat := match fm with Central => 2 | _ => 1 end.

Section PolyOut.
  Context {F : Type} (F0 : F) (fadd fmul fsub : F -> F -> F) (fopp : F -> F).

  (** outputs which are polynomials of the parameters, real and complex *)
  Definition poly_out (es : list (pexpr F nat)) (x : list F) : list F := map (peval fadd fmul fopp (fun k => nth k x F0)) es.
  Definition cpoly_out (es : list (pexpr F nat)) (z : list (@cx F)) : list (@cx F) :=
    map (pceval F0 fadd fmul fsub fopp (fun v => nth v z (F0, F0))) es.

  (** every variable of the expression is below n *)
  Fixpoint vars_below (n : nat) (ex : pexpr F nat) : Prop :=
    match ex with
    | PC _ => True | PV v => v < n
    | PAdd a b | PMul a b => vars_below n a /\ vars_below n b
    | PNeg a => vars_below n a
    end.
End PolyOut.

Section Spec.
  Context {F : Type} (F0 : F).
  Notation st := (@st F).

  Definition at_list (x : list F) : nat -> F := fun k => nth k x F0.

  (** the values of the inputs of a system, at the given places *)
  Definition inputs (ins : list (place * nat)) (s : st) : list F := map (fun p => read F0 (fst p) (snd p) s) ins.

  Definition same_shape (s s0 : st) : Prop :=
    length (s_p s) = length (s_p s0) /\ length (s_u s) = length (s_u s0) /\ length (s_r s) = length (s_r s0).

  (** [run] is a deterministic evaluation of the inputs: it keeps them, and puts
      [phi k] of them at position k of the result vector for the positions asked *)
  Record evaluates (total : bool) (run : st -> st) (ins : list (place * nat)) (asked : nat -> Prop)
      (phi : nat -> list F -> F) (s0 : st) : Prop := {
    ev_shape : forall s, same_shape s s0 -> same_shape (run s) s0;
    ev_keep : forall s w i, same_shape s s0 -> In (w, i) ins -> read F0 w i (run s) = read F0 w i s;
    ev_value : forall s k, same_shape s s0 -> asked k -> nth k (res_of total (run s)) F0 = phi k (inputs ins s) }.

  (** the inputs exist and are not among the outputs *)
  Definition in_vectors (ins : list (place * nat)) (s : st) : Prop :=
    forall w i, In (w, i) ins -> i < length (match w with InP => s_p s | InU => s_u s end).
  Definition not_inputs (total : bool) (ins : list (place * nat)) (asked : nat -> Prop) (s : st) : Prop :=
    forall k, asked k -> k < length (res_of total s) /\ (total = true -> ~ In (InU, k) ins).

  Definition asked_by (outs : list fout) : nat -> Prop :=
    fun k => exists o t, In o outs /\ In t (o_rows o) /\ k = o_start o + t.
  Definition steps_inputs (ins : list (place * nat)) (params : list (@fparam F)) : Prop :=
    forall f idx, In f params -> In idx (f_idxs f) -> In (f_where f, f_start f + idx) ins.

  (** entry (row t, column c) of the block of output [o] and parameter [f] *)
  Definition jac_entry (J : @jac F) (o f : string) (t c : nat) : option F :=
    match dget key2_eqb J (o, f) with
    | None => None
    | Some m => match nth_error m c with None => None | Some col => nth_error col t end
    end.
  (** the block has the right shape *)
  Definition jac_shape (J : @jac F) (o f : string) (rows ncols : nat) : Prop :=
    exists m, dget key2_eqb J (o, f) = Some m /\ length m = ncols /\ Forall (fun col => length col = rows) m.
End Spec.

(** which parallel process computes a column: they are numbered one after the
    other over all parameters *)
Fixpoint column_number {F} (params : list (@fparam F)) (k c : nat) : nat :=
  match params, k with
  | f :: _, O => c
  | f :: rest, S k' => length (f_idxs f) + column_number rest k' c
  | [], _ => c
  end.

(** symbolic execution of ExecComp code: the value of every variable entry as a
    polynomial of the parameter entries *)
Section Sym.
  Context {F : Type}.
  Definition pv : Type := (string * nat)%type.
  Definition pv_eqb (a b : pv) : bool := (String.eqb (fst a) (fst b) && Nat.eqb (snd a) (snd b))%bool.

  Fixpoint sym_s (env : string -> option (list (pexpr F pv))) (e : @sexpr F) : option (pexpr F pv) :=
    match e with
    | SC c => Some (PC c)
    | SV n i => match env n with Some l => nth_error l i | None => None end
    | SAdd a b => match sym_s env a, sym_s env b with Some x, Some y => Some (PAdd x y) | _, _ => None end
    | SMul a b => match sym_s env a, sym_s env b with Some x, Some y => Some (PMul x y) | _, _ => None end
    | SNeg a => match sym_s env a with Some x => Some (PNeg x) | None => None end
    end.

  (** the meaning of a name: what was assigned, else the old value of an unknown,
      else the parameter *)
  Definition sym_get (done : list (string * list (pexpr F pv))) (unknowns params : list (string * list F)) (n : string)
    : option (list (pexpr F pv)) :=
    match sget done n with
    | Some v => Some v
    | None => match sget unknowns n with
              | Some v => Some (map (fun a => PC a) v)
              | None => match sget params n with
                        | Some v => Some (map (fun i => PV (n, i)) (seq 0 (length v)))
                        | None => None
                        end
              end
    end.
  Fixpoint sym_all (unknowns params : list (string * list F)) (code : list (@assignment F))
      (done : list (string * list (pexpr F pv))) : option (list (string * list (pexpr F pv))) :=
    match code with
    | [] => Some done
    | (y, es) :: rest =>
        match all_some (map (sym_s (sym_get done unknowns params)) es) with
        | None => None
        | Some v => sym_all unknowns params rest (sset done y v)
        end
    end.
  (** polynomial of entry t of unknown u after the code *)
  Definition sym_out (unknowns params : list (string * list F)) (done : list (string * list (pexpr F pv))) (u : string) (t : nat)
    : option (pexpr F pv) :=
    match sym_get done unknowns params u with Some l => nth_error l t | None => None end.
  Definition param_env (F0 : F) (params : list (string * list F)) : pv -> F :=
    fun v => match sget params (fst v) with Some l => nth (snd v) l F0 | None => F0 end.
End Sym.

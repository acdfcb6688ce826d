(** What a user may rely on: each variable is a cell of its own. *)
From Verif Require Import Base VecModel.
Local Open Scope nat_scope.

Section Spec.
  Context {A O : Type}.

  Inductive cell : Type := CNum (a : A) | CArr (l : list A) | CObj (o : O) | CAway.
  Definition store : Type := list (string * cell).

  Definition cell_get (c : cell) : res (value A O) :=
    match c with
    | CNum a => Ok (VNum a) | CArr l => Ok (VArr l) | CObj o => Ok (VObj o) | CAway => Err RuntimeError
    end.

  (** the new contents of the cell, or the error *)
  Definition cell_set (c : cell) (v : value A O) : res cell :=
    match c, v with
    | CNum _, VNum b => Ok (CNum b)
    | CNum _, VArr [b] => Ok (CNum b)
    | CNum _, VArr _ => Err ValueError
    | CNum _, VObj _ => Err TypeError
    | CArr l, VArr l' =>
        if Nat.eqb (length l') (length l) then Ok (CArr l')
        else match l' with [b] => Ok (CArr (map (fun _ => b) l)) | _ => Err ValueError end
    | CArr _, _ => Err AttributeError
    | CObj _, VObj o => Ok (CObj o)
    | CObj _, _ => Err TypeError
    | CAway, _ => Err RuntimeError
    end.

  Definition store_get (s : store) (n : string) : res (value A O) :=
    match sget s n with Some c => cell_get c | None => Err KeyError end.
  Definition store_set (s : store) (n : string) (v : value A O) : store * res unit :=
    match sget s n with
    | None => (s, Err KeyError)
    | Some c => match cell_set c v with Ok c' => (sset s n c', Ok tt) | Err e => (s, Err e) end
    end.

  (** a well formed variable *)
  Definition good_var (m : vmeta A O) : Prop :=
    length (v_val m) = v_size m /\ (v_scalar m = true -> v_size m = 1) /\
    (v_pbo m = true -> v_remote m = false -> v_obj m <> None).

  (** the cells a list of variables asks for *)
  Definition cell_of (byobjs : bool) (zero : A) (m : vmeta A O) : cell :=
    if v_remote m then CAway
    else if v_pbo m then match v_obj m with Some o => CObj o | None => CAway end
    else let l := if byobjs then v_val m else map (fun _ => zero) (v_val m) in
         if v_scalar m then match l with a :: _ => CNum a | [] => CAway end else CArr l.
  Definition store_of (byobjs : bool) (zero : A) (rel : string -> bool) (vars : list (vmeta A O)) : store :=
    map (fun m => (v_name m, cell_of byobjs zero m)) (filter (fun m => rel (v_name m)) vars).

  (** ** histories *)

  (** one action, performed through the view reached by a chain of varmaps (each
      a list of (name in the parent, name in the view)) *)
  Definition varmap : Type := list (string * string).
  Inductive action : Type := AGet (n : string) | ASet (n : string) (v : value A O).
  Definition event : Type := (list varmap * action)%type.
  (* what the caller sees: a value, or that a set was accepted *)
  Definition outcome : Type := res (option (value A O)).

  (** the parent's name of a variable of a view *)
  Definition parent_name (vm : varmap) (n : string) : option string :=
    option_map fst (find (fun p => String.eqb (snd p) n) vm).
  (** the root name of a variable of a nested view *)
  Fixpoint root_name (chain : list varmap) (n : string) : option string :=
    match chain with
    | [] => Some n
    | vm :: inner => match root_name inner n with None => None | Some k => parent_name vm k end
    end.

  Definition spec_step (s : store) (e : event) : store * outcome :=
    match e with
    | (chain, AGet n) =>
        match root_name chain n with
        | None => (s, Err KeyError)
        | Some r => (s, match store_get s r with Ok v => Ok (Some v) | Err x => Err x end)
        end
    | (chain, ASet n v) =>
        match root_name chain n with
        | None => (s, Err KeyError)
        | Some r => let '(s', q) := store_set s r v in (s', match q with Ok _ => Ok None | Err x => Err x end)
        end
    end.
  Fixpoint spec_run (s : store) (es : list event) : store * list outcome :=
    match es with
    | [] => (s, [])
    | e :: es' => let '(s1, o) := spec_step s e in let '(s2, os) := spec_run s1 es' in (s2, o :: os)
    end.

  (** the same history on the vectors *)
  Fixpoint view_chain (w : wrapper) (chain : list varmap) : res wrapper :=
    match chain with
    | [] => Ok w
    | vm :: inner => let! v := get_view w vm in view_chain v inner
    end.
  Definition vec_step (w : wrapper) (m : memory A O) (e : event) : memory A O * outcome :=
    let '(chain, a) := e in
    match view_chain w chain with
    | Err x => (m, Err x)
    | Ok v => match a with
              | AGet n => (m, match w_get v m n with Ok x => Ok (Some x) | Err x => Err x end)
              | ASet n x => let '(m', q) := w_set v m n x in (m', match q with Ok _ => Ok None | Err e => Err e end)
              end
    end.
  Fixpoint vec_run (w : wrapper) (m : memory A O) (es : list event) : memory A O * list outcome :=
    match es with
    | [] => (m, [])
    | e :: es' => let '(m1, o) := vec_step w m e in let '(m2, os) := vec_run w m1 es' in (m2, o :: os)
    end.

  (** a chain of views which can be made and whose view names are distinct *)
  Definition good_chain (w : wrapper) (chain : list varmap) : Prop :=
    (exists v, view_chain w chain = Ok v) /\ Forall (fun vm => NoDup (map snd vm)) chain.

  (** the numbers of a value *)
  Definition numbers (v : value A O) : list A :=
    match v with VNum a => [a] | VArr l => l | VObj _ => [] end.
  (** the numbers of all variables of a wrapper, in order (objects and remote
      variables have none) *)
  Definition all_numbers (w : wrapper) (m : memory A O) : list A :=
    concat (map (fun n => match w_get w m n with Ok v => numbers v | Err _ => [] end) (map fst (w_dat w))).

  (** ranges owned by the variables *)
  Definition owns (w : wrapper) (n : string) (i : nat) : Prop :=
    exists x a b, sget (w_dat w) n = Some x /\ a_slice x = Some (a, b) /\ a <= i < b.
End Spec.
Arguments cell : clear implicits.
Arguments store : clear implicits.
Arguments action : clear implicits.
Arguments event : clear implicits.

(** nested selections of consecutive variables, as a tree of groups gives: each
    varmap names, in order, a run of the variables of the view above *)
Fixpoint tree_chain (names : list string) (chain : list (list (string * string))) : Prop :=
  match chain with
  | [] => True
  | vm :: inner =>
      (exists pre post, names = pre ++ map fst vm ++ post) /\ NoDup (map snd vm) /\ tree_chain (map snd vm) inner
  end.

(** ** step limits *)
Local Open Scope Q_scope.
(** lower bound, upper bound, value and direction of one entry of the vector *)
Definition entry4 : Type := (option Q * option Q * Q * Q)%type.

Definition within (e : entry4) (x : Q) : Prop :=
  let '(lo, up, _, _) := e in
  (forall l, lo = Some l -> l <= x) /\ (forall u, up = Some u -> x <= u).
Definition moved (e : entry4) (a : Q) : Q := let '(_, _, v, d) := e in v + a * d.

(** the value sits exactly on a bound and the direction is not zero there *)
Definition on_bound (e : entry4) : Prop :=
  let '(lo, up, v, d) := e in
  ~ d == 0 /\ ((exists l, lo = Some l /\ l == v) \/ (exists u, up = Some u /\ u == v)).
(** ... and the direction points back inside *)
Definition leaving_bound (e : entry4) : Prop :=
  let '(lo, up, v, d) := e in
  (exists l, lo = Some l /\ l == v /\ 0 < d) \/ (exists u, up = Some u /\ u == v /\ d < 0).

(** [a] is the largest step in [0, a0] which respects the bounds *)
Definition largest_step (e : entry4) (a0 a : Q) : Prop :=
  0 <= a <= a0 /\ within e (moved e a) /\ (forall b, 0 <= b <= a0 -> within e (moved e b) -> b <= a).

Definition opt_at (o : option (list Q)) (j : nat) : option Q :=
  match o with None => None | Some l => nth_error l j end.

(** entry [j] of a variable *)
Definition dentry (x : dvar) (j : nat) (e : entry4) : Prop :=
  exists v d, nth_error (d_val x) j = Some v /\ nth_error (d_du x) j = Some d /\
              e = (opt_at (d_lower x) j, opt_at (d_upper x) j, v, d).

(** shapes agree *)
Definition good_dvar (x : dvar) : Prop :=
  length (d_du x) = length (d_val x) /\
  (forall u, d_upper x = Some u -> length u = length (d_val x)) /\
  (forall l, d_lower x = Some l -> length l = length (d_val x)).

(** entry [j] of variable [k] is entry [i] of the vector *)
Definition vec_index (vars : list dvar) (k j : nat) : nat :=
  (list_sum (map (fun x => length (d_val x)) (firstn k vars)) + j)%nat.

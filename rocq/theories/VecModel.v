(** Model of openmdao/core/vec_wrapper.py: SrcVecWrapper.setup, the accessors,
    VecWrapper.get_view and SrcVecWrapper.distance_along_vector_to_limit.

    Simplifications: one process; no complex step (the imaginary vector has the
    same layout); no unit conversion (never present in a source vector); arrays
    are flat lists except where the number of dimensions matters. *)
From Verif Require Import Base.

Local Open Scope nat_scope.
Section Vec.
  Context {A O : Type}.     (* numbers, pass_by_obj objects *)

  (** metadata of one variable; [v_val] is the flat initial value *)
  Record vmeta : Type := mkVar {
    v_name : string; v_size : nat; v_scalar : bool; v_pbo : bool; v_remote : bool;
    v_val : list A; v_obj : option O }.

  (** where the value of an accessor lives: a range of the root vector (a numpy
      view), a shared _ByObjWrapper, or nowhere (remote) *)
  Inductive loc : Type := LVec (start stop : nat) | LCell (id : string) | LRemote.

  (** Accessor, vec_wrapper.py 32-91: slice relative to its own vector *)
  Record acc : Type := mkAcc { a_slice : option (nat * nat); a_loc : loc; a_scalar : bool; a_size : nat }.

  (** a VecWrapper: its vec is the range [w_base, w_base + w_size) of the root
      vector *)
  Record wrapper : Type := mkW { w_base : nat; w_size : nat; w_dat : list (string * acc) }.

  (** the storage: the root vector and the by-object cells *)
  Record memory : Type := mkMem { m_vec : list A; m_objs : list (string * O) }.

  (** first loop of SrcVecWrapper.setup, vec_wrapper.py 812-827; [rel] is
      relevance.is_relevant for the variable of interest *)
  Fixpoint lay_out (rel : string -> bool) (vec_size : nat) (vars : list vmeta) : list (string * acc) * nat :=
    match vars with
    | [] => ([], vec_size)
    | m :: rest =>
        if rel (v_name m) then
          if (negb (v_pbo m) && negb (v_remote m))%bool
          then let '(d, n) := lay_out rel (vec_size + v_size m) rest in
               ((v_name m, mkAcc (Some (vec_size, vec_size + v_size m))
                             (LVec vec_size (vec_size + v_size m)) (v_scalar m) (v_size m)) :: d, n)
          else let '(d, n) := lay_out rel vec_size rest in
               ((v_name m, mkAcc None (if v_remote m then LRemote else LCell (v_name m)) (v_scalar m) (v_size m)) :: d, n)
        else lay_out rel vec_size rest
    end.

  (** second loop, 838-856: initial values of the unknowns vector *)
  Fixpoint init_vec (rel : string -> bool) (vars : list vmeta) : list A :=
    match vars with
    | [] => []
    | m :: rest => if (rel (v_name m) && (negb (v_pbo m) && negb (v_remote m)))%bool
                   then v_val m ++ init_vec rel rest else init_vec rel rest
    end.
  (** the _ByObjWrapper objects made by the Accessor constructor, 66-91 *)
  Fixpoint init_objs (rel : string -> bool) (vars : list vmeta) : list (string * O) :=
    match vars with
    | [] => []
    | m :: rest => match v_obj m with
                   | Some o => if (rel (v_name m) && (v_pbo m && negb (v_remote m)))%bool
                               then (v_name m, o) :: init_objs rel rest else init_objs rel rest
                   | None => init_objs rel rest
                   end
    end.

  (** SrcVecWrapper.setup, 773-856; [byobjs] is store_byobjs (the unknowns
      vector), other vectors start at zero *)
  Definition setup (zero : A) (rel : string -> bool) (byobjs : bool) (vars : list vmeta) : wrapper * memory :=
    let '(d, n) := lay_out rel 0 vars in
    (mkW 0 n d, mkMem (if byobjs then init_vec rel vars else repeat zero n) (init_objs rel vars)).

  Inductive value : Type := VNum (a : A) | VArr (l : list A) | VObj (o : O).

  Definition sub (l : list A) (a b : nat) : list A := firstn (b - a) (skipn a l).

  (** v[a:b] = xs *)
  Definition splice (l : list A) (a b : nat) (xs : list A) : list A := firstn a l ++ xs ++ skipn b l.

  (** _get_scalar, _get_arr, _get_pbo, _remote_access_error: 203-240, 326 *)
  Definition acc_get (x : acc) (m : memory) : res value :=
    match a_loc x with
    | LRemote => Err RuntimeError
    | LCell id => match sget (m_objs m) id with Some o => Ok (VObj o) | None => Err KeyError end
    | LVec a b =>
        if a_scalar x then match sub (m_vec m) a b with c :: _ => Ok (VNum c) | [] => Err IndexError end
        else Ok (VArr (sub (m_vec m) a b))
    end.

  (** _set_scalar, _set_arr, _set_pbo: 299-324.  A number has no .flat; an array
      is flattened, and must have the right number of entries or just one. *)
  Definition acc_set (x : acc) (m : memory) (v : value) : memory * res unit :=
    match a_loc x with
    | LRemote => (m, Err RuntimeError)
    | LCell id => match v with
                  | VObj o => (mkMem (m_vec m) (sset (m_objs m) id o), Ok tt)
                  | _ => (m, Err TypeError)   (* objects of the model are not numbers *)
                  end
    | LVec a b =>
        if a_scalar x then
          match v with
          | VNum c | VArr [c] => (mkMem (splice (m_vec m) a (a + 1) [c]) (m_objs m), Ok tt)
          | VArr _ => (m, Err ValueError)
          | VObj _ => (m, Err TypeError)
          end
        else
          match v with
          | VArr l => if Nat.eqb (length l) (b - a) then (mkMem (splice (m_vec m) a b l) (m_objs m), Ok tt)
                      else match l with
                           | [c] => (mkMem (splice (m_vec m) a b (repeat c (b - a))) (m_objs m), Ok tt)
                           | _ => (m, Err ValueError)
                           end
          | VNum _ | VObj _ => (m, Err AttributeError)
          end
    end.

  (** __getitem__, __setitem__: 408-435 *)
  Definition w_get (w : wrapper) (m : memory) (n : string) : res value :=
    match sget (w_dat w) n with None => Err KeyError | Some x => acc_get x m end.
  Definition w_set (w : wrapper) (m : memory) (n : string) (v : value) : memory * res unit :=
    match sget (w_dat w) n with None => (m, Err KeyError) | Some x => acc_set x m v end.

  (** get_view, 580-651.  [range] is (start, end) once the first variable has
      been found. *)
  Fixpoint view_loop (w : wrapper) (varmap : list (string * string)) (range : option (nat * nat))
      (view_size : nat) (dat : list (string * acc)) : res (option (nat * nat) * nat * list (string * acc)) :=
    match varmap with
    | [] => Ok (range, view_size, dat)
    | (name, pname) :: rest =>
        match sget (w_dat w) name with
        | None => view_loop w rest range view_size dat
        | Some x =>
            match a_slice x with
            | None => (* pass_by_obj or remote *)
                view_loop w rest range view_size (sset dat pname (mkAcc None (a_loc x) (a_scalar x) (a_size x)))
            | Some (pstart, pend) =>
                let x' := mkAcc (Some (view_size, view_size + a_size x)) (a_loc x) (a_scalar x) (a_size x) in
                match range with
                | None => view_loop w rest (Some (pstart, pend)) (view_size + a_size x) (sset dat pname x')
                | Some (start, stop) =>
                    if Nat.eqb pstart stop
                    then view_loop w rest (Some (start, pend)) (view_size + a_size x) (sset dat pname x')
                    else Err AssertionError
                end
            end
        end
    end.

  Definition get_view (w : wrapper) (varmap : list (string * string)) : res wrapper :=
    let! (r, n, dat) := view_loop w varmap None 0 [] in
    match r with
    | None => Ok (mkW (w_base w) 0 dat)
    | Some (start, stop) => Ok (mkW (w_base w + start) (stop - start) dat)
    end.

  (** view.vec as seen from the root vector *)
  Definition w_vec (w : wrapper) (m : memory) : list A := sub (m_vec m) (w_base w) (w_base w + w_size w).
  (** view.vec[:] = xs *)
  Definition w_vec_set (w : wrapper) (m : memory) (xs : list A) : memory :=
    mkMem (splice (m_vec m) (w_base w) (w_base w + w_size w) xs) (m_objs m).
End Vec.
Arguments vmeta : clear implicits.
Arguments memory : clear implicits.
Arguments value : clear implicits.

(** ** distance_along_vector_to_limit, vec_wrapper.py 871-968 *)
Local Open Scope Q_scope.

(** numpy division with warnings off: the quotient, infinities, nan *)
Inductive fl : Type := Fin (q : Q) | PInf | MInf | NaN.
Definition fdiv (x y : Q) : fl :=
  if Qeq_bool y 0 then
    if Qeq_bool x 0 then NaN else if Qle_bool 0 x then PInf else MInf
  else Fin (x / y).

Definition f_ge0 (f : fl) : bool :=
  match f with Fin q => Qle_bool 0 q | PInf => true | _ => false end.
Definition f_lt (f g : fl) : bool :=
  match f, g with
  | NaN, _ | _, NaN => false
  | Fin a, Fin b => negb (Qle_bool b a)
  | Fin _, PInf | MInf, Fin _ | MInf, PInf => true
  | _, _ => false
  end.

(** one entry, upper bound: 906-917 and 925-930 *)
Definition limit_upper (upper val du : Q) (alpha : fl) : fl :=
  let diff := upper - val in
  let bound := fdiv diff du in
  if negb (Qle_bool 0 diff) then bound                 (* diff < 0.0 *)
  else if f_ge0 bound then (if f_lt bound alpha then bound else alpha) else alpha.

(** one entry, lower bound: 936-947 and 955-960 *)
Definition limit_lower (lower val du : Q) (alpha : fl) : fl :=
  let diff := lower - val in
  let bound := fdiv diff du in
  if negb (Qle_bool diff 0) then bound                 (* diff > 0.0 *)
  else if f_ge0 bound then (if f_lt bound alpha then bound else alpha) else alpha.

(** One variable of the vector: key flags of its metadata, number of dimensions,
    and per entry value, direction and bounds (scalar bounds are broadcast). *)
Record dvar : Type := mkD {
  d_remote_key : bool; d_pbo_key : bool;      (* 'remote' in meta, 'pass_by_obj' in meta *)
  d_ndim : nat;                               (* 0: scalar *)
  d_upper : option (list Q); d_lower : option (list Q);
  d_val : list Q; d_du : list Q }.

Fixpoint limit_list (f : Q -> Q -> Q -> fl -> fl) (bs vs ds : list Q) (alphas : list fl) : list fl :=
  match bs, vs, ds, alphas with
  | b :: bs', v :: vs', d :: ds', a :: al' => f b v d a :: limit_list f bs' vs' ds' al'
  | _, _, _, _ => alphas
  end.

(** the loop over a variable; the truth value of a row of a two dimensional
    array raises ValueError *)
Definition limit_var (x : dvar) (alphas : list fl) : res (list fl) :=
  if (d_remote_key x || d_pbo_key x)%bool then Ok alphas
  else
    let! a1 := match d_upper x with
               | None => Ok alphas
               | Some u => if Nat.leb 2 (d_ndim x) then Err ValueError
                           else Ok (limit_list limit_upper u (d_val x) (d_du x) alphas)
               end in
    match d_lower x with
    | None => Ok a1
    | Some l => if Nat.leb 2 (d_ndim x) then Err ValueError
                else Ok (limit_list limit_lower l (d_val x) (d_du x) a1)
    end.

(** the loop over the variables; [idx], the start of the variable's slice, moves
    along the alpha vector *)
Fixpoint limit_all (vars : list dvar) (alphas : list fl) : res (list fl) :=
  match vars with
  | [] => Ok alphas
  | x :: rest =>
      let n := length (d_val x) in
      let! mine := limit_var x (firstn n alphas) in
      let! others := limit_all rest (skipn n alphas) in
      Ok (mine ++ others)
  end.

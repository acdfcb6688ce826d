(** Model of the accessors with complex support: openmdao/core/vec_wrapper.py Accessor.__init__
    (27-91), _setup_get_funct (110-182), _setup_set_funct (184-201) and the functions that they
    choose for local numbers (205-326).
    The vectors vec and imag_vec are lists over a commutative ring, a variable is a slice of
    them.  Variables passed by object and remote ones are left out, as are values that numpy
    would have to cast from complex to real.  in_complex_step is part of the state. *)
From Coq Require Import Ring.
From Verif Require Import Base.
Local Open Scope list_scope.
Local Open Scope nat_scope.

(** metadata['shape']: 1, another integer or a tuple *)
Inductive shape := Int (n : nat) | Dims (d : list nat).
Definition size (d : list nat) : nat := fold_right Nat.mul 1 d.
(** an unflattened value *)
Inductive value (A : Type) := Scal (a : A) | Arr (d : list nat) (l : list A).
Arguments Scal {A}. Arguments Arr {A}.
Definition slice {A} (l : list A) (lo n : nat) : list A := firstn n (skipn lo l).
Definition update {A} (l : list A) (lo : nat) (x : list A) : list A := firstn lo l ++ x ++ skipn (lo + length x) l.

Section Access.
  Context {R : Type} (rO rI : R) (radd rmul rsub : R -> R -> R) (ropp : R -> R).
  Notation cpx := (R * R)%type.
  Definition of_real (x : R) : cpx := (x, rO).
  Definition cadd (a b : cpx) : cpx := (radd (fst a) (fst b), radd (snd a) (snd b)).
  Definition cmul (a b : cpx) : cpx := (rsub (rmul (fst a) (fst b)) (rmul (snd a) (snd b)), radd (rmul (fst a) (snd b)) (rmul (snd a) (fst b))).
  Definition j : cpx := (rO, rI).
  Record acc := mkAcc { a_lo : nat; a_size : nat; a_shape : shape; a_conv : option (R * R); a_deriv : bool }.
  Record state := mkS { s_vec : list R; s_imag : list R; s_complex : bool }.
  (** what a getter gives: an array of reals, of complex numbers *)
  Inductive got := Real (v : value R) | Complex (v : value cpx) | Raised (e : pyerr).
  Definition is_scalar (s : shape) : bool := match s with Int 1 => true | _ => false end.
  (** shape == val.size or shape == (val.size,) *)
  Definition shapes_same (a : acc) : bool :=
    match a_shape a with Int n => n =? a_size a | Dims [n] => n =? a_size a | Dims _ => false end.
  (** val[0] and reshape *)
  Definition item {A} (l : list A) : option A := hd_error l.
  Definition dims (s : shape) : list nat := match s with Int n => [n] | Dims d => d end.
  Definition shaped {A} (a : acc) (mk : value A -> got) (l : list A) : got :=
    if is_scalar (a_shape a) then match item l with Some x => mk (Scal x) | None => Raised IndexError end
    else if shapes_same a then mk (Arr [length l] l)
    else if size (dims (a_shape a)) =? length l then mk (Arr (dims (a_shape a)) l) else Raised ValueError.
  (** vec = val + offset; vec *= scale; for a scalar scale*(val + offset) *)
  Definition conv_real (a : acc) (x : R) : R :=
    match a_conv a with
    | Some (scale, offset) => if a_deriv a then x else rmul (radd x offset) scale
    | None => x
    end.
  Definition conv_cpx (a : acc) (z : cpx) : cpx :=
    match a_conv a with
    | Some (scale, offset) => if a_deriv a then z else cmul (cadd z (of_real offset)) (of_real scale)
    | None => z
    end.
  Definition real_part (a : acc) (s : state) : list R := slice (s_vec s) (a_lo a) (a_size a).
  (** val + imag_val*1j *)
  Definition both_parts (a : acc) (s : state) : list cpx :=
    map (fun p => cadd (of_real (fst p)) (cmul (of_real (snd p)) j)) (combine (real_part a s) (slice (s_imag s) (a_lo a) (a_size a))).
  (** the getters without and with complex support *)
  Definition get (a : acc) (s : state) : got := shaped a Real (map (conv_real a) (real_part a s)).
  Definition get_complex (a : acc) (s : state) : got :=
    if s_complex s then shaped a Complex (map (conv_cpx a) (both_parts a s)) else get a s.
  (** the result of a getter is the slice itself, not a copy: _get_arr and _get_arr_diff_shape *)
  Definition is_view (a : acc) (s : state) : bool :=
    negb (is_scalar (a_shape a)) && negb (s_complex s) && (match a_conv a with None => true | Some _ => a_deriv a end).
  (** vec[name].flat[i] = x *)
  Definition poke (a : acc) (s : state) (i : nat) (x : R) : state :=
    if is_view a s then mkS (update (s_vec s) (a_lo a + i) [x]) (s_imag s) (s_complex s) else s.

  (** val[:] = l, with broadcasting of one entry *)
  Definition fill {A} (n : nat) (l : list A) : res (list A) :=
    match l with
    | [x] => Ok (repeat x n)
    | _ => if length l =? n then Ok l else Err ValueError
    end.
  Definition set_real (a : acc) (s : state) (v : value R) : res state :=
    match v, is_scalar (a_shape a) with
    | Scal x, true => Ok (mkS (update (s_vec s) (a_lo a) [x]) (s_imag s) (s_complex s))
    | Arr _ l, false => let! l := fill (a_size a) l in Ok (mkS (update (s_vec s) (a_lo a) l) (s_imag s) (s_complex s))
    | Scal _, false => Err AttributeError
    | Arr _ _, true => Err ValueError
    end.
  (** in a complex step *)
  Definition set_complex (a : acc) (s : state) (v : value cpx) : res state :=
    match v, is_scalar (a_shape a) with
    | Scal z, true => Ok (mkS (update (s_vec s) (a_lo a) [fst z]) (update (s_imag s) (a_lo a) [snd z]) (s_complex s))
    | Arr _ l, false =>
        let! re := fill (a_size a) (map fst l) in
        let! im := fill (a_size a) (map snd l) in
        Ok (mkS (update (s_vec s) (a_lo a) re) (update (s_imag s) (a_lo a) im) (s_complex s))
    | Scal _, false => Err AttributeError
    | Arr _ _, true => Err ValueError
    end.
End Access.

(** Model of Group.assemble_jacobian, openmdao/core/group.py lines 980-1088, both for
    method 'assemble' and for method 'MVP', on the systems of LinModel.
    The array partials is a map from two positions of du to a number (the array of a
    group is the window of the group's own positions).  sub.pathname, the dictionary
    to_prom_name, the slices of u_vec and the connections (whose source indices the code
    does not look at) are given by name. *)
From Verif Require Import Base LinModel.
Local Open Scope string_scope.
Local Open Scope nat_scope.
Local Open Scope list_scope.

(** self._sysdata.to_prom_name (absolute name, promoted name), u_vec._dat[..].slice
    (promoted name, (start, end)) and self.connections (absolute parameter, absolute
    source): the latter are the connections of the whole problem, group.py line 432 *)
Record naming : Type := mkN {
  n_prom : list (string * string); n_slice : list (string * (nat * nat)); n_conn : list (string * string) }.

(** '.'.join((sub_name, var)) *)
Definition abs_name (path v : string) : string := (path ++ "." ++ v)%string.

(** (o_start, o_end, i_start, i_end) *)
Definition span : Type := (nat * nat * nat * nat)%type.

(** lines 1056-1077; None: continue.  sts: sub.states *)
Definition locate (nm : naming) (path : string) (sts : list string) (o i : string) : res (option span) :=
  match dget String.eqb (n_prom nm) (abs_name path i), dget String.eqb (n_prom nm) (abs_name path o) with
  | Some ipro, Some opro =>
      let! src := (if existsb (String.eqb i) sts then Ok (Some ipro)
                   else match dget String.eqb (n_slice nm) ipro with
                        | Some _ => Ok (Some ipro)
                        | None => match dget String.eqb (n_conn nm) (abs_name path i) with
                                  | None => Ok None
                                  | Some s => match dget String.eqb (n_prom nm) s with
                                              | Some p => Ok (Some p)
                                              | None => Err KeyError
                                              end
                                  end
                        end) in
      match src with
      | None => Ok None
      | Some ip =>
          match dget String.eqb (n_slice nm) opro, dget String.eqb (n_slice nm) ip with
          | Some (os, oe), Some (is, ie) => Ok (Some (os, oe, is, ie))
          | _, _ => Err KeyError
          end
      end
  | _, _ => Err KeyError
  end.

(** self._icache, keyed by (sub_name, (o_var, i_var)) *)
Definition key2 : Type := (string * (string * string))%type.
Definition key2_eqb (a b : key2) : bool :=
  (String.eqb (fst a) (fst b) && (String.eqb (fst (snd a)) (fst (snd b)) && String.eqb (snd (snd a)) (snd (snd b))))%bool.
Definition icache : Type := list (key2 * span).

(** lines 1054-1080 *)
Definition find_span (nm : naming) (path : string) (sts : list string) (o i : string) (ca : icache)
    : res (option span * icache) :=
  match dget key2_eqb ca (path, (o, i)) with
  | Some sp => Ok (Some sp, ca)
  | None => let! l := locate nm path sts o i in
            match l with
            | None => Ok (None, ca)
            | Some sp => Ok (Some sp, dset key2_eqb ca (path, (o, i)) sp)
            end
  end.

Section Assemble.
  Context {F : Type} (F0 F1 : F) (fadd fmul fsub : F -> F -> F) (fopp : F -> F).

  Definition table : Type := nat -> nat -> F.

  (** -np.eye(n_edge) *)
  Definition minus_eye : table := fun i j => if i =? j then fopp F1 else F0.

  (** partials[rs:re, cs:ce] = J, with numpy's broadcasting of single rows and columns *)
  Definition fill (rs re cs ce : nat) (J : mat (F:=F)) (m : table) : res table :=
    let nr := re - rs in let nc := ce - cs in
    if ((m_rows J =? nr) || (m_rows J =? 1)) && ((m_cols J =? nc) || (m_cols J =? 1)) then
      Ok (fun i j => if inr rs nr i && inr cs nc j
                     then m_at J (if m_rows J =? 1 then 0 else i - rs) (if m_cols J =? 1 then 0 else j - cs)
                     else m i j)
    else Err ValueError.

  (** J.T *)
  Definition transp (J : mat (F:=F)) : mat (F:=F) := mkM (m_cols J) (m_rows J) (fun i j => m_at J j i).

  Definition states_of (c : comp (F:=F)) : list string := map u_name (filter u_state (c_unks c)).

  (** one key, lines 1050-1085 *)
  Definition put_key (fwd : bool) (nm : naming) (path : string) (sts : list string)
      (key : string * string * mat (F:=F)) (st : table * icache) : res (table * icache) :=
    let '(o, i, J) := key in
    let! f := find_span nm path sts o i (snd st) in
    match fst f with
    | None => Ok (fst st, snd f)
    | Some (os, oe, is, ie) =>
        let! m := (if fwd then fill os oe is ie J (fst st) else fill is ie os oe (transp J) (fst st)) in
        Ok (m, snd f)
    end.

  Fixpoint put_keys (fwd : bool) (nm : naming) (path : string) (sts : list string)
      (l : list (string * string * mat (F:=F))) (st : table * icache) : res (table * icache) :=
    match l with
    | [] => Ok st
    | key :: l' => let! st := put_key fwd nm path sts key st in put_keys fwd nm path sts l' st
    end.

  (** the loop over self.components(recurse=True), lines 1035-1085; a component whose
      linearize returned None is refused *)
  Fixpoint put_comps (fwd : bool) (nm : naming) (subs : list (string * comp (F:=F))) (st : table * icache)
      : res (table * icache) :=
    match subs with
    | [] => Ok st
    | (path, c) :: subs' =>
        match c_jac c with
        | None => Err RuntimeError
        | Some l => let! st := put_keys fwd nm path (states_of c) l st in put_comps fwd nm subs' st
        end
    end.

  (** assemble_jacobian(mode, method='assemble') *)
  Definition assemble (fwd : bool) (nm : naming) (subs : list (string * comp (F:=F))) (ca : icache)
      : res (table * icache) := put_comps fwd nm subs (minus_eye, ca).

  (** a column of np.eye(n_edge) *)
  Definition unit_vec (j : nat) : nat -> F := fun i => if i =? j then F1 else F0.

  (** assemble_jacobian(mode, method='MVP', mult=DirectSolver.mult): lines 1019-1027.  The
      product changes the vectors of the system. *)
  Fixpoint mvp_cols (fwd : bool) (s : sys (F:=F)) (cells : list nat) (m : table) (st : state (F:=F))
      : res (table * state (F:=F)) :=
    match cells with
    | [] => Ok (m, st)
    | j :: cells' =>
        let! r := mult F0 fadd fmul fsub fwd s (unit_vec j) st in
        mvp_cols fwd s cells' (fun a b => if b =? j then fst r a else m a b) (snd r)
    end.
  Definition assemble_mvp (fwd : bool) (s : sys (F:=F)) (st : state (F:=F)) : res (table * state (F:=F)) :=
    mvp_cols fwd s (rows s) (fun _ _ => F0) st.
End Assemble.

(** Model of the training of openmdao/components/meta_model.py (MetaModel._train lines
    283-367, _params_to_inputs 218-244, solve_nonlinear 188-216, linearize 246-281).
    Floats are exact rationals.  A value in the training data is a float, another number
    (an int, or a numpy float that is not a Python float), or an array given by its
    flattened entries.  Matrices are lists of rows.  The surrogates are not modelled: what
    they are given to train on is returned. *)
From Verif Require Import Base.
Local Open Scope string_scope.
Local Open Scope nat_scope.
Local Open Scope list_scope.

Inductive tval : Type := VFloat (q : Q) | VNum (q : Q) | VArr (a : list Q).
(** np.array(v).flat *)
Definition flat (v : tval) : list Q := match v with VFloat q => [q] | VNum q => [q] | VArr a => a end.
Definition is_float (v : tval) : bool := match v with VFloat _ => true | _ => false end.

(** row[off:off+len] = v *)
Definition splice (row : list Q) (off len : nat) (v : list Q) : res (list Q) :=
  let len' := Nat.min len (length row - off) in
  if length v =? len' then Ok (firstn off row ++ v ++ skipn (off + len') row)
  else match v with
       | [q] => Ok (firstn off row ++ repeat q len' ++ skipn (off + len') row)
       | _ => Err ValueError
       end.
(** the outcome of a statement that changes rows in place: the rows, and the exception *)
Definition outcome (A : Type) : Type := (A * option pyerr)%type.

(** M[:, idx] = val, lines 328 and 356: the conversion of val to an array fails if it has a sequence
    in it; nothing is written then *)
Fixpoint scalars (val : list tval) : option (list Q) :=
  match val with
  | [] => Some []
  | VArr _ :: _ => None
  | v :: r => match scalars r with Some l => Some (flat v ++ l) | None => None end
  end.
Fixpoint set_col (idx : nat) (qs : list Q) (M : list (list Q)) : list (list Q) :=
  match qs, M with
  | q :: qs', r :: M' => (firstn idx r ++ [q] ++ skipn (S idx) r) :: set_col idx qs' M'
  | _, _ => M
  end.
Definition put_col (width idx : nat) (val : list tval) (M : list (list Q)) : outcome (list (list Q)) :=
  if width <=? idx then (M, Some IndexError)
  else match scalars val with None => (M, Some ValueError) | Some qs => (set_col idx qs M, None) end.
(** for row_idx, v in enumerate(val): M[row_idx, idx:idx+sz] = v.flat, lines 331-334, 358-361 *)
Fixpoint put_rows (idx sz : nat) (val : list tval) (M : list (list Q)) : outcome (list (list Q)) :=
  match val, M with
  | v :: val', r :: M' =>
      match splice r idx sz (flat v) with
      | Ok r' => let (M'', e) := put_rows idx sz val' M' in (r' :: M'', e)
      | Err e => (M, Some e)
      end
  | _ :: _, [] => ([], Some IndexError)
  | [], _ => (M, None)
  end.
Definition first_float (val : list tval) : bool := match val with v :: _ => is_float v | [] => false end.

(** lines 322-334: the loop over the parameters; [idx] is advanced only for floats *)
Fixpoint fill (width : nat) (params : list (string * nat)) (data : string -> list tval) (idx : nat) (M : list (list Q)) : outcome (list (list Q)) :=
  match params with
  | [] => (M, None)
  | (name, sz) :: r =>
      let val := data name in
      let (M', e) := if first_float val then put_col width idx val M else put_rows idx sz val M in
      match e with
      | Some e => (M', Some e)
      | None => fill width r data (if first_float val then idx + 1 else idx) M'
      end
  end.

Record state : Type := mkMeta { m_params : list (string * nat); m_outputs : list (string * nat); m_warm : bool; m_train : bool;
                                m_in : list (list Q); m_out : list (string * list (list Q)) }.
Definition width_of (params : list (string * nat)) : nat := list_sum (map snd params).
Definition zeros (n k : nat) : list (list Q) := repeat (repeat 0%Q k) n.
(** old[:n, :] = rows, lines 313 and 345: the number of rows must agree, or be one *)
Definition copy_old (n : nat) (old : list (list Q)) : res (list (list Q)) :=
  if length old =? n then Ok old else match old with [r] => Ok (repeat r n) | _ => Err ValueError end.
Definition out_of (st : state) (name : string) : list (list Q) := match dget String.eqb (m_out st) name with Some M => M | None => [] end.

(** lines 336-361, for one output of [sz] entries (np.prod of its shape): the rows it is
    trained on, or the exception; [old] is num_old_pts *)
Definition train_output (st : state) (data : string -> list tval) (n old : nat) (name : string) (sz : nat) : outcome (list (list Q)) :=
  if n =? 0 then (out_of st name, None)
  else
    let kept := if m_warm st then (if 0 <? old then copy_old old (out_of st name) else Ok []) else Ok [] in
    match kept with
    | Err e => (out_of st name, Some e)
    | Ok kept =>
        let val := data name in
        let (M, e) := if first_float val then put_col sz 0 val (zeros n sz) else put_rows 0 sz val (zeros n sz) in
        (kept ++ M, e)
    end.
(** the call surrogate.train(x, y) for an output, line 365 *)
Definition training : Type := (string * (list (list Q) * list (list Q)))%type.
Fixpoint train_outputs (st : state) (data : string -> list tval) (n old : nat) (outs : list (string * nat)) : state * (list training * option pyerr) :=
  match outs with
  | [] => (st, ([], None))
  | (name, sz) :: r =>
      let (M, e) := train_output st data n old name sz in
      let st' := mkMeta (m_params st) (m_outputs st) (m_warm st) (m_train st) (m_in st) (sset (m_out st) name M) in
      match e with
      | Some e => (st', ([], Some e))
      | None => let (st'', te) := train_outputs st' data n old r in (st'', ((name, (m_in st, M)) :: fst te, snd te))
      end
  end.
(** _train, lines 283-367 *)
Definition train (st : state) (data : string -> list tval) : state * (list training * option pyerr) :=
  match m_params st with
  | [] => (st, ([], Some TypeError))
  | (p0, _) :: _ =>
      let n := length (data p0) in
      if negb (forallb (fun p => length (data (fst p)) =? n) (m_params st ++ m_outputs st)) then (st, ([], Some RuntimeError))
      else
        let old := if m_warm st then length (m_in st) else 0 in
        let (M, e) := if n =? 0 then (zeros n (width_of (m_params st)), None) else fill (width_of (m_params st)) (m_params st) data 0 (zeros n (width_of (m_params st))) in
        let st1 := mkMeta (m_params st) (m_outputs st) (m_warm st) (m_train st) ((if m_warm st then m_in st else []) ++ M) (m_out st) in
        match e with
        | Some e => (st1, ([], Some e))
        | None =>
            let (st2, te) := train_outputs st1 data n old (m_outputs st) in
            (match snd te with None => mkMeta (m_params st2) (m_outputs st2) (m_warm st2) false (m_in st2) (m_out st2) | Some _ => st2 end, te)
        end
  end.
(** solve_nonlinear, lines 203-205: training on demand only *)
Definition demand (st : state) (data : string -> list tval) : state * (list training * option pyerr) :=
  if m_train st then train st data else (st, ([], None)).

(** _params_to_inputs, lines 218-244, on an array of zeros: an array takes sz places, a
    number one *)
Fixpoint to_inputs (params : list (string * nat)) (value : string -> tval) (idx : nat) (row : list Q) : res (list Q) :=
  match params with
  | [] => Ok row
  | (name, sz) :: r =>
      match value name with
      | VArr a => let! row' := splice row idx sz a in to_inputs r value (idx + sz) row'
      | v => if length row <=? idx then Err IndexError else to_inputs r value (idx + 1) (firstn idx row ++ flat v ++ skipn (S idx) row)
      end
  end.
Definition params_to_inputs (st : state) (value : string -> tval) : res (list Q) := to_inputs (m_params st) value 0 (repeat 0%Q (width_of (m_params st))).
(** linearize, lines 268-281: jac[(uname, pname)] = sjac[:, idx:idx+sz] *)
Fixpoint jac_parts (params : list (string * nat)) (idx : nat) (sjac : list (list Q)) : list (string * list (list Q)) :=
  match params with
  | [] => []
  | (name, sz) :: r => (name, map (fun row => firstn sz (skipn idx row)) sjac) :: jac_parts r (idx + sz) sjac
  end.

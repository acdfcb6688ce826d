(** Training of a metamodel with several fidelities: openmdao/components/multifi_meta_model.py
    (_get_name_fi 7-11, __init__ 87-94, add_param and add_output 96-118, _train 120-221), on
    the data, matrices and writes of MetaModel.v.  The training data are a dictionary from
    names (without 'train:') to lists of values; level 0 is the highest fidelity.  As there, a
    surrogate is the matrices it is given; every output has one.  Not modelled: numpy fills
    rows with nan when the old rows of an output are None; the model raises instead (this needs
    a failed training of a level that had no points in the one before). *)
From Coq Require Import DecimalString.
From Verif Require Import Base MetaModel.
Local Open Scope string_scope.
Local Open Scope nat_scope.
Local Open Scope list_scope.

Definition show (n : nat) : string := NilEmpty.string_of_uint (Nat.to_uint n).
(** _get_name_fi *)
Definition level_name (name : string) (fi : nat) : string := match fi with 0 => name | S _ => (name ++ "_fi" ++ show (S fi))%string end.
Definition dict : Type := string -> option (list tval).
(** the variables add_param and add_output create for training *)
Definition registered (nfi : nat) (names : list string) : list string := flat_map (fun n => map (level_name n) (seq 0 nfi)) names.

(** 131-143: one parameter; [name] is assigned again in the loop over the levels *)
Fixpoint count_param (data : dict) (name : string) (fi : nat) (ns : list (option nat)) : res (list (option nat)) :=
  match ns with
  | [] => Ok []
  | n :: r =>
      let name' := level_name name fi in
      match data name' with
      | None => Err KeyError
      | Some val =>
          match n with
          | Some k => if length val =? k then let! r' := count_param data name' (S fi) r in Ok (Some k :: r') else Err RuntimeError
          | None => let! r' := count_param data name' (S fi) r in Ok (Some (length val) :: r')
          end
      end
  end.
Fixpoint count_params (data : dict) (ps : list (string * nat)) (ns : list (option nat)) : res (list (option nat)) :=
  match ps with [] => Ok ns | (name, _) :: r => let! ns' := count_param data name 0 ns in count_params data r ns' end.
(** 145-154 *)
Fixpoint check_output (data : dict) (name : string) (fi : nat) (ns : list (option nat)) : res unit :=
  match ns with
  | [] => Ok tt
  | n :: r =>
      let name' := level_name name fi in
      match data name' with
      | None => Err KeyError
      | Some val => match n with
                    | Some k => if length val =? k then check_output data name' (S fi) r else Err RuntimeError
                    | None => Err RuntimeError
                    end
      end
  end.
Fixpoint check_outputs (data : dict) (os : list (string * nat)) (ns : list (option nat)) : res unit :=
  match os with [] => Ok tt | (name, _) :: r => let! _ := check_output data name 0 ns in check_outputs data r ns end.
(** np.zeros((None, ..)), 162 and 168 *)
Fixpoint counts (ns : list (option nat)) : res (list nat) :=
  match ns with [] => Ok [] | None :: _ => Err TypeError | Some k :: r => let! r' := counts r in Ok (k :: r') end.

(** a level while its matrix of inputs is filled: number of points, new rows, idx[fi] *)
Record level : Type := mkLevel { v_n : nat; v_new : list (list Q); v_idx : nat }.
(** 174-188 *)
Fixpoint fill_param (width : nat) (data : dict) (name : string) (sz fi : nat) (ls : list level) : outcome (list level) :=
  match ls with
  | [] => ([], None)
  | l :: r =>
      if v_n l =? 0 then let (r', e) := fill_param width data name sz (S fi) r in (l :: r', e)
      else
        let name' := level_name name fi in
        match data name' with
        | None => (ls, Some KeyError)
        | Some val =>
            let (M, e) := if first_float val then put_col width (v_idx l) val (v_new l) else put_rows (v_idx l) sz val (v_new l) in
            match e with
            | Some e => (mkLevel (v_n l) M (v_idx l) :: r, Some e)
            | None => let (r', e) := fill_param width data name' sz (S fi) r in (mkLevel (v_n l) M (if first_float val then v_idx l + 1 else v_idx l) :: r', e)
            end
        end
  end.
Fixpoint fill_all (width : nat) (data : dict) (ps : list (string * nat)) (ls : list level) : outcome (list level) :=
  match ps with
  | [] => (ls, None)
  | (name, sz) :: r => let (ls', e) := fill_param width data name sz 0 ls in match e with Some e => (ls', Some e) | None => fill_all width data r ls' end
  end.

Notation matrix := (list (list Q)).
(** _training_input, and _training_output, which has None for a level without points *)
Record mstate : Type := mkMfi { f_params : list (string * nat); f_outputs : list (string * nat); f_warm : bool; f_train : bool;
                                f_in : list matrix; f_out : list (string * list (option matrix)) }.
Definition outs_of (st : mstate) (name : string) : list (option matrix) := match sget (f_out st) name with Some l => l | None => [] end.
Fixpoint put {A : Type} (i : nat) (x : A) (l : list A) : list A := match l, i with [], _ => [] | _ :: r, 0 => x :: r | y :: r, S j => y :: put j x r end.
(** 193-216: one output at the levels from [fi] on; [cur] is the list outputs, which is kept from
    one output to the next; [stored] is self._training_output[name] *)
Fixpoint out_levels (warm : bool) (data : dict) (name : string) (sz fi : nat) (ns olds : list nat) (cur stored : list (option matrix))
    : list (option matrix) * list (option matrix) * option pyerr :=
  match ns, olds with
  | n :: ns', old :: olds' =>
      if n =? 0 then out_levels warm data name sz (S fi) ns' olds' cur stored
      else
        let kept := if warm then (if 0 <? old then match nth fi stored None with Some M => copy_old old M | None => Err TypeError end else Ok []) else Ok [] in
        match kept with
        | Err e => (cur, stored, Some e)
        | Ok kept =>
            match data (level_name name fi) with
            | None => (cur, stored, Some KeyError)
            | Some val =>
                let (M, e) := if first_float val then put_col sz 0 val (zeros n sz) else put_rows 0 sz val (zeros n sz) in
                let cur' := put fi (Some (kept ++ M)) cur in
                let stored' := if warm then put fi (Some (kept ++ M)) stored else cur' in
                match e with
                | Some e => (cur', stored', Some e)
                | None => out_levels warm data name sz (S fi) ns' olds' cur' stored'
                end
            end
        end
  | _, _ => (cur, stored, None)
  end.
(** surrogate.train_multifi(inputs, outputs) *)
Definition mtraining : Type := (string * (list matrix * list (option matrix)))%type.
Fixpoint out_all (st : mstate) (data : dict) (ns olds : list nat) (cur : list (option matrix)) (os : list (string * nat)) : mstate * (list mtraining * option pyerr) :=
  match os with
  | [] => (st, ([], None))
  | (name, sz) :: r =>
      let '(cur', stored', e) := out_levels (f_warm st) data name sz 0 ns olds cur (outs_of st name) in
      let st' := mkMfi (f_params st) (f_outputs st) (f_warm st) (f_train st) (f_in st) (sset (f_out st) name stored') in
      match e with
      | Some e => (st', ([], Some e))
      | None => let (st'', te) := out_all st' data ns olds cur' r in (st'', ((name, (f_in st, stored')) :: fst te, snd te))
      end
  end.
(** _train for two levels or more *)
Definition mtrain (st : mstate) (data : dict) : mstate * (list mtraining * option pyerr) :=
  let nfi := length (f_in st) in
  let pre := let! ns := count_params data (f_params st) (repeat None nfi) in let! _ := check_outputs data (f_outputs st) ns in counts ns in
  match pre with
  | Err e => (st, ([], Some e))
  | Ok ns =>
      let w := width_of (f_params st) in
      let olds := if f_warm st then map (fun X : matrix => length X) (f_in st) else map (fun _ => 0) (f_in st) in
      let (ls, e) := fill_all w data (f_params st) (map (fun n => mkLevel n (zeros n w) 0) ns) in
      let st1 := mkMfi (f_params st) (f_outputs st) (f_warm st) (f_train st) (map (fun p => (if f_warm st then fst p else []) ++ v_new (snd p)) (combine (f_in st) ls)) (f_out st) in
      match e with
      | Some e => (st1, ([], Some e))
      | None =>
          let (st2, te) := out_all st1 data ns olds (repeat None nfi) (f_outputs st) in
          (match snd te with None => mkMfi (f_params st2) (f_outputs st2) (f_warm st2) false (f_in st2) (f_out st2) | Some _ => st2 end, te)
      end
  end.
(** __init__ and add_output *)
Definition minit (nfi : nat) (params outputs : list (string * nat)) (warm : bool) : mstate :=
  mkMfi params outputs warm true (repeat [] nfi) (map (fun o => (fst o, repeat (Some []) nfi)) outputs).

(** One level, 126-129: _train of MetaModel, but until it has been through a training that is not a
    warm restart, self._training_input is the list made by __init__, which has no attribute shape
    (meta_model.py 309). *)
Definition mtrain1 (listed : bool) (st : state) (data : string -> list tval) : state * (list training * option pyerr) :=
  match m_params st with
  | (p0, _) :: _ =>
      if listed && m_warm st && forallb (fun p => length (data (fst p)) =? length (data p0)) (m_params st ++ m_outputs st) then (st, ([], Some AttributeError)) else train st data
  | [] => train st data
  end.

(** Model of reading a box of columns from a file: openmdao/util/file_wrap.py FileParser.transfer_array
    (lines 672-743) and transfer_2Darray (745-827) with the delimiter "columns"; lines and slices as
    in FileModel.v.  Parsing a text into words is an argument (C118), as are the text of a number
    inside an array of texts and the number a text is read as on assignment. *)
From Verif Require Import Base FileModel.
Local Open Scope nat_scope.
Local Open Scope list_scope.

Inductive token : Type := TNum (q : Q) | TTxt (t : text).
Definition is_txt (t : token) : bool := match t with TTxt _ => true | TNum _ => false end.

Section Box.
  Variable parse : text -> res (list token).
  Variable shown : Q -> text.
  Variable to_float : text -> option Q.

  Definition strip (s : text) : text := rstrip (lstrip s).
  (** an array with a text in it is an array of texts *)
  Definition as_txt (t : token) : token := match t with TNum q => TTxt (shown q) | TTxt s => TTxt s end.
  Definition np_array (l : list token) : list token := if existsb is_txt l then map as_txt l else l.
  Definition np_append (data new : list token) : list token := np_array (data ++ new).

  (** lines 716-733 *)
  Fixpoint array_loop (fieldstart fieldend : Z) (lines : list text) (dat : list token) : res (list token) :=
    match lines with
    | [] => Ok dat
    | line :: lines =>
        let line := strip (py_slice line (fieldstart - 1) fieldend) in
        let! parsed := parse line in
        let newdata := np_array parsed in
        let newdata := if existsb is_txt newdata then [TTxt line] else newdata in
        array_loop fieldstart fieldend lines (np_append dat newdata)
    end.
  Definition transfer_array (g : gen) (rowstart fieldstart : Z) (rowend fieldend : option Z) : res (list token) :=
    let j1 := (Z.of_nat (current_row g) + rowstart)%Z in
    let j2 := match rowend with None => (j1 + 1)%Z | Some r => (Z.of_nat (current_row g) + r + 1)%Z end in
    match fieldend with
    | None => Err ValueError
    | Some fe => if (fe =? 0)%Z then Err ValueError else array_loop fieldstart fe (py_slice (data g) j1 j2) []
    end.

  (** assigning an array of words to a row of floats *)
  Fixpoint floats (l : list token) : res (list Q) :=
    match l with
    | [] => Ok []
    | t :: l =>
        let! q := match t with TNum q => Ok q | TTxt s => match to_float s with Some q => Ok q | None => Err ValueError end end in
        let! qs := floats l in Ok (q :: qs)
    end.
  Definition assign (width : nat) (l : list token) : res (list Q) :=
    let! qs := floats (np_array l) in
    if length qs =? width then Ok qs else match qs with [q] => Ok (repeat q width) | _ => Err ValueError end.
  Definition box_of (fieldstart : Z) (fieldend : option Z) (line : text) : text :=
    match fieldend with
    | Some fe => if (fe =? 0)%Z then py_slice_from line (fieldstart - 1) else py_slice line (fieldstart - 1) fe
    | None => py_slice_from line (fieldstart - 1)
    end.
  (** lines 798-806 *)
  Fixpoint rows_loop (width : nat) (fieldstart : Z) (fieldend : option Z) (lines : list text) : res (list (list Q)) :=
    match lines with
    | [] => Ok []
    | line :: lines =>
        let! parsed := parse (box_of fieldstart fieldend line) in
        let! row := assign width parsed in
        let! rows := rows_loop width fieldstart fieldend lines in Ok (row :: rows)
    end.
  (** lines 772-806; rows that are not read stay zero *)
  Definition transfer_2Darray (g : gen) (rowstart fieldstart rowend : Z) (fieldend : option Z) : res (list (list Q)) :=
    if (match fieldend with Some fe => negb (fe =? 0) && (fe <? fieldstart) | None => false end)%Z then Err ValueError
    else if (rowend <? rowstart)%Z then Err ValueError
    else
      let j1 := (Z.of_nat (current_row g) + rowstart)%Z in
      let j2 := (Z.of_nat (current_row g) + rowend + 1)%Z in
      match py_slice (data g) j1 j2 with
      | [] => Err IndexError
      | line :: lines =>
          let! parsed := parse (box_of fieldstart fieldend line) in
          let! row := assign (length parsed) parsed in
          let! rows := rows_loop (length parsed) fieldstart fieldend lines in
          Ok (row :: rows ++ repeat (repeat 0%Q (length parsed)) (Z.to_nat (j2 - j1) - S (length lines)))
      end.
End Box.

(** File wrapping: openmdao/util/file_wrap.py lines 34-98, 128-411 and 413-828.

    A text is a list of (ASCII) characters, a file its list of lines as readlines()
    returns them (with their newline characters).  The rendering of values
    (_getformat, str) and the parsing of a line into tokens by pyparsing are
    arguments, as is the reading of the file.  Not modelled here: the "columns"
    delimiter (TokModel.v, BxcModel.v), arrays of mixed type, occurrences that are not integers. *)
From Verif Require Import Base.
Local Open Scope nat_scope.

Notation text := (list ascii).
Definition newline_char : ascii := "010"%char.
Fixpoint text_eqb (a b : text) : bool :=
  match a, b with
  | [], [] => true
  | x :: a', y :: b' => Ascii.eqb x y && text_eqb a' b'
  | _, _ => false
  end.

(** ** Python lists and strings *)
(** the position data[j] refers to *)
Definition py_index (len : nat) (j : Z) : option nat :=
  if (0 <=? j)%Z then (if (j <? Z.of_nat len)%Z then Some (Z.to_nat j) else None)
  else if (- Z.of_nat len <=? j)%Z then Some (Z.to_nat (Z.of_nat len + j)) else None.
Definition py_get {A} (l : list A) (j : Z) : res A :=
  match py_index (length l) j with
  | Some i => match nth_error l i with Some x => Ok x | None => Err IndexError end
  | None => Err IndexError
  end.
Fixpoint set_nth {A} (l : list A) (i : nat) (x : A) : list A :=
  match l, i with
  | [], _ => []
  | _ :: r, 0 => x :: r
  | y :: r, S i' => y :: set_nth r i' x
  end.
(** data[a:b] *)
Definition clip (len : nat) (i : Z) : nat :=
  if (i <? 0)%Z then Z.to_nat (Z.of_nat len + i) else Nat.min (Z.to_nat i) len.
Definition py_slice {A} (l : list A) (a b : Z) : list A :=
  let i := clip (length l) a in firstn (clip (length l) b - i) (skipn i l).
Definition py_slice_from {A} (l : list A) (a : Z) : list A := skipn (clip (length l) a) l.

(** str.find, in: the first occurrence, as the texts before and after it *)
Fixpoint strip_prefix (p s : text) : option text :=
  match p, s with
  | [], _ => Some s
  | a :: p', b :: s' => if Ascii.eqb a b then strip_prefix p' s' else None
  | _ :: _, [] => None
  end.
Fixpoint find_first (sep s : text) : option (text * text) :=
  match strip_prefix sep s with
  | Some post => Some ([], post)
  | None =>
      match s with
      | [] => None
      | c :: r => match find_first sep r with Some (a, b) => Some (c :: a, b) | None => None end
      end
  end.
Definition contains (sep s : text) : bool := match find_first sep s with Some _ => true | None => false end.
(** str.split(sep); an empty separator is a ValueError *)
Fixpoint split_fuel (fuel : nat) (sep s : text) : list text :=
  match fuel with
  | 0 => [s]
  | S f => match find_first sep s with None => [s] | Some (a, b) => a :: split_fuel f sep b end
  end.
Definition py_split (sep s : text) : res (list text) :=
  match sep with [] => Err ValueError | _ :: _ => Ok (split_fuel (length s) sep s) end.

Definition is_space (c : ascii) : bool :=
  let n := nat_of_ascii c in (n =? 32) || ((9 <=? n) && (n <=? 13)) || ((28 <=? n) && (n <=? 31)).
(** str.rstrip() *)
Fixpoint lstrip (s : text) : text := match s with c :: r => if is_space c then lstrip r else s | [] => [] end.
Definition rstrip (s : text) : text := rev (lstrip (rev s)).
(** the first word of str.split(None), if any *)
Fixpoint take_word (s : text) : text := match s with c :: r => if is_space c then [] else c :: take_word r | [] => [] end.
Definition first_word (s : text) : option text := match take_word (lstrip s) with [] => None | w => Some w end.

(** ** delimiters: re.compile('[^' + delimiter + newline + ']+'), lines 138 and 179-180 *)
(** the ranges of the character class; None is re.error (bad range).  Delimiters
    containing a closing bracket or a backslash are not covered. *)
Fixpoint class_ranges (d : text) : option (list (ascii * ascii)) :=
  match d with
  | [] => Some []
  | c :: r =>
      match r with
      | m :: e :: r' =>
          if Ascii.eqb m "-" then
            if nat_of_ascii c <=? nat_of_ascii e then option_map (cons (c, e)) (class_ranges r') else None
          else option_map (cons (c, c)) (class_ranges r)
      | _ => option_map (cons (c, c)) (class_ranges r)
      end
  end.
Definition in_ranges (rs : list (ascii * ascii)) (c : ascii) : bool :=
  existsb (fun r : ascii * ascii => (nat_of_ascii (fst r) <=? nat_of_ascii c) && (nat_of_ascii c <=? nat_of_ascii (snd r))) rs.
(** set_delimiters: which characters are no part of a field *)
Definition set_delimiters (delimiter : text) : option (ascii -> bool) :=
  option_map in_ranges (class_ranges (delimiter ++ [newline_char])).

(** ** substitution *)
(** re.sub(reg, f, line): the fields are the longest runs of characters that are
    no delimiters; f has a state *)
Fixpoint re_sub {T} (isd : ascii -> bool) (f : T -> text -> res (T * text)) (line word : text) (s : T) : res (text * T) :=
  match line with
  | [] => match word with
          | [] => Ok ([], s)
          | _ => let! r := f s (rev word) in Ok (snd r, fst r)
          end
  | c :: rest =>
      if isd c then
        match word with
        | [] => let! o := re_sub isd f rest [] s in Ok (c :: fst o, snd o)
        | _ => let! r := f s (rev word) in
               let! o := re_sub isd f rest [] (fst r) in
               Ok (snd r ++ c :: fst o, snd o)
        end
      else re_sub isd f rest (c :: word) s
  end.

(** _SubHelper.replace, lines 63-76; the state is current_location *)
Definition replace (newtext : res text) (location : Z) (current : nat) (field : text) : res (nat * text) :=
  let current := S current in
  if (Z.of_nat current =? location)%Z then let! t := newtext in Ok (current, t) else Ok (current, field).

(** _SubHelper.replace_array, lines 78-98; the state is current_location and counter *)
Definition replace_array {V} (fmt : V -> res text) (values : list V) (start_location end_location : Z)
           (s : nat * nat) (field : text) : res ((nat * nat) * text) :=
  let '(current, counter) := s in
  let current := S current in
  if (start_location <=? Z.of_nat current)%Z && (Z.of_nat current <=? end_location)%Z then
    match nth_error values counter with
    | Some v => let! t := fmt v in Ok ((current, S counter), t)
    | None => Ok ((current, counter), field)
    end
  else Ok ((current, counter), field).

(** ** InputFileGenerator *)
Record gen : Type := mkGen { data : list text; current_row : nat; anchored : bool }.
Definition with_data (g : gen) (d : list text) : gen := mkGen d (current_row g) (anchored g).

Section Generator.
  Context {V : Type}.
  Variable isd : ascii -> bool.
  Variable fmt : V -> res text.   (** lines 70-74 and 88-92 *)
  Variable str : V -> text.

  (** transfer_var, lines 256-280 *)
  Definition transfer_var (g : gen) (value : V) (row field : Z) : res gen :=
    let j := (Z.of_nat (current_row g) + row)%Z in
    let! line := py_get (data g) j in
    let! o := re_sub isd (replace (fmt value) field) line [] 0 in
    match py_index (length (data g)) j with
    | Some i => Ok (with_data g (set_nth (data g) i (fst o)))
    | None => Err IndexError
    end.

  (** the loop of transfer_array, lines 312-329: data, counter, the last row and
      its new text *)
  Fixpoint array_rows (values : list V) (cur : nat) (rows : list Z) (row_end field_start field_end : Z)
           (d : list text) (counter : nat) (last : option (nat * text)) : res (list text * nat * option (nat * text)) :=
    match rows with
    | [] => Ok (d, counter, last)
    | row :: rest =>
        let j := (Z.of_nat cur + row)%Z in
        let! line := py_get d j in
        let f_end := if (row =? row_end)%Z then field_end else 99999%Z in
        let! o := re_sub isd (replace_array fmt values field_start f_end) line [] (0, counter) in
        match py_index (length d) j with
        | Some i => array_rows values cur rest row_end 0 field_end (set_nth d i (fst o)) (snd (snd o)) (Some (i, fst o))
        | None => Err IndexError
        end
    end.
  (** range(row_start, row_end + 1) *)
  Definition py_range (a b : Z) : list Z := map (fun k => a + Z.of_nat k)%Z (seq 0 (Z.to_nat (b - a))).

  (** transfer_array, lines 282-347 *)
  Definition transfer_array (g : gen) (values : list V) (row_start field_start field_end : Z) (row_end : option Z) (sep : text) : res gen :=
    let row_end := match row_end with Some r => r | None => row_start end in
    let! o := array_rows values (current_row g) (py_range row_start (row_end + 1)) row_end field_start field_end (data g) 0 None in
    let '(d, counter, last) := o in
    match last with
    | None => Err NameError
    | Some (i, newline) =>
        if counter <? length values then
          let newline := fold_left (fun l v => rstrip l ++ sep ++ str v) (skipn counter values) newline in
          Ok (with_data g (set_nth d i (newline ++ [newline_char])))
        else if length values <? counter then Err ValueError
        else Ok (with_data g (set_nth d i (nth i d [] ++ [newline_char])))
    end.

  (** transfer_2Darray, lines 349-391; values: the rows of the array *)
  Fixpoint array2_rows (values : list (list V)) (cur : nat) (rows : list Z) (field_start field_end : Z) (d : list text) : res (list text) :=
    match rows with
    | [] => Ok d
    | row :: rest =>
        let j := (Z.of_nat cur + row)%Z in
        let! line := py_get d j in
        match values with
        | [] => Err IndexError
        | v :: values' =>
            let! o := re_sub isd (replace_array fmt v field_start field_end) line [] (0, 0) in
            match py_index (length d) j with
            | Some i => array2_rows values' cur rest field_start field_end (set_nth d i (fst o))
            | None => Err IndexError
            end
        end
    end.
  Definition transfer_2Darray (g : gen) (values : list (list V)) (row_start row_end field_start field_end : Z) : res gen :=
    let! d := array2_rows values (current_row g) (py_range row_start (row_end + 1)) field_start field_end (data g) in
    Ok (with_data g d).

  (** clearline, lines 395-403 *)
  Definition clearline (g : gen) (row : Z) : res gen :=
    match py_index (length (data g)) (Z.of_nat (current_row g) + row) with
    | Some i => Ok (with_data g (set_nth (data g) i [newline_char]))
    | None => Err IndexError
    end.
End Generator.

(** ** anchors, lines 182-248 (and 478-544 for FileParser, the same) *)
(** forward: lines from current_row on; count is the distance *)
Fixpoint search_forward (anchor : text) (is_anchored : bool) (lines : list text) (count instance occurrence : nat) : res nat :=
  match lines with
  | [] => Err RuntimeError
  | line :: rest =>
      let! line := (if (count =? 0) && is_anchored then let! p := py_split anchor line in Ok (List.last p []) else Ok line) in
      if contains anchor line then
        if S instance =? occurrence then Ok count
        else search_forward anchor is_anchored rest (S count) (S instance) occurrence
      else search_forward anchor is_anchored rest (S count) instance occurrence
  end.
(** backward: the lines in reverse order; first holds for the last line *)
Fixpoint search_backward (anchor : text) (is_anchored first : bool) (lines : list text) (instance occurrence : nat) : res nat :=
  match lines with
  | [] => Err RuntimeError
  | line :: rest =>
      let! line := (if first && is_anchored then let! p := py_split anchor line in Ok (hd [] p) else Ok line) in
      if contains anchor line then
        if S instance =? occurrence then Ok (length rest)
        else search_backward anchor is_anchored false rest (S instance) occurrence
      else search_backward anchor is_anchored false rest instance occurrence
  end.
Definition mark_anchor (g : gen) (anchor : text) (occurrence : Z) : res gen :=
  if (0 <? occurrence)%Z then
    let! count := search_forward anchor (anchored g) (skipn (current_row g) (data g)) 0 0 (Z.to_nat occurrence) in
    Ok (mkGen (data g) (current_row g + count) true)
  else if (occurrence <? 0)%Z then
    let! row := search_backward anchor (anchored g) true (rev (data g)) 0 (Z.to_nat (- occurrence)) in
    Ok (mkGen (data g) row true)
  else Err ValueError.
(** reset_anchor, lines 250-254 *)
Definition reset_anchor (g : gen) : gen := mkGen (data g) 0 false.

(** ** FileParser *)
(** set_file, lines 439-458 *)
Fixpoint keep_lines (eol_comment full_comment : option text) (lines : list text) : res (list text) :=
  match lines with
  | [] => Ok []
  | line :: rest =>
      match line with
      | [] => Err IndexError
      | c :: _ =>
          if (match full_comment with Some f => text_eqb [c] f | None => false end) then keep_lines eol_comment full_comment rest
          else
            let! first := (match eol_comment with
                           | Some sep => let! p := py_split sep line in Ok (hd [] p)
                           | None => match first_word line with Some w => Ok w | None => Err IndexError end
                           end) in
            let! r := keep_lines eol_comment full_comment rest in
            Ok (first :: r)
      end
  end.
Definition falsy (o : option text) : bool := match o with None | Some [] => true | _ => false end.
Definition set_file (eol_comment full_comment : option text) (lines : list text) : res (list text) :=
  if falsy eol_comment && falsy full_comment then Ok lines else keep_lines eol_comment full_comment lines.

Section Parser.
  Context {T : Type}.
  Variable parse : text -> res (list T).   (** pyparsing *)

  (** the loops of transfer_keyvar, lines 644-663: the (relative) row *)
  Fixpoint key_forward (key : text) (lines : list text) (row : Z) (instance occurrence : nat) : Z :=
    match lines with
    | [] => row
    | line :: rest =>
        if contains key line then
          if S instance =? occurrence then row else key_forward key rest (row + 1) (S instance) occurrence
        else key_forward key rest (row + 1) instance occurrence
    end.
  Fixpoint key_backward (key : text) (lines : list text) (row : Z) (instance occurrence : nat) : Z :=
    match lines with
    | [] => row
    | line :: rest =>
        if contains key line then
          if S instance =? occurrence then row else key_backward key rest (row - 1) (S instance) occurrence
        else key_backward key rest (row - 1) instance occurrence
    end.
  Definition keyvar_row (g : gen) (key : text) (occurrence : Z) : Z :=
    if (0 <? occurrence)%Z then key_forward key (skipn (current_row g) (data g)) 0 0 (Z.to_nat occurrence)
    else key_backward key (rev (skipn (current_row g) (data g))) (-1) 0 (Z.to_nat (- occurrence)).
  (** transfer_keyvar, lines 614-670; mark replaces the key in the line by KeyField *)
  Definition transfer_keyvar (mark : text -> text) (g : gen) (key : text) (field occurrence rowoffset : Z) : res T :=
    if (occurrence =? 0)%Z then Err ValueError
    else
      let! line := py_get (data g) (Z.of_nat (current_row g) + keyvar_row g key occurrence + rowoffset) in
      let! fields := parse (mark line) in
      py_get fields field.

  (** transfer_var, lines 567-612, without columns *)
  Definition read_var (g : gen) (row field : Z) : res T :=
    let! line := py_get (data g) (Z.of_nat (current_row g) + row) in
    let! fields := parse line in
    py_get fields (field - 1).

  (** transfer_array, lines 672-743, without columns *)
  Fixpoint read_rows (lines : list text) (i last : Z) (fieldstart fieldend : Z) : res (list T) :=
    match lines with
    | [] => Ok []
    | line :: rest =>
        let! fields := parse line in
        let part := if (i =? last)%Z then py_slice fields (fieldstart - 1) fieldend else py_slice_from fields (fieldstart - 1) in
        let! r := read_rows rest (i + 1) last 1 fieldend in
        Ok (part ++ r)
    end.
  Definition read_array (g : gen) (rowstart fieldstart : Z) (rowend fieldend : option Z) : res (list T) :=
    let j1 := (Z.of_nat (current_row g) + rowstart)%Z in
    let j2 := match rowend with None => (j1 + 1)%Z | Some r => (Z.of_nat (current_row g) + r + 1)%Z end in
    match fieldend with
    | None => Err ValueError
    | Some fe => if (fe =? 0)%Z then Err ValueError else read_rows (py_slice (data g) j1 j2) 0 (j2 - j1 - 1) fieldstart fe
    end.

  (** transfer_2Darray, lines 745-827, without columns, for numeric fields.
      Assigning an array to a row of another length: one number is repeated,
      anything else is an error (ValueError), which lines 819-822 catch *)
  Variable zero : T.
  Definition assign_row (width : nat) (fields : list T) : res (list T) :=
    if length fields =? width then Ok fields
    else match fields with [x] => Ok (repeat x width) | _ => Err ValueError end.
  Definition row_fields (fieldstart : Z) (fieldend : option Z) (fields : list T) : list T :=
    match fieldend with
    | Some fe => if (fe =? 0)%Z then py_slice_from fields (fieldstart - 1) else py_slice fields (fieldstart - 1) fe
    | None => py_slice_from fields (fieldstart - 1)
    end.
  Definition caught (fieldend : option Z) : bool := match fieldend with Some fe => negb (fe =? 0)%Z | None => false end.
  Fixpoint other_rows (width : nat) (fieldstart : Z) (fieldend : option Z) (lines : list text) : res (list (list T)) :=
    match lines with
    | [] => Ok []
    | line :: rest =>
        let! fields := parse line in
        let! row := (match assign_row width (row_fields fieldstart fieldend fields) with
                     | Ok r => Ok r
                     | Err e => if caught fieldend then Ok (repeat zero width) else Err e
                     end) in
        let! r := other_rows width fieldstart fieldend rest in
        Ok (row :: r)
    end.
  Definition read_2Darray (g : gen) (rowstart fieldstart rowend : Z) (fieldend : option Z) : res (list (list T)) :=
    if caught fieldend && (match fieldend with Some fe => fe <? fieldstart | None => false end)%Z then Err ValueError
    else if (rowend <? rowstart)%Z then Err ValueError
    else
      let j1 := (Z.of_nat (current_row g) + rowstart)%Z in
      let j2 := (Z.of_nat (current_row g) + rowend + 1)%Z in
      match py_slice (data g) j1 j2 with
      | [] => Err IndexError
      | line :: rest =>
          let! fields := parse line in
          let row := row_fields fieldstart fieldend fields in
          let! r := other_rows (length row) fieldstart fieldend rest in
          (** rows that were not read stay zero *)
          Ok (row :: r ++ repeat (repeat zero (length row)) (Z.to_nat (j2 - j1) - S (length rest)))
      end.
End Parser.

(** Fortran namelists: openmdao/util/namelist_util.py, with the grammar of parse_file
    (lines 359-411) written out as functions on characters.

    A text is a list of characters; a parser answers the token and the remaining text, or
    None for a ParseException.  The pyparsing semantics that is used: blanks, tabs and line
    ends before a token are skipped, [a | b] is the first alternative that matches, Optional
    and ZeroOrMore are greedy and take nothing back, Combine joins its parts without
    skipping, oneOf prefers the longer word, searchString finds a match starting at any
    position, parseString only one at the start.
    [fshow] is _floatfmt(val) % val, [fread] float(), [of_int] the conversion of an integer
    by numpy.  Not modelled: tabs and escapes inside quoted strings, arrays that mix
    numbers with other things (an error here), element numbers below one (an error here),
    arrays of more than two dimensions other than that they are refused. *)
From Coq Require Import DecimalString Decimal.
From Verif Require Import Base FileModel.
Local Open Scope nat_scope.

Definition t_ (s : string) : text := list_ascii_of_string s.
Arguments t_ s%string_scope.

(** ** Characters *)
Definition in_range (a b : nat) (c : ascii) : bool := (a <=? nat_of_ascii c) && (nat_of_ascii c <=? b).
Definition is_digit (c : ascii) : bool := in_range 48 57 c.
Definition is_alnum (c : ascii) : bool := is_digit c || in_range 65 90 c || in_range 97 122 c.
(** pyparsing's default white space *)
Definition is_white (c : ascii) : bool := Ascii.eqb c " " || in_range 9 10 c || Ascii.eqb c "013".
Definition is_sign (c : ascii) : bool := Ascii.eqb c "+" || Ascii.eqb c "-".
(** CaselessLiteral('E') | CaselessLiteral('D'): the token is the upper case letter, and
    ToFloat replaces D by E (file_wrap.py line 111) *)
Definition is_exp (c : ascii) : bool := Ascii.eqb c "e" || Ascii.eqb c "E" || Ascii.eqb c "d" || Ascii.eqb c "D".
Definition lower_char (c : ascii) : ascii := if in_range 65 90 c then ascii_of_nat (nat_of_ascii c + 32) else c.
Definition lower (s : text) : text := map lower_char s.

(** ** Parsers *)
Fixpoint skip (s : text) : text := match s with c :: r => if is_white c then skip r else s | [] => [] end.
Fixpoint span (p : ascii -> bool) (s : text) : text * text :=
  match s with
  | c :: r => if p c then let (a, b) := span p r in (c :: a, b) else ([], s)
  | [] => ([], [])
  end.
(** Word(...) without the leading blanks *)
Definition word (p : ascii -> bool) (s : text) : option (text * text) :=
  match span p s with ([], _) => None | (w, r) => Some (w, r) end.
(** Literal, Suppress *)
Definition lit (w : text) (s : text) : option text := strip_prefix w (skip s).

(** lines 360-381: Optional(sign), the exponent of a number *)
Definition opt_sign (s : text) : text * text := match s with c :: r => if is_sign c then ([c], r) else ([], s) | [] => ([], []) end.
Definition exponent (s : text) : option (text * text) :=
  match s with
  | c :: r =>
      if is_exp c then
        let (sg, r1) := opt_sign r in
        match word is_digit r1 with Some (d, r2) => Some ("E"%char :: sg ++ d, r2) | None => None end
      else None
  | [] => None
  end.
Definition opt_exponent (s : text) : text * text := match exponent s with Some x => x | None => ([], s) end.
(** digits . [digits] | . digits *)
Definition mantissa (s : text) : option (text * text) :=
  match word is_digit s with
  | Some (d, c :: r) => if Ascii.eqb c "." then let (f, r1) := span is_digit r in Some (d ++ "."%char :: f, r1) else None
  | Some (_, []) => None
  | None =>
      match s with
      | c :: r => if Ascii.eqb c "." then match word is_digit r with Some (f, r1) => Some ("."%char :: f, r1) | None => None end else None
      | [] => None
      end
  end.
Definition lex_int (s : text) : option (text * text) :=
  let (sg, r) := opt_sign s in match word is_digit r with Some (d, r1) => Some (sg ++ d, r1) | None => None end.
Definition lex_float (s : text) : option (text * text) :=
  let (sg, r) := opt_sign s in
  match mantissa r with Some (m, r1) => let (e, r2) := opt_exponent r1 in Some (sg ++ m ++ e, r2) | None => None end.
(** lines 376-378: "3e5"; no sign in front *)
Definition lex_mixed (s : text) : option (text * text) :=
  match word is_digit s with
  | Some (d, r) => match exponent r with Some (e, r1) => Some (d ++ e, r1) | None => None end
  | None => None
  end.
(** oneOf *)
Fixpoint one_of (ws : list text) (s : text) : option (text * text) :=
  match ws with
  | [] => None
  | w :: ws' => match strip_prefix w s with Some r => Some (w, r) | None => one_of ws' s end
  end.
Definition nan_words : list text := [t_ "NaN"; t_ "Inf"; t_ "-Inf"].
Definition bool_words : list text :=
  [t_ "TRUE"; t_ "True"; t_ "T"; t_ "true"; t_ "FALSE"; t_ "False"; t_ "F"; t_ "false"; t_ ".TRUE."; t_ ".FALSE."; t_ ".T."; t_ ".F."].
(** ToBool (lines 93-105) *)
Definition true_words : list text := [t_ "T"; t_ "True"; t_ "TRUE"; t_ "true"; t_ ".TRUE."; t_ ".T."].
(** int(text) of an optional sign and digits *)
Definition read_int (t : text) : Z :=
  let digits r := match NilEmpty.uint_of_string (string_of_list_ascii r) with Some d => Z.of_uint d | None => 0%Z end in
  match t with
  | c :: r => if Ascii.eqb c "-" then Z.opp (digits r) else if Ascii.eqb c "+" then digits r else digits t
  | [] => 0%Z
  end.
Definition num_int (s : text) : option (Z * text) :=
  match lex_int (skip s) with Some (t, r) => Some (read_int t, r) | None => None end.
(** "%d" *)
Definition show_int (z : Z) : text := list_ascii_of_string (NilZero.string_of_int (Z.to_int z)).
(** QuotedString: up to the closing quote, on the same line *)
Definition quoted (q : ascii) (s : text) : option (text * text) :=
  match skip s with
  | c :: r =>
      if Ascii.eqb c q then
        match span (fun x => negb (Ascii.eqb x q) && negb (in_range 10 10 x) && negb (in_range 13 13 x)) r with
        | (w, c' :: r') => if Ascii.eqb c' q then Some (w, r') else None
        | (_, []) => None
        end
      else None
  | [] => None
  end.
(** Word(alphanums) *)
Definition fieldval (s : text) : option (text * text) := word is_alnum (skip s).
(** searchString: does the parser match anywhere? *)
Fixpoint found {A} (p : text -> option A) (s : text) : bool :=
  match p s with
  | Some _ => true
  | None => match s with [] => false | _ :: r => found p r end
  end.

Section Floats.
Variable F : Type.
Variable fshow : F -> res text.
Variable fread : text -> F.
Variable of_int : Z -> F.

Inductive scalar : Type := SInt (z : Z) | SFloat (x : F) | SBool (b : bool) | SStr (s : text).
(** what a card can hold; the elements of an array are all of the kind of its dtype *)
Inductive value : Type :=
| Scalar (s : scalar)
| PyList (l : list scalar)
| Array1 (l : list scalar)
| Array2 (rows : list (list scalar))
| ArrayN
| Other.
Inductive card : Type := Card (name : text) (v : value) | Comment (s : text).
Definition group : Type := text * list card.
Record deck : Type := mkDeck { title : text; groups : list group }.

(** ** generate (lines 230-347) *)
(** lines 26-52: the formats *)
Definition fmt (s : scalar) : res text :=
  match s with
  | SInt z => Ok (show_int z)
  | SFloat x => fshow x
  | SBool b => Ok (if b then t_ "T" else t_ "F")
  | SStr w => Ok ("'"%char :: w ++ ["'"%char])
  end.
Fixpoint fmt_all (l : list scalar) : res (list text) :=
  match l with
  | [] => Ok []
  | s :: r => let! w := fmt s in let! ws := fmt_all r in Ok (w :: ws)
  end.
Fixpoint join (sep : text) (l : list text) : text :=
  match l with [] => [] | [w] => w | w :: r => w ++ sep ++ join sep r end.
Definition nl : text := [newline_char].
(** card.name.split(":")[-1] *)
Definition card_name (name : text) : text := last (split_fuel (length name) (t_ ":") name) [].
(** lines 311-321: one line for every row *)
Fixpoint fmt_rows (name : text) (k : nat) (rows : list (list scalar)) : res text :=
  match rows with
  | [] => Ok []
  | row :: r =>
      let! ws := fmt_all row in
      let! rest := fmt_rows name (S k) r in
      Ok (name ++ t_ "(1," ++ show_int (Z.of_nat (S k)) ++ t_ ") =" ++ concat (map (fun w => t_ " " ++ w ++ t_ ", ") ws) ++ nl ++ rest)
  end.
(** lines 245-340; None: nothing is written *)
Definition card_line (c : card) : res (option text) :=
  match c with
  | Comment s => Ok (Some (t_ "  " ++ s ++ nl))
  | Card name v =>
      let head := t_ "  " ++ card_name name ++ t_ " = " in
      match v with
      | Scalar s => let! w := fmt s in Ok (Some (head ++ w ++ nl))
      | PyList l => let! ws := fmt_all l in Ok (Some (head ++ join (t_ ", ") ws ++ nl))
      | Array1 [] => Ok None
      | Array1 l => let! ws := fmt_all l in Ok (Some (head ++ join (t_ ", ") ws ++ nl))
      | Array2 [] => Ok None
      | Array2 rows => let! w := fmt_rows (card_name name) 0 rows in Ok (Some (t_ "  " ++ w))
      | ArrayN => Err RuntimeError
      | Other => Err RuntimeError
      end
  end.
Fixpoint card_lines (cs : list card) : res text :=
  match cs with
  | [] => Ok []
  | c :: r => let! l := card_line c in let! rest := card_lines r in Ok (match l with Some w => w ++ rest | None => rest end)
  end.
Definition group_text (g : group) : res text :=
  match snd g with
  | [] => Ok (fst g ++ nl)
  | cs => let! body := card_lines cs in Ok (t_ "&" ++ fst g ++ nl ++ body ++ t_ "/" ++ nl)
  end.
Fixpoint groups_text (gs : list group) : res text :=
  match gs with [] => Ok [] | g :: r => let! a := group_text g in let! b := groups_text r in Ok (a ++ b) end.
(** the contents of the file *)
Definition generate (d : deck) : res text := let! b := groups_text (groups d) in Ok (title d ++ nl ++ b).

(** ** The grammar (lines 373-408) *)
Definition numval (s : text) : option (scalar * text) :=
  let s := skip s in
  match lex_float s with
  | Some (t, r) => Some (SFloat (fread t), r)
  | None =>
      match lex_mixed s with
      | Some (t, r) => Some (SFloat (fread t), r)
      | None =>
          match lex_int s with
          | Some (t, r) => Some (SInt (read_int t), r)
          | None => match one_of nan_words s with Some (t, r) => Some (SFloat (fread t), r) | None => None end
          end
      end
  end.
(** ZeroOrMore(Suppress(',') + p) *)
Fixpoint more {A} (fuel : nat) (p : text -> option (A * text)) (s : text) : list A * text :=
  match fuel with
  | 0 => ([], s)
  | S f =>
      match lit (t_ ",") s with
      | Some r => match p r with Some (a, r1) => let (l, r2) := more f p r1 in (a :: l, r2) | None => ([], s) end
      | None => ([], s)
      end
  end.
Definition numvals (s : text) : option (list scalar * text) :=
  match numval s with
  | Some (a, r) => let (l, r1) := more (length r) numval r in Some (a :: l, r1)
  | None => None
  end.
Definition strval (s : text) : option (text * text) :=
  match quoted """" s with Some x => Some x | None => quoted "'" s end.
Definition numstr_token (s : text) : option (list scalar * text) :=
  match numvals s with
  | Some x => Some x
  | None => match strval s with Some (w, r) => Some ([SStr w], r) | None => None end
  end.
Definition boolval (s : text) : option (bool * text) :=
  match one_of bool_words (skip s) with Some (w, r) => Some (existsb (text_eqb w) true_words, r) | None => None end.
Definition data_token (s : text) : option (list scalar * text) :=
  match numstr_token s with
  | Some x => Some x
  | None => match boolval s with Some (b, r) => Some ([SBool b], r) | None => None end
  end.
(** a parsed card: name, index, dimension, the tokens after name and index, card.value *)
Record pcard : Type := mkP { c_name : text; c_index : option Z; c_dim : option Z; c_tokens : list scalar; c_value : scalar }.
Definition index_token (s : text) : option (Z * text) :=
  match lit (t_ "(") s with
  | Some r => match num_int r with
              | Some (k, r1) => match lit (t_ ")") r1 with Some r2 => Some (k, r2) | None => None end
              | None => None
              end
  | None => None
  end.
Definition card_token (s : text) : option (pcard * text) :=
  match fieldval s with
  | None => None
  | Some (name, s) =>
      let (idx, s) := match index_token s with Some (k, r) => (Some k, r) | None => (None, s) end in
      match lit (t_ "=") s with
      | None => None
      | Some s =>
          let (dim, s) := match num_int s with
                          | Some (k, r) => match lit (t_ "*") r with Some r1 => (Some k, r1) | None => (None, s) end
                          | None => (None, s)
                          end in
          match data_token s with
          | None => None
          | Some (vs, s) =>
              let (dim2, s) := match lit (t_ "*") s with
                               | Some r => match num_int r with Some (k, r1) => (Some k, r1) | None => (None, s) end
                               | None => (None, s)
                               end in
              let opt o := match o with Some k => [SInt k] | None => [] end in
              Some (mkP name idx (match dim2 with Some _ => dim2 | None => dim end)
                        (opt dim ++ vs ++ opt dim2) (hd (SInt 0) vs), s)
          end
      end
  end.
Definition multi_card_token (s : text) : option (list pcard * text) :=
  match card_token s with
  | Some (c, r) => let (l, r1) := more (length r) card_token r in Some (c :: l, r1)
  | None => None
  end.
(** name, index, values *)
Definition array2D_token (s : text) : option ((text * Z * list scalar) * text) :=
  match fieldval s with
  | None => None
  | Some (name, s) =>
      match lit (t_ "(") s with None => None | Some s =>
      match num_int s with None => None | Some (_, s) =>
      match lit (t_ ",") s with None => None | Some s =>
      match num_int s with None => None | Some (k, s) =>
      match lit (t_ ")") s with None => None | Some s =>
      match lit (t_ "=") s with None => None | Some s =>
      match numvals s with None => None | Some (vs, s) => Some ((name, k, vs), s) end end end end end end end
  end.
Definition end_words : list text := [t_ "/"; t_ "$END"; t_ "$end"; t_ "&END"; t_ "&end"].
Definition group_end_token (s : text) : option (text * text) := one_of end_words (skip s).
(** name, cards, is there an end *)
Definition group_name_token (s : text) : option ((text * list pcard * bool) * text) :=
  match one_of [t_ "$"; t_ "&"] (skip s) with
  | None => None
  | Some (_, s) =>
      match fieldval s with
      | None => None
      | Some (name, s) =>
          let (cs, s) := match multi_card_token s with Some x => x | None => ([], s) end in
          match group_end_token s with Some (_, r) => Some ((name, cs, true), r) | None => Some ((name, cs, false), s) end
      end
  end.
Definition comment_token (s : text) : option text := lit (t_ "!") s.

(** ** Values (lines 55-85) *)
(** array(tokens) *)
Definition is_int (s : scalar) : bool := match s with SInt _ => true | _ => false end.
Definition is_num (s : scalar) : bool := match s with SInt _ | SFloat _ => true | _ => false end.
Definition is_bool (s : scalar) : bool := match s with SBool _ => true | _ => false end.
Definition is_str (s : scalar) : bool := match s with SStr _ => true | _ => false end.
Definition to_float (s : scalar) : scalar := match s with SInt z => SFloat (of_int z) | _ => s end.
Definition mk_array (l : list scalar) : res (list scalar) :=
  if forallb is_int l || forallb is_bool l || forallb is_str l then Ok l
  else if forallb is_num l then Ok (map to_float l)
  else Err ValueError.
(** the zero of the dtype *)
Definition zero_like (l : list scalar) : scalar :=
  match l with SFloat _ :: _ => SFloat (of_int 0) | SBool _ :: _ => SBool false | _ => SInt 0 end.
(** zeros(dim).fill(value) *)
Definition filled (dim : Z) (v : scalar) : res value :=
  if (dim <? 0)%Z then Err ValueError
  else match v with
       | SInt z => Ok (Array1 (repeat (SFloat (of_int z)) (Z.to_nat dim)))
       | SFloat x => Ok (Array1 (repeat (SFloat x) (Z.to_nat dim)))
       | SBool b => Ok (Array1 (repeat (SFloat (of_int (if b then 1 else 0)%Z)) (Z.to_nat dim)))
       | SStr _ => Err ValueError
       end.
Definition card_value (c : pcard) : res value :=
  match c_index c with
  | Some k =>
      if (k <? 1)%Z then Err ValueError
      else
        let index := Z.to_nat (k - 1) in
        match c_tokens c with
        | SStr _ :: _ => Ok (PyList (repeat (SStr []) index ++ c_tokens c))
        | l => let! a := mk_array l in Ok (Array1 (repeat (zero_like a) index ++ a))
        end
  | None =>
      match c_dim c with
      | Some 0%Z | None =>
          match c_tokens c with
          | _ :: _ :: _ => let! a := mk_array (c_tokens c) in Ok (Array1 a)
          | _ => Ok (Scalar (c_value c))
          end
      | Some d => filled d (c_value c)
      end
  end.
Definition read_card (c : pcard) : res card := let! v := card_value c in Ok (Card (c_name c) v).
Fixpoint read_cards (cs : list pcard) : res (list card) :=
  match cs with [] => Ok [] | c :: r => let! a := read_card c in let! b := read_cards r in Ok (a :: b) end.
(** vstack((old, value)) *)
Definition as_rows (v : value) : res (list (list scalar)) :=
  match v with
  | Scalar s => Ok [[s]]
  | PyList l | Array1 l => Ok [l]
  | Array2 rows => Ok rows
  | _ => Err ValueError
  end.
Definition vstack (old : value) (new : list scalar) : res value :=
  let! rows := as_rows old in
  if forallb (fun r => length r =? length new) rows then
    let all := rows ++ [new] in
    if forallb is_int (concat all) then Ok (Array2 all)
    else if forallb is_num (concat all) then Ok (Array2 (map (map to_float) all))
    else Err ValueError
  else Err ValueError.
(** lines 458-472: a continued array *)
Definition continue_array (old : value) (new : list scalar) : res value :=
  match old, new with
  | Array1 l, _ => let! a := mk_array (l ++ new) in Ok (Array1 a)
  | Array2 rows, _ => let! a := mk_array (concat rows ++ new) in Ok (Array1 a)
  | Scalar s, [e] => let! a := mk_array [s; e] in Ok (Array1 a)
  | _, _ => Err ValueError
  end.

(** ** parse_file (lines 349-512) *)
(** the state; groups and their cards are kept newest first *)
Record pst : Type := mkS { s_title : text; s_groups : list group; s_open : bool }.
Definition start : pst := mkS [] [] false.
Definition finish (s : pst) : deck := mkDeck (s_title s) (rev (map (fun g => (fst g, rev (snd g))) (s_groups s))).
(** self.cards[-1].append *)
Definition add_cards (s : pst) (cs : list card) : res pst :=
  match s_groups s with
  | (n, old) :: r => Ok (mkS (s_title s) ((n, rev cs ++ old) :: r) (s_open s))
  | [] => Err IndexError
  end.
(** self.cards[-1][-1].value = ... *)
Definition update_card (s : pst) (f : value -> res value) : res pst :=
  match s_groups s with
  | (n, Card name v :: old) :: r => let! v' := f v in Ok (mkS (s_title s) ((n, Card name v' :: old) :: r) (s_open s))
  | _ => Err IndexError
  end.
Definition close (s : pst) : pst := mkS (s_title s) (s_groups s) false.
(** parseString; a failure is a ParseException *)
Definition parse_string {A} (p : text -> option (A * text)) (line : text) : res A :=
  match p line with Some (a, _) => Ok a | None => Err ValueError end.
Definition ends_with_slash (line : text) : bool := match rev line with c :: _ => Ascii.eqb c "/" | [] => false end.
(** lines 431-484 *)
Definition body_line (s : pst) (line : text) : res pst :=
  let! s1 :=
    if found comment_token line then Ok s
    else if found multi_card_token line then
      let! cs := parse_string multi_card_token line in
      let! cs := read_cards cs in add_cards s cs
    else if found array2D_token line then
      let! c := parse_string array2D_token line in
      let '(name, index, vs) := c in
      let! a := mk_array vs in
      if (1 <? index)%Z then update_card s (fun old => vstack old a) else add_cards s [Card name (Array1 a)]
    else if found numstr_token line then
      let! vs := parse_string numstr_token line in
      let! vs := mk_array vs in
      update_card s (fun old => continue_array old vs)
    else if found group_end_token line then Ok (close s)
    else Ok s in
  Ok (if ends_with_slash line then close s1 else s1).
(** group_end_token.searchString(card) on the printed tokens of a card (line 499) *)
Definition looks_like_end (c : pcard) : bool :=
  existsb (fun t => match t with SStr w => found group_end_token w | _ => false end) (c_tokens c).
Fixpoint header_cards (s : pst) (cs : list pcard) : res pst :=
  match cs with
  | [] => Ok s
  | c :: r =>
      if looks_like_end c then header_cards (close s) r
      else let! a := read_card c in let! s' := add_cards s [a] in header_cards s' r
  end.
(** lines 486-516 *)
Definition free_line (s : pst) (line line_base : text) : res pst :=
  if found group_name_token line then
    let! h := parse_string group_name_token line in
    let '(name, cs, ended) := h in
    let! s1 := header_cards (mkS (s_title s) ((name, []) :: s_groups s) true) cs in
    Ok (if ended then close s1 else s1)
  else match s_groups s, s_title s with
       | [], [] => Ok (mkS line [] (s_open s))
       | _, _ => Ok (mkS (s_title s) ((rstrip line_base, []) :: s_groups s) (s_open s))
       end.
Definition strip (s : text) : text := rstrip (lstrip s).
Definition one_line (s : pst) (line_base : text) : res pst :=
  match strip line_base with
  | [] => Ok s
  | line => if s_open s then body_line s line else free_line s line line_base
  end.
Fixpoint parse_lines (s : pst) (lines : list text) : res pst :=
  match lines with [] => Ok s | l :: r => let! s' := one_line s l in parse_lines s' r end.
(** readlines() *)
Fixpoint readlines_from (cur : text) (s : text) : list text :=
  match s with
  | [] => match cur with [] => [] | _ => [rev cur] end
  | c :: r => if Ascii.eqb c newline_char then rev (c :: cur) :: readlines_from [] r else readlines_from (c :: cur) r
  end.
Definition readlines (s : text) : list text := readlines_from [] s.
(** a namelist object that has just been made reads the file *)
Definition parse_file (file : text) : res deck := let! s := parse_lines start (readlines file) in Ok (finish s).

(** ** load_model (lines 515-643) and find_card (lines 645-664) *)
(** [after_setup]: params is a vector and holds values; otherwise it holds metadata and
    the value is stored under 'val'.  Storing in a vector is taken to be storing in a
    dictionary. *)
Definition params : Type := list (text * value).
Definition get {A} (d : list (text * A)) (k : text) : option A :=
  match find (fun e => text_eqb (fst e) k) d with Some e => Some (snd e) | None => None end.
Fixpoint set {A} (d : list (text * A)) (k : text) (v : A) : list (text * A) :=
  match d with
  | [] => [(k, v)]
  | (k', v') :: r => if text_eqb k' k then (k', v) :: r else (k', v') :: set r k v
  end.
Definition mem (k : text) (l : list text) : bool := existsb (text_eqb k) l.
Definition has {A} (d : list (text * A)) (k : text) : bool := match get d k with Some _ => true | None => false end.
Fixpoint first_in (p : params) (items : list text) : option text :=
  match items with [] => None | i :: r => if has p i then Some i else first_in p r end.
(** lines 603-613: every container is looked at, the last one found is kept *)
Fixpoint in_containers (p : params) (name : text) (containers : list text) (varpath : option text) : option text :=
  match containers with
  | [] => varpath
  | c :: r =>
      in_containers p name r
        (match first_in p [c ++ t_ ":" ++ name; c ++ t_ ":" ++ lower name] with Some v => Some v | None => varpath end)
  end.
Definition is_array (v : value) : bool := match v with Array1 _ | Array2 _ | ArrayN => true | _ => false end.
(** lines 628-640 *)
Definition store (after_setup : bool) (p : params) (varpath : text) (v : value) : params :=
  let target := get p varpath in
  let v' := match target, v with
            | Some t, Scalar s => if after_setup && is_array t && (is_num s || is_bool s) then Array1 [s] else v
            | _, _ => v
            end in
  set p varpath v'.
(** a comment is a card named C that holds its text (line 228) *)
Definition entry_name (c : card) : text := match c with Card n _ => n | Comment _ => t_ "C" end.
Definition entry_value (c : card) : value := match c with Card _ v => v | Comment s => Scalar (SStr s) end.
Record loaded : Type := mkL { l_params : params; l_empty : list (nat * text); l_unlisted : list (nat * text); l_unlinked : list text; l_used : list text }.
Definition rule : Type := list (text * list text).
Fixpoint load_cards (after_setup : bool) (rules : rule) (ignore : list text) (i : nat) (gname : text) (cs : list card) (s : loaded) : loaded :=
  match cs with
  | [] => s
  | c :: r =>
      let name := entry_name c in
      let varpath :=
        match rules with
        | [] => Some (first_in (l_params s) [name; lower name])
        | _ => match get rules gname with
               | None => None
               | Some containers => Some (in_containers (l_params s) name containers None)
               end
        end in
      match varpath with
      | None => mkL (l_params s) (l_empty s) (l_unlisted s ++ [(i, gname)]) (l_unlinked s) (l_used s)
      | Some None =>
          load_cards after_setup rules ignore i gname r
            (if mem name ignore || mem (lower name) ignore then s
             else mkL (l_params s) (l_empty s) (l_unlisted s) (l_unlinked s ++ [name]) (l_used s))
      | Some (Some p) =>
          load_cards after_setup rules ignore i gname r
            (mkL (store after_setup (l_params s) p (entry_value c)) (l_empty s) (l_unlisted s) (l_unlinked s) (l_used s))
      end
  end.
Definition load_group (after_setup : bool) (rules : rule) (ignore : list text) (s : loaded) (ig : nat * group) : loaded :=
  let '(i, (gname, cs)) := ig in
  match cs with
  | [] => mkL (l_params s) (l_empty s ++ [(i, gname)]) (l_unlisted s) (l_unlinked s) (l_used s)
  | _ =>
      if mem gname (l_used s) then mkL (l_params s) (l_empty s) (l_unlisted s ++ [(i, gname)]) (l_unlinked s) (l_used s)
      else load_cards after_setup rules ignore i gname cs
             (mkL (l_params s) (l_empty s) (l_unlisted s) (l_unlinked s) (l_used s ++ [gname]))
  end.
Definition load_model (after_setup : bool) (rules : rule) (ignore : list text) (single : option nat) (d : deck) (p : params) : res loaded :=
  match groups d with
  | [] => Err RuntimeError
  | gs =>
      let! use := match single with
                  | Some i => match nth_error gs i with Some g => Ok [(i, g)] | None => Err IndexError end
                  | None => Ok (combine (seq 0 (length gs)) gs)
                  end in
      Ok (fold_left (load_group after_setup rules ignore) use (mkL p [] [] [] []))
  end.
Definition find_card (d : deck) (g name : text) : res value :=
  match find (fun e => text_eqb (fst e) g) (groups d) with
  | None => Err ValueError
  | Some (_, cs) =>
      match find (fun c => text_eqb (entry_name c) name) cs with
      | Some c => Ok (entry_value c)
      | None => Err RuntimeError
      end
  end.
End Floats.

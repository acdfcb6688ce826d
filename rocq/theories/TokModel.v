(** Model of the reading of a line by FileParser: openmdao/util/file_wrap.py ToInteger, ToFloat,
    ToNan, ToInf (lines 100-125), set_delimiters (460-476), transfer_line (552-565), transfer_var
    (567-606) and _reset_tokens (836-880), with the elements of pyparsing used there: Word,
    Literal, CaselessLiteral, oneOf (longer words first), Optional, And, MatchFirst, Combine
    (nothing is skipped inside), OneOrMore, the skipping of the default white space before an
    element, and the expansion of tabs by parseString.
    A text is a list of ASCII characters.  A number is kept as the text given to int or float. *)
From Verif Require Import Base OrderModel ExprModel LcnModel.
Local Open Scope list_scope.

(** ** Elements: the text matched and what follows *)
Definition scan := txt -> option (txt * txt).
Definition cmem (c : ascii) (l : txt) : bool := existsb (Ascii.eqb c) l.
Definition word_ (p : ascii -> bool) : scan := fun s => match span p s with ([], _) => None | (w, r) => Some (w, r) end.
Definition char_ (c : ascii) : scan := fun s => match s with d :: r => if Ascii.eqb d c then Some ([c], r) else None | [] => None end.
Definition seq_ (p q : scan) : scan := fun s => match p s with Some (a, r) => match q r with Some (b, r) => Some (a ++ b, r) | None => None end | None => None end.
Definition alt_ (p q : scan) : scan := fun s => match p s with Some x => Some x | None => q s end.
Definition opt_ (p : scan) : scan := fun s => match p s with Some x => Some x | None => Some ([], s) end.
(** CaselessLiteral: the letter as it was declared *)
Definition caseless (up low : ascii) : scan := fun s => match s with d :: r => if Ascii.eqb d up || Ascii.eqb d low then Some ([up], r) else None | [] => None end.
Fixpoint one_of (ws : list txt) : scan := fun s => match ws with [] => None | w :: ws => if startswith s w then Some (w, skipn (length w) s) else one_of ws s end.

Definition digits := word_ digit.
Definition dot := char_ "."%char.
Definition sign := alt_ (char_ "+"%char) (char_ "-"%char).
Definition ee := alt_ (caseless "E"%char "e"%char) (caseless "D"%char "d"%char).
Definition num_int : scan := seq_ (opt_ sign) digits.
Definition num_float : scan := seq_ (opt_ sign) (seq_ (alt_ (seq_ digits (seq_ dot (opt_ digits))) (seq_ dot digits)) (opt_ (seq_ ee (seq_ (opt_ sign) digits)))).
Definition mixed_exp : scan := seq_ digits (seq_ ee (seq_ (opt_ sign) digits)).
Definition inf_words : list txt := [t_ "Inf"; t_ "-Inf"].
Definition nan_words : list txt := [t_ "NaN%"; t_ "NaNQ"; t_ "NaNS"; t_ "NaN"; t_ "nan"; t_ "qNaN"; t_ "sNaN"; t_ "1.#SNAN"; t_ "1.#QNAN"; t_ "-1.#IND"].

Inductive tok := TInt (t : txt) | TFloat (t : txt) | TNan | TInf | TStr (t : txt).
(** lines 100-125 *)
Definition to_float (t : txt) : tok := TFloat (map (fun c => if Ascii.eqb c "D"%char then "E"%char else c) t).
(** str.isspace *)
Definition spacec (c : ascii) : bool := let n := nat_of_ascii c in ((9 <=? n) && (n <=? 13) || (28 <=? n) && (n <=? 32))%nat.
Definition isspace (s : txt) : bool := match s with [] => false | _ => forallb spacec s end.
Definition printable (c : ascii) : bool := let n := nat_of_ascii c in ((33 <=? n) && (n <=? 126))%nat.
Definition alnum (c : ascii) : bool := let n := nat_of_ascii c in ((48 <=? n) && (n <=? 57) || (65 <=? n) && (n <=? 90) || (97 <=? n) && (n <=? 122))%nat.
Definition symbols : txt := t_ "./+*^()[]=:;?%&!#|<>{}-_@$~".
(** lines 844-856 *)
Definition textchar (delimiter : txt) (c : ascii) : bool :=
  if isspace delimiter then printable c else alnum c || (cmem c symbols && negb (cmem c delimiter)).
(** lines 858-880 *)
Definition token (delimiter : txt) (s : txt) : option (tok * txt) :=
  match one_of inf_words s with
  | Some (_, r) => Some (TInf, r)
  | None =>
  match one_of nan_words s with
  | Some (_, r) => Some (TNan, r)
  | None =>
  match num_float s with
  | Some (t, r) => Some (to_float t, r)
  | None =>
  match mixed_exp s with
  | Some (t, r) => Some (to_float t, r)
  | None =>
  match num_int s with
  | Some (t, r) => Some (TInt t, r)
  | None =>
  match word_ (textchar delimiter) s with
  | Some (t, r) => Some (TStr t, r)
  | None => None
  end end end end end end.

(** ** A line *)
Fixpoint skip (ws : txt) (s : txt) : txt := match s with c :: r => if cmem c ws then skip ws r else s | [] => [] end.
Fixpoint tokens (fuel : nat) (ws delimiter : txt) (s : txt) : list tok :=
  match fuel with
  | O => []
  | S fuel => match token delimiter (skip ws s) with Some (t, r) => t :: tokens fuel ws delimiter r | None => [] end
  end.
(** str.expandtabs(): [col] is the column *)
Fixpoint expandtabs (col : nat) (s : txt) : txt :=
  match s with
  | [] => []
  | c :: r =>
      if Nat.eqb (nat_of_ascii c) 9 then repeat space (8 - Nat.modulo col 8) ++ expandtabs (col + (8 - Nat.modulo col 8)) r
      else c :: expandtabs (if Nat.eqb (nat_of_ascii c) 10 || Nat.eqb (nat_of_ascii c) 13 then 0 else col + 1) r
  end.
(** parseString; None: ParseException *)
Definition parse_string (ws delimiter line : txt) : option (list tok) :=
  let s := expandtabs 0 line in match tokens (S (length s)) ws delimiter s with [] => None | l => Some l end.

(** ** Parsers: the delimiter and the white space of its tokens; the default white space is
    shared by all *)
Record parser := mkP { p_delim : txt; p_ws : txt }.
(** set_delimiters of one parser *)
Definition set_delimiters (default delimiter : txt) : txt * parser :=
  let default := if teqb delimiter (t_ "columns") then default else delimiter in (default, mkP delimiter default).
(** transfer_var, on the line addressed; fields and columns from 1 *)
Definition slice (line : txt) (field fieldend : nat) : txt :=
  match fieldend with O => skipn (field - 1) line | _ => firstn (fieldend - (field - 1)) (skipn (field - 1) line) end.
Definition transfer_var (p : parser) (line : txt) (field fieldend : nat) : option tok :=
  if teqb (p_delim p) (t_ "columns")
  then let line := slice line field fieldend in
       match parse_string (p_ws p) (p_delim p) line with
       | None => None
       | Some [t] => Some t
       | Some _ => Some (TStr line)
       end
  else match parse_string (p_ws p) (p_delim p) line with None => None | Some l => nth_error l (field - 1) end.

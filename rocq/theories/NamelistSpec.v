(** What writing a namelist and reading it back should give. *)
From Verif Require Import Base FileModel NamelistModel.
Local Open Scope nat_scope.

(** ** Texts *)
Definition between (a b : nat) (c : ascii) : Prop := a <= nat_of_ascii c <= b.
Definition digit (c : ascii) : Prop := between 48 57 c.
Definition alnum (c : ascii) : Prop := between 48 57 c \/ between 65 90 c \/ between 97 122 c.
Definition printable (c : ascii) : Prop := between 32 126 c.
(** a name of Fortran: letters and digits *)
Definition identifier (s : text) : Prop := s <> [] /\ Forall alnum s.
(** what may stand between quotes *)
Definition quotable (s : text) : Prop := Forall (fun c => printable c /\ ~ In c (t_ "'!\")) s.
(** decimal numbers with a point or an exponent, as written and as float() sees them *)
Definition sign (s : text) : Prop := s = [] \/ s = t_ "+" \/ s = t_ "-".
Inductive expo : text -> text -> Prop :=
| expo_some : forall e sg d, In e (t_ "eEdD") -> sign sg -> d <> [] -> Forall digit d -> expo (e :: sg ++ d) ("E"%char :: sg ++ d).
Inductive float_text : text -> text -> Prop :=
| with_point : forall sg d f, sign sg -> d <> [] -> Forall digit d -> Forall digit f ->
    float_text (sg ++ d ++ t_ "." ++ f) (sg ++ d ++ t_ "." ++ f)
| with_point_expo : forall sg d f e e', sign sg -> d <> [] -> Forall digit d -> Forall digit f -> expo e e' ->
    float_text (sg ++ d ++ t_ "." ++ f ++ e) (sg ++ d ++ t_ "." ++ f ++ e')
| with_expo : forall d e e', d <> [] -> Forall digit d -> expo e e' -> float_text (d ++ e) (d ++ e').
(** the part of a name after the last colon *)
Fixpoint after_colon (cur s : text) : text :=
  match s with
  | [] => rev cur
  | c :: r => if Ascii.eqb c ":" then after_colon [] r else after_colon (c :: cur) r
  end.
Definition local_name (name : text) : text := after_colon [] name.

Section Spec.
Variable F : Type.
Variable fshow : F -> res text.
Variable fread : text -> F.

(** the float is written as a number the grammar knows, and float() gives it back *)
Definition float_ok (x : F) : Prop := exists w t, fshow x = Ok w /\ float_text w t /\ fread t = x.
Definition scalar_ok (s : scalar F) : Prop :=
  match s with SInt _ _ | SBool _ _ => True | SFloat _ x => float_ok x | SStr _ w => quotable w end.
Definition all_ints (l : list (scalar F)) : Prop := forall s, In s l -> exists z, s = SInt F z.
Definition all_floats (l : list (scalar F)) : Prop := forall s, In s l -> exists x, s = SFloat F x /\ float_ok x.
Definition numbers (l : list (scalar F)) : Prop := all_ints l \/ all_floats l.
Definition value_ok (v : value F) : Prop :=
  match v with
  | Scalar _ s => scalar_ok s
  | PyList _ [] => False
  | PyList _ [s] | Array1 _ [s] => scalar_ok s
  | PyList _ l | Array1 _ l => numbers l
  | Array2 _ rows => numbers (concat rows) /\ exists n, 0 < n /\ forall r, In r rows -> length r = n
  | ArrayN _ | Other _ => False
  end.
(** a comment is marked, and does not end in a slash *)
Definition comment_ok (s : text) : Prop :=
  Forall printable s /\ In "!"%char s /\ ~ exists a sp, s = a ++ t_ "/" ++ sp /\ Forall (eq " "%char) sp.
Definition card_ok (c : card F) : Prop :=
  match c with Card _ n v => identifier (local_name n) /\ value_ok v | Comment _ s => comment_ok s end.
(** a line outside of the groups: not blank, no blanks at the end, no mark of a group *)
Definition free_ok (s : text) : Prop :=
  Forall (fun c => printable c /\ ~ In c (t_ "&$")) s /\ s <> [] /\ last s " "%char <> " "%char.
Definition group_ok (g : group F) : Prop :=
  match snd g with [] => free_ok (fst g) | cs => identifier (fst g) /\ Forall card_ok cs end.
(** the title has no blanks around it; without a title, the first group must not be a
    free-form line, which would be taken for the title *)
Definition deck_ok (d : deck F) : Prop :=
  Forall group_ok (groups F d) /\
  match title F d with
  | [] => match groups F d with (_, []) :: _ => False | _ => True end
  | t => free_ok t /\ hd " "%char t <> " "%char
  end.

(** ** What is read back *)
Definition read_value (v : value F) : value F :=
  match v with
  | PyList _ [s] | Array1 _ [s] => Scalar F s
  | PyList _ l => Array1 F l
  | Array2 _ [r] => Array1 F r
  | _ => v
  end.
Definition read_back (c : card F) : list (card F) :=
  match c with
  | Comment _ _ | Card _ _ (Array1 _ []) | Card _ _ (Array2 _ []) => []
  | Card _ n v => [Card F (local_name n) (read_value v)]
  end.
Definition read_deck (d : deck F) : deck F :=
  mkDeck F (title F d) (map (fun g => (fst g, flat_map read_back (snd g))) (groups F d)).

(** the cards that come back as they were *)
Definition settled (c : card F) : Prop :=
  match c with
  | Comment _ _ => False
  | Card _ n v =>
      ~ In ":"%char n /\
      match v with
      | Scalar _ _ => True
      | Array1 _ l => 2 <= length l
      | Array2 _ rows => 2 <= length rows
      | _ => False
      end
  end.

(** the numbers of a row separated by commas, indented, perhaps with a comma at the end *)
Definition number_line (row : list (scalar F)) (line : text) : Prop :=
  exists sp ws c, Forall (eq " "%char) sp /\ fmt_all F fshow row = Ok ws /\ (c = [] \/ c = t_ ",") /\ line = sp ++ join (t_ ", ") ws ++ c.
(** a card as it stands on a line *)
Definition card_text (c : text * list (scalar F)) (w : text) : Prop :=
  exists ws, fmt_all F fshow (snd c) = Ok ws /\ w = fst c ++ t_ " = " ++ join (t_ ", ") ws.
(** a name that does not begin like a number *)
Definition opens_card (n : text) : Prop :=
  (forall c r, n = c :: r -> ~ digit c) /\ (forall r, n <> t_ "NaN" ++ r) /\ (forall r, n <> t_ "Inf" ++ r).
Definition one_or_array (l : list (scalar F)) : value F := match l with [s] => Scalar F s | _ => Array1 F l end.
End Spec.
Definition file_of (lines : list text) : text := concat (map (fun l => l ++ [newline_char]) lines).

(** ** Loading a deck into a component *)
Section Load.
Variable F : Type.
Fixpoint first_some {A} (l : list (option A)) : option A :=
  match l with [] => None | Some a :: _ => Some a | None :: r => first_some r end.
(** a name as it stands, or in lower case *)
Definition either (p : params F) (prefix name : text) : option text :=
  first_some (map (fun n => if has p (prefix ++ n) then Some (prefix ++ n) else None) [name; lower name]).
(** where a card of group [g] goes: the last container of the rules that has it *)
Definition target (p : params F) (rules : rule) (g name : text) : option text :=
  match rules with
  | [] => either p [] name
  | _ => match get rules g with
         | Some containers => first_some (map (fun c => either p (c ++ t_ ":") name) (rev containers))
         | None => None
         end
  end.
Definition numbered (gs : list (group F)) : list (nat * group F) := combine (seq 0 (length gs)) gs.
Definition has_cards (g : group F) : bool := match snd g with [] => false | _ => true end.
(** a group whose cards are loaded: the first of its name that has cards, and known to the rules *)
Definition known (rules : rule) (g : group F) : bool := match rules with [] => true | _ => has rules (fst g) end.
Definition fresh (gs : list (group F)) (ig : nat * group F) : bool :=
  negb (existsb (fun g => has_cards g && text_eqb (fst g) (fst (snd ig))) (firstn (fst ig) gs)).
Definition is_loaded (rules : rule) (gs : list (group F)) (ig : nat * group F) : bool :=
  has_cards (snd ig) && (fresh gs ig && known rules (snd ig)).
(** the cards that are looked at, with the name of their group *)
Definition looked_at (rules : rule) (gs : list (group F)) : list (text * card F) :=
  flat_map (fun ig => map (pair (fst (snd ig))) (snd (snd ig))) (filter (is_loaded rules gs) (numbered gs)).
Definition ids (l : list (nat * group F)) : list (nat * text) := map (fun ig => (fst ig, fst (snd ig))) l.
(** the values that are stored in [v], in order *)
Definition stored_in (p : params F) (rules : rule) (v : text) (gc : text * card F) : list (value F) :=
  match target p rules (fst gc) (entry_name F (snd gc)) with
  | Some t => if text_eqb t v then [entry_value F (snd gc)] else []
  | None => []
  end.
Definition missing (p : params F) (rules : rule) (ignore : list text) (gc : text * card F) : list text :=
  let n := entry_name F (snd gc) in
  match target p rules (fst gc) n with
  | Some _ => []
  | None => if mem n ignore || mem (lower n) ignore then [] else [n]
  end.
(** what storing makes of a value: a number in an array is an array, once the component is
    set up *)
Definition held (after_setup : bool) (old new : value F) : value F :=
  match old, new with
  | (Array1 _ _ | Array2 _ _ | ArrayN _), Scalar _ ((SInt _ _ | SFloat _ _ | SBool _ _) as s) => if after_setup then Array1 F [s] else new
  | _, _ => new
  end.
End Load.

(** How the words of a line should be read: integers, floats (with the exponent letters of
    Fortran), the special words for infinity and not-a-number, and anything else as text. *)
From Verif Require Import Base ExprModel LcnModel TokModel.
Local Open Scope list_scope.

Definition tab : ascii := ascii_of_nat 9.
Definition newline : ascii := ascii_of_nat 10.
Definition digit_char (c : ascii) : Prop := In c (t_ "0123456789").
Definition is_digits (d : txt) : Prop := d <> [] /\ forall c, In c d -> digit_char c.
Definition opt_sign (s : txt) : Prop := s = [] \/ s = t_ "+" \/ s = t_ "-".
Definition exp_letter (c : ascii) : Prop := In c (t_ "eEdD").
Definition all_space (d : txt) : Prop := d <> [] /\ forall c, In c d -> spacec c = true.
Definition alnum_char (c : ascii) : Prop := In c (t_ "0123456789ABCDEFGHIJKLMNOPQRSTUVWXYZabcdefghijklmnopqrstuvwxyz").
(** the characters a word may have, for a delimiter text *)
Definition text_char (delimiter : txt) (c : ascii) : Prop :=
  (all_space delimiter /\ (33 <= nat_of_ascii c <= 126)%nat)
  \/ (~ all_space delimiter /\ (alnum_char c \/ (In c (t_ "./+*^()[]=:;?%&!#|<>{}-_@$~") /\ ~ In c delimiter))).
(** the characters skipped are not characters of words, those of numbers are *)
Definition delims (ws delimiter : txt) : Prop :=
  (forall c, In c ws -> ~ text_char delimiter c) /\ (all_space delimiter \/ forall c, In c (t_ "+-.#%") -> ~ In c delimiter).

(** the parts of a float *)
Definition mantissa (m : txt) : Prop :=
  (exists d e, is_digits d /\ (e = [] \/ is_digits e) /\ m = d ++ "."%char :: e) \/ (exists d, is_digits d /\ m = "."%char :: d).
Definition exponent (x v : txt) : Prop :=
  (x = [] /\ v = []) \/ (exists c s d, exp_letter c /\ opt_sign s /\ is_digits d /\ x = c :: s ++ d /\ v = "E"%char :: s ++ d).
(** a word that begins neither like a number nor like a special word *)
Definition plain_start (w : txt) : Prop :=
  (forall s d r, opt_sign s -> digit_char d -> w <> s ++ d :: r)
  /\ (forall s d r, opt_sign s -> digit_char d -> w <> s ++ "."%char :: d :: r)
  /\ (forall x r, In x (map t_ ["Inf"; "-Inf"; "NaN"; "nan"; "qNaN"; "sNaN"; "1.#SNAN"; "1.#QNAN"; "-1.#IND"]%string) -> w <> x ++ r).

Inductive reads (delimiter : txt) : txt -> tok -> Prop :=
| reads_int : forall s d, opt_sign s -> is_digits d -> reads delimiter (s ++ d) (TInt (s ++ d))
| reads_float : forall s m x v, opt_sign s -> mantissa m -> exponent x v -> reads delimiter (s ++ m ++ x) (TFloat (s ++ m ++ v))
| reads_exp : forall d x v, is_digits d -> exponent x v -> x <> [] -> reads delimiter (d ++ x) (TFloat (d ++ v))
| reads_inf : reads delimiter (t_ "Inf") TInf
| reads_nan : forall w, In w (map t_ ["NaN"; "nan"; "NaN%"; "NaNQ"; "NaNS"; "qNaN"; "sNaN"; "1.#SNAN"; "1.#QNAN"; "-1.#IND"]%string) -> reads delimiter w TNan
| reads_text : forall w, w <> [] -> (forall c, In c w -> text_char delimiter c) -> plain_start w -> reads delimiter w (TStr w).

(** words laid out in a line, with delimiters before, between and after them and perhaps the
    end of line *)
Inductive laid (ws : txt) : list txt -> txt -> Prop :=
| laid_last : forall g w e, (forall c, In c g -> In c ws) -> (exists h, (forall c, In c h -> In c ws) /\ (e = h \/ e = h ++ [newline])) -> laid ws [w] (g ++ w ++ e)
| laid_more : forall g w c l words, (forall c, In c g -> In c ws) -> In c ws -> laid ws words l -> laid ws (w :: words) (g ++ w ++ c :: l).

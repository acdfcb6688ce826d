(** The fragment of Python in which the texts built by components/constraint.py are read:
    the part of the language reference ("Lexical analysis", "Expressions") that compile()
    and exec() of exec_comp.py lines 180 and 211-212 apply to them.
    Numbers are decimal numbers without an exponent, read as rational numbers; names may
    contain dots and colons (exec_comp.py line 17; what becomes of the colons is C52).
    Expressions are sums, products, powers, signs, calls with positional arguments,
    subscripts, parentheses and (chained) comparisons of numbers; and, or, not, if, lambda,
    tuples, keyword arguments, strings, integer division and bit operations are not read
    (such a text has no reading here).  Called functions, subscripts and powers are
    arguments and may fail; division by zero fails. *)
From Verif Require Import Base OrderModel FileModel ExprModel.
Local Open Scope char_scope.
Local Open Scope nat_scope.
Local Open Scope list_scope.

Inductive cop := CLt | CGt | CLe | CGe | CEq.
Inductive tok :=
| TNum (q : Q) | TName (n : text) | TPlus | TMinus | TStar | TSlash | TPow
| TLp | TRp | TLb | TRb | TComma | TCmp (c : cop) | TAssign.

(** ** Lexical analysis *)
Definition blank (c : ascii) : bool := Ascii.eqb c " "%char || Ascii.eqb c "009"%char.
Definition dot : ascii := "."%char.
Definition digits_val (d : text) : Z := fold_left (fun v c => (10 * v + Z.of_nat (nat_of_ascii c - 48))%Z) d 0%Z.
(** a decimal number at the start of a text, and the text after it *)
Definition number (s : text) : option (Q * text) :=
  let (ip, r) := span digit s in
  match r with
  | c :: r1 => if Ascii.eqb c dot
               then let (fp, r2) := span digit r1 in
                    match ip ++ fp with [] => None | d => Some (Qred (digits_val d # Pos.of_nat (10 ^ length fp)), r2) end
               else match ip with [] => None | _ :: _ => Some (inject_Z (digits_val ip), r) end
  | [] => match ip with [] => None | _ :: _ => Some (inject_Z (digits_val ip), r) end
  end.
Definition namec (c : ascii) : bool := wordc c || Ascii.eqb c dot || Ascii.eqb c colon.
(** the tokens of one character, and those that a second character changes: that
    character, the token of both and the token of the first alone *)
Definition single (c : ascii) : option tok :=
  if Ascii.eqb c "+" then Some TPlus else if Ascii.eqb c "-" then Some TMinus else if Ascii.eqb c "/" then Some TSlash
  else if Ascii.eqb c "(" then Some TLp else if Ascii.eqb c ")" then Some TRp
  else if Ascii.eqb c "[" then Some TLb else if Ascii.eqb c "]" then Some TRb
  else if Ascii.eqb c "," then Some TComma else None.
Definition double (c : ascii) : option (ascii * tok * tok) :=
  if Ascii.eqb c "*" then Some ("*"%char, TPow, TStar)
  else if Ascii.eqb c "<" then Some ("="%char, TCmp CLe, TCmp CLt)
  else if Ascii.eqb c ">" then Some ("="%char, TCmp CGe, TCmp CGt)
  else if Ascii.eqb c "=" then Some ("="%char, TCmp CEq, TAssign) else None.
(** one token at the start of a text that does not start with a blank *)
Definition lex1 (s : text) : option (tok * text) :=
  match s with
  | [] => None
  | c :: r =>
      if letter c then let (w, r1) := span namec r in Some (TName (c :: w), r1)
      else if digit c || Ascii.eqb c dot
      then match number s with
           | Some (q, d :: r1) => if namec d then None else Some (TNum q, d :: r1)
           | Some (q, []) => Some (TNum q, [])
           | None => None
           end
      else match single c, double c, r with
           | Some t, _, _ => Some (t, r)
           | None, Some (d2, t2, t1), d :: r1 => if Ascii.eqb d d2 then Some (t2, r1) else Some (t1, r)
           | None, Some (_, _, t1), [] => Some (t1, r)
           | None, None, _ => None
           end
  end.
Fixpoint lex (fuel : nat) (s : text) : option (list tok) :=
  match s with
  | [] => Some []
  | c :: r =>
      match fuel with
      | 0 => None
      | S f => if blank c then lex f r
               else match lex1 s with
                    | Some (t, r1) => match lex f r1 with Some ts => Some (t :: ts) | None => None end
                    | None => None
                    end
      end
  end.
Definition tokens (s : text) : option (list tok) := lex (length s) s.

(** ** Expressions *)
Inductive expr :=
| ENum (q : Q) | EVar (n : text)
| EAdd (a b : expr) | ESub (a b : expr) | EMul (a b : expr) | EDiv (a b : expr) | EPow (a b : expr)
| ENeg (a : expr) | ECall (f : text) (args : list expr) | EIndex (a i : expr)
| ECmp (a : expr) (rest : list (cop * expr)).

(** where the reader is: at the start of an expression of a level, or after its first part *)
Inductive mode :=
| MCmp | MCmpL (a : expr) (done : list (cop * expr))
| MArith | MArithL (a : expr)
| MTerm | MTermL (a : expr)
| MFactor | MPower | MAtom | MPost (a : expr)
| MArgs (f : text) (done : list expr).
(** comparison, a_expr, m_expr, u_expr, power, primary and atom of the language reference *)
Fixpoint parse (fuel : nat) (m : mode) (ts : list tok) : option (expr * list tok) :=
  match fuel with
  | 0 => None
  | S f =>
      match m with
      | MCmp => match parse f MArith ts with Some (a, r) => parse f (MCmpL a []) r | None => None end
      | MCmpL a done =>
          match ts with
          | TCmp c :: r => match parse f MArith r with Some (b, r1) => parse f (MCmpL a (done ++ [(c, b)])) r1 | None => None end
          | _ => Some (match done with [] => a | _ :: _ => ECmp a done end, ts)
          end
      | MArith => match parse f MTerm ts with Some (a, r) => parse f (MArithL a) r | None => None end
      | MArithL a =>
          match ts with
          | TPlus :: r => match parse f MTerm r with Some (b, r1) => parse f (MArithL (EAdd a b)) r1 | None => None end
          | TMinus :: r => match parse f MTerm r with Some (b, r1) => parse f (MArithL (ESub a b)) r1 | None => None end
          | _ => Some (a, ts)
          end
      | MTerm => match parse f MFactor ts with Some (a, r) => parse f (MTermL a) r | None => None end
      | MTermL a =>
          match ts with
          | TStar :: r => match parse f MFactor r with Some (b, r1) => parse f (MTermL (EMul a b)) r1 | None => None end
          | TSlash :: r => match parse f MFactor r with Some (b, r1) => parse f (MTermL (EDiv a b)) r1 | None => None end
          | _ => Some (a, ts)
          end
      | MFactor =>
          match ts with
          | TMinus :: r => match parse f MFactor r with Some (a, r1) => Some (ENeg a, r1) | None => None end
          | TPlus :: r => parse f MFactor r
          | _ => parse f MPower ts
          end
      | MPower =>
          match parse f MAtom ts with
          | Some (a, TPow :: r) => match parse f MFactor r with Some (b, r1) => Some (EPow a b, r1) | None => None end
          | x => x
          end
      | MAtom =>
          match ts with
          | TNum q :: r => parse f (MPost (ENum q)) r
          | TName n :: TLp :: TRp :: r => parse f (MPost (ECall n [])) r
          | TName n :: TLp :: r => match parse f (MArgs n []) r with Some (a, r1) => parse f (MPost a) r1 | None => None end
          | TName n :: r => parse f (MPost (EVar n)) r
          | TLp :: r => match parse f MCmp r with Some (a, TRp :: r1) => parse f (MPost a) r1 | _ => None end
          | _ => None
          end
      | MPost a =>
          match ts with
          | TLb :: r => match parse f MCmp r with Some (i, TRb :: r1) => parse f (MPost (EIndex a i)) r1 | _ => None end
          | _ => Some (a, ts)
          end
      | MArgs n done =>
          match parse f MCmp ts with
          | Some (a, TComma :: r) => parse f (MArgs n (done ++ [a])) r
          | Some (a, TRp :: r) => Some (ECall n (done ++ [a]), r)
          | _ => None
          end
      end
  end.
(** more steps than a reading needs *)
Definition fuel_for (m : mode) (ts : list tok) : nat := 16 * length ts + match m with MCmp => 16 | _ => 12 end.
Definition parse_all (m : mode) (ts : list tok) : option expr :=
  match parse (fuel_for m ts) m ts with Some (e, []) => Some e | _ => None end.
Definition read (m : mode) (s : text) : option expr :=
  match tokens s with Some ts => parse_all m ts | None => None end.
(** a text read as an expression, and as an expression that is not a bare comparison *)
Definition expression (s : text) : option expr := read MCmp s.
Definition arithmetic (s : text) : option expr := read MArith s.

(** ** Values.  A comparison is 1 if it holds and 0 otherwise, as bool is for arithmetic. *)
Definition env := text -> option Q.
Record world := mkWorld {
  w_call : text -> list Q -> option Q;
  w_index : Q -> Q -> option Q;
  w_pow : Q -> Q -> option Q
}.
Definition truth (c : cop) (x y : Q) : bool :=
  match c with
  | CLt => negb (Qle_bool y x)
  | CGt => negb (Qle_bool x y)
  | CLe => Qle_bool x y
  | CGe => Qle_bool y x
  | CEq => Qeq_bool x y
  end.
Definition lift2 (g : Q -> Q -> option Q) (x y : option Q) : option Q :=
  match x, y with Some a, Some b => g a b | _, _ => None end.
Fixpoint eval (W : world) (rho : env) (e : expr) : option Q :=
  match e with
  | ENum q => Some q
  | EVar n => rho n
  | EAdd a b => lift2 (fun x y => Some (x + y)%Q) (eval W rho a) (eval W rho b)
  | ESub a b => lift2 (fun x y => Some (x - y)%Q) (eval W rho a) (eval W rho b)
  | EMul a b => lift2 (fun x y => Some (x * y)%Q) (eval W rho a) (eval W rho b)
  | EDiv a b => lift2 (fun x y => if Qeq_bool y 0 then None else Some (x / y)%Q) (eval W rho a) (eval W rho b)
  | EPow a b => lift2 (w_pow W) (eval W rho a) (eval W rho b)
  | ENeg a => option_map Qopp (eval W rho a)
  | ECall f args =>
      let fix vals (l : list expr) : option (list Q) :=
        match l with
        | [] => Some []
        | a :: l' => match eval W rho a, vals l' with Some v, Some vs => Some (v :: vs) | _, _ => None end
        end in
      match vals args with Some vs => w_call W f vs | None => None end
  | EIndex a i => lift2 (w_index W) (eval W rho a) (eval W rho i)
  | ECmp a rest =>
      let fix chain (x : Q) (l : list (cop * expr)) : option Q :=
        match l with
        | [] => Some 1%Q
        | (c, b) :: l' => match eval W rho b with
                          | Some y => if truth c x y then chain y l' else Some 0%Q
                          | None => None
                          end
        end in
      match eval W rho a with Some x => chain x rest | None => None end
  end.

(** ** An assignment statement: exec() of its code.  The targets before the last equals
    sign are names, set from left to right. *)
Fixpoint statement (ts : list tok) : option (list text * list tok) :=
  match ts with
  | TName n :: TAssign :: r => match statement r with Some (l, e) => Some (n :: l, e) | None => None end
  | _ => Some ([], ts)
  end.
Definition assign (rho : env) (n : text) (v : Q) : env := fun m => if teqb m n then Some v else rho m.
Definition exec (W : world) (s : text) (rho : env) : option env :=
  match tokens s with
  | Some ts =>
      match statement ts with
      | Some (n :: l, body) =>
          match parse_all MCmp body with
          | Some e => match eval W rho e with Some v => Some (fold_left (fun r m => assign r m v) (n :: l) rho) | None => None end
          | None => None
          end
      | _ => None
      end
  | None => None
  end.

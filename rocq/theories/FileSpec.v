(** What file wrapping should satisfy, in terms of fields and gaps. *)
From Verif Require Import Base FileModel.
Local Open Scope nat_scope.

(** a line is a gap followed by fields, each with the gap after it *)
Definition layout : Type := (text * list (text * text))%type.
Definition flat_fields (ws : list (text * text)) : text := flat_map (fun wg => fst wg ++ snd wg) ws.
Definition flat (l : layout) : text := fst l ++ flat_fields (snd l).

Definition is_gap (isd : ascii -> bool) (g : text) : Prop := Forall (fun c => isd c = true) g.
Definition is_field (isd : ascii -> bool) (w : text) : Prop := w <> [] /\ Forall (fun c => isd c = false) w.
(** two fields are separated by a gap *)
Fixpoint separated (ws : list (text * text)) : Prop :=
  match ws with
  | (_, g) :: r => match r with [] => True | _ :: _ => g <> [] end /\ separated r
  | [] => True
  end.
Definition laid_out (isd : ascii -> bool) (l : layout) (line : text) : Prop :=
  line = flat l /\ is_gap isd (fst l) /\ Forall (fun wg => is_field isd (fst wg) /\ is_gap isd (snd wg)) (snd l) /\ separated (snd l).

(** a text occurs in another *)
Definition occurs (sep s : text) : Prop := exists a b, s = a ++ sep ++ b.

(** lines a file differs in at most *)
Definition only_line (i : nat) (d d' : list text) : Prop := length d' = length d /\ forall j, j <> i -> nth_error d' j = nth_error d j.

(** filling the addressed fields (numbers fs to fe, counted from n) with values as
    long as there are any; the values left over *)
Fixpoint fill (fs fe : Z) (n : nat) (ws : list (text * text)) (vals : list text) : list (text * text) * list text :=
  match ws with
  | [] => ([], vals)
  | (w, g) :: r =>
      if (fs <=? Z.of_nat n)%Z && (Z.of_nat n <=? fe)%Z then
        match vals with
        | v :: vs => let o := fill fs fe (S n) r vs in ((v, g) :: fst o, snd o)
        | [] => let o := fill fs fe (S n) r [] in ((w, g) :: fst o, snd o)
        end
      else let o := fill fs fe (S n) r vals in ((w, g) :: fst o, snd o)
  end.
(** several lines: from field fs of the first to field fe of the last *)
Fixpoint fill_lines (fs fe : Z) (ls : list layout) (vals : list text) : list layout * list text :=
  match ls with
  | [] => ([], vals)
  | l :: r =>
      let o := fill fs (match r with [] => fe | _ :: _ => 99999%Z end) 1 (snd l) vals in
      let p := fill_lines 0 fe r (snd o) in
      ((fst l, fst o) :: fst p, snd p)
  end.

(** the n-th line (from 1) holding a text: its distance *)
Inductive nth_hit (P : text -> Prop) : nat -> list text -> nat -> Prop :=
| hit_here : forall l r, P l -> nth_hit P 1 (l :: r) 0
| hit_next : forall n l r k, P l -> nth_hit P (S n) r k -> nth_hit P (S (S n)) (l :: r) (S k)
| hit_skip : forall n l r k, ~ P l -> nth_hit P n r k -> nth_hit P n (l :: r) (S k).

(** the addressed fields of a line, and the others *)
Fixpoint addressed (fs fe : Z) (n : nat) (ws : list (text * text)) : list text :=
  match ws with
  | [] => []
  | (w, _) :: r => if (fs <=? Z.of_nat n)%Z && (Z.of_nat n <=? fe)%Z then w :: addressed fs fe (S n) r else addressed fs fe (S n) r
  end.
Fixpoint unaddressed (fs fe : Z) (n : nat) (ws : list (text * text)) : list text :=
  match ws with
  | [] => []
  | (w, _) :: r => if (fs <=? Z.of_nat n)%Z && (Z.of_nat n <=? fe)%Z then unaddressed fs fe (S n) r else w :: unaddressed fs fe (S n) r
  end.

(** the text before the first occurrence of a comment sign *)
Definition uncommented (sep line x : text) : Prop :=
  (~ occurs sep line /\ x = line) \/ (exists rest, line = x ++ sep ++ rest /\ forall y z, line = y ++ sep ++ z -> length x <= length y).
Definition starts_with (sign : option text) (line : text) : Prop := match sign, line with Some f, c :: _ => f = [c] | _, _ => False end.

(** the lines a parser keeps: comment lines are dropped, the others end at the comment sign *)
Inductive kept (sep : text) (full : option text) : list text -> list text -> Prop :=
| kept_nil : kept sep full [] []
| kept_skip : forall line ls out, starts_with full line -> kept sep full ls out -> kept sep full (line :: ls) out
| kept_line : forall line x ls out, ~ starts_with full line -> uncommented sep line x -> kept sep full ls out -> kept sep full (line :: ls) (x :: out).

(** the fields from number fs+1 of the first line to number fe of the last *)
Definition field_range {T} (fs fe : nat) (fss : list (list T)) : list T :=
  match fss with
  | [] => []
  | [f] => firstn (fe - fs) (skipn fs f)
  | f :: rest => skipn fs f ++ concat (removelast rest) ++ firstn fe (List.last rest [])
  end.

(** delimiters without a special meaning in a character class *)
Definition plain (d : text) : Prop := Forall (fun c => c <> "-"%char /\ c <> "]"%char /\ c <> "\"%char) d.

(** each line filled with a row of its own *)
Fixpoint fill_rows (fs fe : Z) (ls : list layout) (rows : list (list text)) : list layout :=
  match ls, rows with
  | l :: ls', v :: rows' => (fst l, fst (fill fs fe 1 (snd l) v)) :: fill_rows fs fe ls' rows'
  | _, _ => []
  end.

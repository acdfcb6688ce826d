(** What a report of connections says: read line by line, a line without a source belongs to
    the source of the line above. *)
From Coq Require Import Permutation.
From Verif Require Import Base ExprModel LcnModel.
Local Open Scope list_scope.

Definition is_space (c : ascii) : bool := Ascii.eqb c space.
Fixpoint trim_left (s : txt) : txt := match s with c :: r => if is_space c then trim_left r else s | [] => [] end.
Definition rtrim (s : txt) : txt := rev (trim_left (rev s)).
Definition blank (s : txt) : bool := forallb is_space s.
Fixpoint rows (cur : txt) (l : list item) : list (txt * txt) :=
  match l with
  | [] => []
  | Head _ :: r => rows [] r
  | Line s t :: r => if blank s then (cur, t) :: rows cur r else (rtrim s, t) :: rows (rtrim s) r
  end.
(** sources from the first to the last, targets from the first to the last below each *)
Fixpoint ordered (prev : option (txt * txt)) (l : list item) : Prop :=
  match l with
  | [] => True
  | Head _ :: r => ordered None r
  | Line s t :: r =>
      if blank s then match prev with Some (s0, t0) => leb_text t0 t = true /\ ordered (Some (s0, t)) r | None => False end
      else match prev with Some (s0, _) => leb_text s0 s = true | None => True end /\ ordered (Some (s, t)) r
  end.

(** names of variables: some character, no space, no "." or "{" first *)
Definition good (n : txt) : Prop := ~ In space n /\ exists c r, n = c :: r /\ c <> "."%char /\ c <> "{"%char.
(** a name below [rel] is shown from its dot on *)
Definition shown (rel n : txt) : txt :=
  if text_dec rel [] then n else if text_dec (firstn (S (length rel)) n) (rel ++ ["."%char]) then "."%char :: skipn (S (length rel)) n else n.
Definition words (a b c : txt) : txt := (a ++ [space] ++ b ++ [space] ++ c).
Definition unit_note (u : unit_) : txt := match u with Unit_ (c :: r) => "["%char :: (c :: r) ++ ["]"%char] | _ => [] end.
Definition has_text (u : unit_) : Prop := u <> UnitNone.
Section Rows.
  Variables punits uunits : txt -> unit_.
  Variable prom : txt -> txt.
  Definition source_cell (rel s : txt) : txt := rtrim (words (shown rel s) (if text_dec (prom s) s then [] else "("%char :: prom s ++ [")"%char]) (unit_note (uunits s))).
  (** a promoted target: "*" if the source is promoted to the same name *)
  Definition target_cell (rel t : txt) (s : option txt) : txt :=
    words (shown rel t)
      (if text_dec (prom t) t then []
       else if match s with Some s => if text_dec (prom t) (prom s) then true else false | None => false end then t_ "(*)"
       else "("%char :: prom t ++ [")"%char])
      (unit_note (punits t)).
  Variable conns : list (txt * txt).
  Definition conn_row (rel : txt) (c : txt * txt) : txt * txt := (source_cell rel (snd c), target_cell rel (fst c) (Some (snd c))).
  (** the name is below the path; every name is below the root *)
  Definition below (path n : txt) : Prop := path = [] \/ exists r, n = path ++ "."%char :: r.
  (** the connections of which one end is below [path] *)
  Definition touching (path : txt) (c : txt * txt) : Prop := below path (snd c) \/ below path (fst c).
End Rows.

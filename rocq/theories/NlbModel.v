(** Model of how a namelist is put together: openmdao/util/namelist_util.py __init__ (lines
    118-131), add_group (154-165), add_var (167-181), add_newvar (183-194), add_container (196-215),
    add_comment (217-228), and the name under which a card is written (line 246).  Values are of any
    type; reading the value of a variable of the component is an argument (lines 176-179).  An
    exception ends the building; what is left behind is not kept. *)
From Verif Require Import Base PrfModel.
Local Open Scope list_scope.
Local Open Scope nat_scope.

Section Build.
  (** a comment is a value as well *)
  Context {V : Type} (params : list string) (value : string -> option V).

  Record card := Card { c_name : string; c_value : V; c_comment : bool }.
  Record deck := Deck { groups : list string; cards : list (list card); current : nat }.
  Definition empty : deck := Deck [] [] 0.
  Fixpoint append_at {A} (l : list (list A)) (i : nat) (a : A) : res (list (list A)) :=
    match l, i with
    | [], _ => Err IndexError
    | x :: l, 0 => Ok ((x ++ [a]) :: l)
    | x :: l, S i => let! l := append_at l i a in Ok (x :: l)
    end.
  Definition add_card (d : deck) (c : card) : res deck :=
    let! l := append_at (cards d) (current d) c in Ok (Deck (groups d) l (current d)).
  Definition add_group (d : deck) (n : string) : deck :=
    let g := groups d ++ [n] in Deck g (cards d ++ [[]]) (length g - 1).
  Definition add_var (d : deck) (n : string) : res deck :=
    match value n with Some v => add_card d (Card n v false) | None => Err KeyError end.
  (** sorted() *)
  Fixpoint insert (n : string) (l : list string) : list string :=
    match l with [] => [n] | m :: r => if String.leb n m then n :: l else m :: insert n r end.
  Definition sort (l : list string) : list string := fold_right insert [] l.
  (** name.startswith(p), name[len(p):] *)
  Fixpoint after (p n : string) : option string :=
    match p, n with
    | EmptyString, _ => Some n
    | String a p, String b n => if Ascii.eqb a b then after p n else None
    | _, _ => None
    end.
  Definition chosen (path : string) (skip : list string) (n : string) : bool :=
    match after (append path ":") n with
    | Some sub => negb (existsb (String.eqb sub) skip)
    | None => false
    end.
  Definition add_container (d : deck) (path : string) (skip : list string) : res deck :=
    fold_left (fun r n => let! d := r in if chosen path skip n then add_var d n else Ok d) (sort params) (Ok d).

  Inductive call := AddGroup (n : string) | AddVar (n : string) | AddNew (n : string) (v : V) | AddContainer (path : string) (skip : list string) | AddComment (v : V).
  Definition perform (d : deck) (o : call) : res deck :=
    match o with
    | AddGroup n => Ok (add_group d n)
    | AddVar n => add_var d n
    | AddNew n v => add_card d (Card n v false)
    | AddContainer p s => add_container d p s
    | AddComment v => add_card d (Card "C" v true)
    end.
  Definition build (l : list call) : res deck := fold_left (fun r o => bind r (fun d => perform d o)) l (Ok empty).
End Build.
Arguments card : clear implicits.
Arguments deck : clear implicits.
Arguments call : clear implicits.

(** card.name.split(":")[-1] *)
Definition written_name (n : string) : string := last (split_on ":" n) ""%string.

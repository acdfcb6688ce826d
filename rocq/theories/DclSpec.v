(** What a component knows of its variables. *)
From Verif Require Import Base ExprModel LcnModel DclModel.
Local Open Scope list_scope.

(** names: identifiers separated by colons *)
Definition letters : txt := t_ "_abcdefghijklmnopqrstuvwxyzABCDEFGHIJKLMNOPQRSTUVWXYZ".
Definition digits : txt := t_ "0123456789".
Definition identifier (w : txt) : Prop := exists c r, w = c :: r /\ In c letters /\ forall d, In d r -> In d letters \/ In d digits.
Fixpoint colons (ws : list txt) : txt := match ws with [] => [] | [w] => w | w :: r => w ++ ":"%char :: colons r end.
Definition is_name (s : txt) : Prop := exists ws, ws <> [] /\ (forall w, In w ws -> identifier w) /\ s = colons ws.

(** the positions in an array of some shape, the entries of a value *)
Fixpoint positions (l : list nat) : list (list nat) := match l with [] => [[]] | n :: r => flat_map (fun i => map (cons i) (positions r)) (seq 0 n) end.
Definition entries (v : value) : nat := match v_arr v with Some l => length (positions l) | None => 1%nat end.
(** the shape of a value as written in the metadata *)
Definition shape_of (v : value) : shp := match v_arr v with Some l => STup l | None => SInt 1 end.

Definition param (c : comp) (n : txt) (m : meta) : Prop := In (n, m) (c_params c).
Definition unknown (c : comp) (n : txt) (m : meta) : Prop := In (n, m) (c_unknowns c).
Definition declared (c : comp) (n : txt) : Prop := exists m, param c n m \/ unknown c n m.
(** the variable a call is about *)
Definition about (a : call) : txt := match a with AddParam n _ _ | AddOutput n _ _ | AddState n _ _ | SetIdx n _ _ _ => n end.
Definition adds (a : call) : Prop := match a with SetIdx _ _ _ _ => False | _ => True end.

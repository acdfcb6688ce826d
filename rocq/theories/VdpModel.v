(** Model of the dump of a vector: openmdao/core/vec_wrapper.py VecWrapper.dump (lines 713-767).
    A variable has its name, the text of its slice if it has one, the text of its value, and whether
    it is passed by object or lives on another process; reading the value of a remote variable raises
    (_remote_access_error, 326-328).  The lines are written without their line ends. *)
From Verif Require Import Base.
Local Open Scope list_scope.
Local Open Scope nat_scope.
Local Open Scope string_scope.

Record entry : Type := mkEntry { e_name : string; e_slice : option string; e_repr : string; e_pbo : bool; e_remote : bool }.

Fixpoint blanks (n : nat) : string := match n with 0 => "" | S n => String " " (blanks n) end.
(** {:<wid} and {:>wid} *)
Definition left_in (wid : nat) (s : string) : string := s ++ blanks (wid - String.length s).
Definition right_in (wid : nat) (s : string) : string := blanks (wid - String.length s) ++ s.
(** max of a list that is not empty *)
Definition max_of (l : list nat) : nat := fold_right Nat.max 0 l.

(** repr(self[v]) *)
Definition value (e : entry) : res string := if e_remote e then Err RuntimeError else Ok (e_repr e).
(** line 731 *)
Fixpoint values (l : list entry) : res (list string) :=
  match l with
  | [] => Ok []
  | e :: l => let! v := value e in let! vs := values l in Ok (v :: vs)
  end.
Definition slice_text (e : entry) : string := match e_slice e with Some s => s | None => "" end.

Definition dump (dat : list entry) : list string * res unit :=
  let nwid := match dat with [] => 10 | _ => max_of (map (fun e => String.length (e_name e)) dat) end in
  match values dat with
  | Err e => ([], Err e)
  | Ok vs =>
      let vwid := match vs with [] => 1 | _ => max_of (map String.length vs) end in
      let defwid := if existsb e_pbo dat then 8 else 1 in
      let slens := (flat_map (fun e => match e_slice e with Some s => [String.length s] | None => [] end) dat ++ [defwid])%list in
      let swid := max_of slens in
      let rows := map (fun e => left_in nwid (e_name e) ++ " " ++ left_in swid (slice_text e) ++ " " ++ right_in vwid (e_repr e)) (filter (fun e => negb (e_pbo e || e_remote e)) dat) in
      let objs := map (fun e => left_in nwid (e_name e) ++ " " ++ left_in swid "(by obj)" ++ " " ++ e_repr e) (filter (fun e => e_pbo e && negb (e_remote e)) dat) in
      ((rows ++ objs)%list, Ok tt)
  end.

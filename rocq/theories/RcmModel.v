(** Model of the messages for return codes: openmdao/util/shell_proc.py ShellProc.error_message
    (lines 159-181), and
    CalledProcessError.__str__ (18-20, after the status).  The module signal is the list of its integer attributes in the order
    of its dictionary (getattr of any other attribute is not equal to a number); os.strerror is a
    function. *)
From Verif Require Import Base.
Local Open Scope list_scope.
Local Open Scope string_scope.
Local Open Scope Z_scope.

Section Msg.
  Variables (strerror : Z -> string) (win32 : bool) (nsig : Z) (attrs : list (string * Z)).
  (** lines 175-180 *)
  Fixpoint signal_loop (l : list (string * Z)) (sig : Z) : string :=
    match l with
    | [] => ""
    | (item, n) :: l => if prefix "SIG" item then if n =? sig then ": " ++ item else signal_loop l sig else signal_loop l sig
    end.
  Definition error_message (code : Z) : string :=
    if code =? 0 then ""
    else if 0 <? code then ": " ++ strerror code
    else if negb win32 then (let sig := - code in if sig <? nsig then signal_loop attrs sig else "")
    else "".
  (** lines 19-20, from the status on *)
  Definition called_tail (msg : string) : string := ": " ++ msg.
End Msg.

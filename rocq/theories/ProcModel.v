(** Running external commands: openmdao/util/shell_proc.py lines 46-152 and
    177-260, openmdao/components/external_code.py lines 103-206 (non-Windows).

    Times are rational numbers.  The operating system is an argument: when each
    sleep ends, what poll() reports, which files exist and can be opened, whether
    the executable is found and started.  Not modelled: texts of error messages,
    the signal sent by terminate() and whether the command obeys it. *)
From Coq Require Import Qround Qminmax.
From Verif Require Import Base.
Local Open Scope nat_scope.

(** ** ShellProc.wait, lines 118-152 *)
(** poll_delay, lines 133-135 *)
Definition delay (poll_delay timeout : Q) : Q :=
  if Qle_bool poll_delay 0 then Qmin 10 (Qmax (1 # 10) (timeout / 100)) else poll_delay.

(** int(): truncation towards zero *)
Definition py_int (q : Q) : Z := if Qle_bool 0 q then Qfloor q else Qceiling q.

(** the command ended with a status seen at poll k, or was told to stop after
    poll k, or is still polled *)
Inductive waited : Type := Finished (status : Z) (k : nat) | Stopped (k : nat) | Waiting.

Section Wait.
  (** poll k: result of the k-th poll() *)
  Variable poll : nat -> option Z.
  Variable timeout : Q.

  (** while return_code is None, lines 140-146; k is the poll just made *)
  Fixpoint wait_loop (fuel k : nat) (npolls : Z) : waited :=
    match fuel with
    | 0 => Waiting
    | S fuel' =>
        match poll k with
        | Some status => Finished status k
        | None =>
            let npolls := (npolls - 1)%Z in
            if negb (Qle_bool timeout 0) && (npolls <? 0)%Z then Stopped k
            else wait_loop fuel' (S k) npolls
        end
    end.
  (** lines 136-146; quot is timeout / poll_delay *)
  Definition wait_from (quot : Q) (fuel : nat) : waited := wait_loop fuel 1 (py_int quot + 1).
End Wait.

Definition wait (poll : nat -> option Z) (poll_delay timeout : Q) (fuel : nat) : waited :=
  wait_from poll timeout (timeout / delay poll_delay timeout)%Q fuel.

(** what wait returns, lines 150-152: the status, None after a timeout *)
Definition return_code (w : waited) : option (option Z) :=
  match w with Finished s _ => Some (Some s) | Stopped _ => Some None | Waiting => None end.

(** check_call, lines 256-260: raises CalledProcessError (here RuntimeError) *)
Definition check_call (rc : option Z) : res unit :=
  match rc with Some s => if (s =? 0)%Z then Ok tt else Err RuntimeError | None => Ok tt end.

(** ** files of a command, ShellProc.__init__ lines 46-90 and close_files 92-99 *)
(** a stream argument: a file name (opened here) or anything else *)
Inductive stream : Type := SFile (name : string) | SGiven.
(** files opened, most recent first, and the exception if any *)
Definition open_stream (can_open : string -> bool) (s : stream) (opened : list string) : list string * option pyerr :=
  match s with
  | SFile f => if can_open f then (f :: opened, None) else (opened, Some OSError)
  | SGiven => (opened, None)
  end.
Definition names (s : stream) : list string := match s with SFile f => [f] | SGiven => [] end.

Fixpoint remove_one (f : string) (l : list string) : list string :=
  match l with [] => [] | x :: r => if String.eqb f x then r else x :: remove_one f r end.
(** close_files: closing a file twice is harmless *)
Definition close_files (sin sout serr : stream) (opened : list string) : list string :=
  fold_left (fun o f => remove_one f o) (names sin ++ names sout ++ names serr) opened.

(** files still open after __init__ and the exception it raised *)
Definition shell_init (can_open : string -> bool) (popen : res unit) (sin sout serr : stream) : list string * option pyerr :=
  match open_stream can_open sin [] with
  | (o, Some e) => (o, Some e)
  | (o, None) =>
      match open_stream can_open sout o with
      | (o, Some e) => (o, Some e)
      | (o, None) =>
          match open_stream can_open serr o with
          | (o, Some e) => (o, Some e)
          | (o, None) =>
              match popen with
              | Ok _ => (o, None)
              | Err e => (close_files sin sout serr o, Some e)
              end
          end
      end
  end.
(** wait closes them in its finally clause, whether or not polling raised *)
Definition shell_run (can_open : string -> bool) (popen : res unit) (polling : res (option Z)) (sin sout serr : stream)
  : list string * res (option Z) :=
  match shell_init can_open popen sin sout serr with
  | (o, Some e) => (o, Err e)
  | (o, None) => (close_files sin sout serr o, polling)
  end.

(** ** ExternalCode.solve_nonlinear, lines 123-172 *)
Record options : Type := mkOpts { o_command : list string; o_fail_hard : bool; o_inputs : list string; o_outputs : list string }.
(** surroundings: files before the run, the executable, the start of the process,
    the result of wait, files after the run, and reading stderr *)
Record world : Type := mkWorld {
  w_before : string -> bool; w_found : string -> bool; w_start : res unit; w_wait : option Z;
  w_after : string -> bool; w_stderr : option string; w_read : res unit }.

(** _check_for_files, lines 174-176 *)
Definition missing (there : string -> bool) (files : list string) : list string := filter (fun f => negb (there f)) files.
Definition err_class (o : options) : pyerr := if o_fail_hard o then RuntimeError else AnalysisError.

(** _execute_local, lines 178-206 *)
Definition execute_local (o : options) (w : world) : res (option Z) :=
  match o_command o with
  | [] => Err IndexError
  | program :: _ =>
      if w_found w program then let! _ := w_start w in Ok (w_wait w) else Err ValueError
  end.

(** the body of the try statement, lines 140-169, with the value of return_code
    when it is left *)
Definition try_body (o : options) (w : world) : option Z * res unit :=
  match missing (w_before w) (o_inputs o) with
  | _ :: _ => (None, Err (err_class o))
  | [] =>
      match execute_local o w with
      | Err e => (None, Err e)
      | Ok None => (None, Err AnalysisError)
      | Ok (Some s) =>
          (Some s,
           if (s =? 0)%Z then
             match missing (w_after w) (o_outputs o) with [] => Ok tt | _ :: _ => Err (err_class o) end
           else
             match w_stderr w with
             | Some f => if w_after w f then let! _ := w_read w in Err (err_class o) else Err (err_class o)
             | None => Err (err_class o)
             end)
      end
  end.

(** lines 127-172: self.return_code and the outcome *)
Definition solve_nonlinear (o : options) (w : world) : Z * res unit :=
  match o_command o with
  | [] => ((-12345678)%Z, Err ValueError)
  | _ :: _ =>
      let '(rc, r) := try_body o w in
      (match rc with None => (-999999)%Z | Some s => s end, r)
  end.

(** check_setup, lines 94-121: the problems reported; blank strings are those with
    nothing but white space *)
Definition is_space (c : ascii) : bool := let n := nat_of_ascii c in (n =? 32) || ((9 <=? n) && (n <=? 13)).
Fixpoint blank (s : string) : bool := match s with EmptyString => true | String c r => is_space c && blank r end.
Inductive report : Type := EmptyCommand | NotFound (program : string) | MissingInputs (files : list string).
Definition check_setup (o : options) (w : world) : list report :=
  (if forallb blank (o_command o) then [EmptyCommand]
   else match o_command o with
        | program :: _ => if w_found w program then [] else [NotFound program]
        | [] => []
        end) ++
  match missing (w_before w) (o_inputs o) with [] => [] | m => [MissingInputs m] end.

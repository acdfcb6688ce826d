(** What a profile should hold: the calls made while the profiler is on, each under the calls
    that enclose it. *)
From Verif Require Import Base PrfModel.
Local Open Scope string_scope.
Local Open Scope nat_scope.
Local Open Scope list_scope.

(** A profiled call: the names of the enclosing profiled calls and its own, the time spent in it,
    the time the profiler took before it, and whether it ends in an exception. *)
Record pcall : Type := mkCall { c_path : list string; c_elapsed : Q; c_ovr : Q; c_raised : bool }.

(** The profiled calls of a program within the calls [enc], and whether the profiler is on after
    it. *)
Fixpoint prof (enc : list string) (on : bool) (p : prog) : list pcall * bool :=
  match p with
  | Done => ([], on)
  | Start _ r => prof enc true r
  | Stop _ r => prof enc false r
  | Call n o s b e x r =>
      if on then
        let (cb, on1) := prof (enc ++ [n]) true b in
        let (cr, on2) := prof enc on1 r in
        (mkCall (enc ++ [n]) (e - s) (s - o) x :: cb ++ cr, on2)
      else
        let (cb, on1) := prof enc false b in
        let (cr, on2) := prof enc on1 r in
        (cb ++ cr, on2)
  end.
Definition calls_of (p : prog) : list pcall := fst (prof [] false p).

(** the time the profiler is on, until [fin]; [on] is when it was turned on *)
Fixpoint on_time (on : option Q) (p : prog) : Q * option Q :=
  match p with
  | Done => (0%Q, on)
  | Start t r => on_time (match on with Some t0 => Some t0 | None => Some t end) r
  | Stop t r => let (q, o) := on_time None r in ((q + match on with Some t0 => t - t0 | None => 0 end)%Q, o)
  | Call _ _ _ b _ _ r => let (q1, o1) := on_time on b in let (q2, o2) := on_time o1 r in ((q1 + q2)%Q, o2)
  end.
Definition profiled_time (p : prog) (fin : Q) : Q :=
  let (q, o) := on_time None p in (q + match o with Some t0 => fin - t0 | None => 0 end)%Q.

(** A clock that does not run backwards. *)
Inductive timed : Q -> prog -> Q -> Prop :=
| timed_done : forall lo hi, (lo <= hi)%Q -> timed lo Done hi
| timed_start : forall lo t r hi, (lo <= t)%Q -> timed t r hi -> timed lo (Start t r) hi
| timed_stop : forall lo t r hi, (lo <= t)%Q -> timed t r hi -> timed lo (Stop t r) hi
| timed_call : forall lo n o s b e x r hi, (lo <= o)%Q -> (o <= s)%Q -> timed s b e -> timed e r hi -> timed lo (Call n o s b e x r) hi.

(** A process: the number in the name of its file, if there is one, its program, and when it
    ends. *)
Record process : Type := mkProc { x_ext : option string; x_prog : prog; x_end : Q }.
Definition file_of (x : process) : pfile := finalize (x_ext x) (x_end x) (exec (x_prog x) pst0).

(** With several processes, names have the number of the process. *)
Definition with_ext (many : bool) (ext : option string) (c : pcall) : pcall :=
  match many, ext with
  | true, Some d => mkCall (map (fun n => n ++ d)%string (c_path c)) (c_elapsed c) (c_ovr c) (c_raised c)
  | _, _ => c
  end.
Definition all_calls (xs : list process) : list pcall :=
  flat_map (fun x => map (with_ext (1 <? length xs) (x_ext x)) (calls_of (x_prog x))) xs.

(** names and numbers do not have commas, and no profiled call raises *)
Definition no_comma (s : string) : Prop := ~ In ","%char (list_ascii_of_string s).
Definition good_process (x : process) : Prop :=
  (forall c, In c (calls_of (x_prog x)) -> Forall no_comma (c_path c) /\ c_raised c = false) /\ forall d, x_ext x = Some d -> no_comma d.

(** ** The tree *)
Definition text (p : list string) : string := String.concat "," p.
Definition sumq {A} (f : A -> Q) (l : list A) : Q := fold_right (fun a q => (f a + q)%Q) 0%Q l.
Definition same (p q : list string) : bool := if list_eq_dec string_dec p q then true else false.
(** q is within p *)
Definition below (p q : list string) : bool := (length p <? length q) && same (firstn (length p) q) p.

Definition number (f : pcall -> bool) (C : list pcall) : nat := length (filter f C).
Definition called (C : list pcall) (p : list string) : Prop := exists c, In c C /\ c_path c = p.
(** the time in the calls with the path p, without the overhead of the calls within them *)
Definition elapsed (C : list pcall) (p : list string) : Q := sumq (fun c => if same p (c_path c) then c_elapsed c else 0%Q) C.
Definition overhead_below (C : list pcall) (p : list string) : Q := sumq (fun c => if below p (c_path c) then c_ovr c else 0%Q) C.
Definition time_of (C : list pcall) (p : list string) : Q := (elapsed C p - overhead_below C p)%Q.

(** by name: every call counts, and the overhead of a call is taken off once for every enclosing
    call of that name *)
Definition ends_in (name : string) (p : list string) : bool := String.eqb name (last p "").
Definition time_of_name (C : list pcall) (name : string) : Q :=
  (sumq (fun c => if ends_in name (c_path c) then c_elapsed c else 0%Q) C - sumq (fun c => inject_Z (Z.of_nat (count_occ string_dec (removelast (c_path c)) name)) * c_ovr c) C)%Q.

(** the children of a node: the paths with one more name, in alphabetical order *)
Definition kids_ok (C : list pcall) (p : list string) (ks : list string) : Prop :=
  (forall k, In k ks <-> exists n, called C (p ++ [n]) /\ k = text (p ++ [n])) /\ NoDup ks /\ (forall i j, i < j -> j < length ks -> String.leb (nth i ks "") (nth j ks "") = true).

Definition tree_ok (C : list pcall) (total : Q) (out : node * list (string * node) * list (string * (Q * nat))) : Prop :=
  let '(root, tmp, totals) := out in
  (forall k, In k (dkeys tmp) <-> exists p, called C p /\ k = text p) /\ NoDup (dkeys tmp) /\
  (forall p, called C p -> exists nd, sget tmp (text p) = Some nd /\ n_name nd = last p "" /\ n_count nd = number (fun c => same p (c_path c)) C /\
     (n_time nd == time_of C p)%Q /\ kids_ok C p (n_children nd) /\
     n_tot_count nd = number (fun c => ends_in (last p "") (c_path c)) C /\ (n_tot_time nd == time_of_name C (last p ""))%Q) /\
  kids_ok C [] (n_children root) /\ (n_tot_time root == total)%Q /\ NoDup (dkeys totals) /\
  (forall name, (sget totals name = None <-> ~ exists p, called C p /\ last p "" = name) /\
     forall t c, sget totals name = Some (t, c) -> (t == time_of_name C name)%Q /\ c = number (fun c => ends_in name (c_path c)) C).

(** the sum of the times of the children *)
Definition kids_time (tmp : list (string * node)) (ks : list string) : Q :=
  sumq (fun k => match sget tmp k with Some nd => n_time nd | None => 0%Q end) ks.

(** The name of the method in the name of a call, after the last dot, and the totals by method. *)
Definition method (name : string) : string := last (split_on "."%char name) "".
Definition is_method (m name : string) : bool := String.eqb m (method name).
Definition time_of_method (C : list pcall) (m : string) : Q :=
  (sumq (fun c => if is_method m (last (c_path c) "") then c_elapsed c else 0%Q) C - sumq (fun c => inject_Z (Z.of_nat (length (filter (is_method m) (removelast (c_path c))))) * c_ovr c) C)%Q.

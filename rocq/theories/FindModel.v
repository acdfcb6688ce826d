(** Model of find_files, find_up and _file_gen, openmdao/util/file_util.py lines 62-187.
    Texts are lists of characters.  What os.walk finds below a start directory is a tree
    (no links, nothing changes during the walk); posixpath.join, dirname and abspath are
    modelled on characters as in CPython; os.path.exists and fnmatch are arguments. *)
From Verif Require Import Base ExprModel.
Local Open Scope list_scope.

Definition slash : ascii := "/"%char.
Definition is_slash (c : ascii) : bool := Ascii.eqb c slash.
Definition txt := list ascii.

(** posixpath.join of two *)
Definition join (a b : txt) : txt :=
  match b with
  | c :: _ => if is_slash c then b else match rev a with [] => b | d :: _ => if is_slash d then a ++ b else a ++ slash :: b end
  | [] => match rev a with [] => b | d :: _ => if is_slash d then a ++ b else a ++ slash :: b end
  end.
Fixpoint dropwhile (f : ascii -> bool) (l : txt) : txt := match l with c :: r => if f c then dropwhile f r else l | [] => [] end.
(** posixpath.dirname: up to the last slash, without the slashes at its end unless there is
    nothing else *)
Definition dirname (p : txt) : txt :=
  let h := dropwhile (fun c => negb (is_slash c)) (rev p) in
  rev (if forallb is_slash h then h else dropwhile is_slash h).
(** str.split('/') *)
Fixpoint split_slash (p : txt) : list txt :=
  match p with
  | [] => [[]]
  | c :: r => if is_slash c then [] :: split_slash r else match split_slash r with [] => [[c]] | w :: ws => (c :: w) :: ws end
  end.
Fixpoint join_slash (l : list txt) : txt := match l with [] => [] | [w] => w | w :: r => w ++ slash :: join_slash r end.
Definition dot := t_ ".".
Definition dotdot := t_ "..".
(** posixpath.normpath *)
Definition norm_step (rooted : bool) (new : list txt) (comp : txt) : list txt :=
  if teqb comp [] || teqb comp dot then new
  else if negb (teqb comp dotdot) || (negb rooted && match new with [] => true | _ => false end) || teqb (last new []) dotdot
       then new ++ [comp] else removelast new.
(** two slashes at the start stay two, any other number becomes one *)
Definition initial (p : txt) : nat :=
  match p with
  | a :: b :: c :: _ => if is_slash a then (if is_slash b && negb (is_slash c) then 2 else 1)%nat else 0%nat
  | [a; b] => if is_slash a then (if is_slash b then 2 else 1)%nat else 0%nat
  | [a] => if is_slash a then 1%nat else 0%nat
  | [] => 0%nat
  end.
Definition normpath (p : txt) : txt :=
  match p with
  | [] => dot
  | _ =>
      let r := repeat slash (initial p) ++ join_slash (fold_left (norm_step (Nat.ltb 0 (initial p))) (split_slash p) []) in
      match r with [] => dot | _ => r end
  end.
Definition abspath (cwd p : txt) : txt := normpath (join cwd p).

(** ** Finding files *)
Inductive tree := Tree (files : list txt) (dirs : list (txt * tree)).
(** an argument that is None, a pattern or a function *)
Inductive filt := FNone | FPat (p : txt) | FFun (f : txt -> bool).
Section Find.
  (** fnmatch(name, pattern) *)
  Variable fnm : txt -> txt -> bool.
  (** lines 100-112: bool, a lambda, or the function *)
  Definition matcher (m : filt) : txt -> bool :=
    match m with FNone => fun n => negb (teqb n []) | FPat p => fun n => fnm n p | FFun f => f end.
  (** lines 114-126 *)
  Definition matching (m e : filt) : txt -> bool :=
    match e with
    | FPat p => fun n => matcher m n && negb (fnm n p)
    | FFun f => fun n => matcher m n && negb (f n)
    | FNone => matcher m
    end.
  (** os.walk and the loop of lines 180-187: the names of directories are pruned in place,
      those left are walked *)
  Fixpoint walk (fm : txt -> bool) (dm : option (txt -> bool)) (path : txt) (t : tree) : list txt :=
    match t with
    | Tree files dirs =>
        let names := map fst dirs in
        let dirlist := match dm with
                       | Some d => let newdl := filter d names in if Nat.eqb (length newdl) (length names) then names else newdl
                       | None => names
                       end in
        map (join path) (filter fm files) ++
        flat_map (fun nd => if existsb (teqb (fst nd)) dirlist then walk fm dm (join path (fst nd)) (snd nd) else []) dirs
    end.
  (** what os.walk finds at a start directory; None where there is none *)
  Variable disk : txt -> option tree.
  (** _file_gen, lines 163-187 *)
  Definition file_gen (dname : txt) (fm : txt -> bool) (dm : option (txt -> bool)) : list txt :=
    if match dm with Some d => negb (d dname) | None => false end then []
    else match disk dname with Some t => walk fm dm dname t | None => [] end.
  (** find_files, lines 95-132, [starts] being a list or one text in a list *)
  Definition find_files (starts : list txt) (mat exc dirm dire : filt) : list txt :=
    match starts with
    | [] => []
    | _ => let fm := matching mat exc in let dm := matching dirm dire in
           match map (fun d => file_gen d fm (Some dm)) starts with
           | [one] => one
           | iters => concat iters
           end
    end.
End Find.

(** ** Finding upwards, lines 135-161 *)
Section Up.
  Variable ex : txt -> bool.
  Variable cwd : txt.
  Fixpoint up (fuel : nat) (name path : txt) : option txt :=
    match fuel with
    | O => None
    | S n =>
        match path with
        | [] => None
        | _ => if ex (join path name) then Some (abspath cwd (join path name))
               else let path' := dirname path in if teqb path' path then None else up n name path'
        end
    end.
  (** path=None and path='' are both [] *)
  Definition find_up (name path : txt) : option txt :=
    let path := match path with [] => cwd | _ => path end in
    if negb (ex path) then None else up (S (length path)) name path.
End Up.

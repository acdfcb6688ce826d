(** Processor allocation: openmdao/core/parallel_group.py lines 93-120
    (get_req_procs) and 122-255 (_setup_communicators), group.py 1342-1362,
    system.py 429-437.

    Modelled: the requirements of a tree of systems, the two allocation
    algorithms, the list of colors.  Not modelled: the communicators themselves
    (comm.Split), directories, warnings.  Process counts are natural numbers; the
    while loops take fuel. *)
From Verif Require Import Base.
Local Open Scope nat_scope.

(** ** requirements *)
(** (min_procs, max_procs), None for no maximum *)
Notation reqs := (nat * option nat)%type.

(** Group.get_req_procs, group.py lines 1350-1362 *)
Definition group_req (subs : list reqs) : reqs :=
  fold_left (fun (acc : reqs) (s : reqs) =>
               (Nat.max (fst acc) (fst s),
                match snd acc, snd s with Some a, Some b => Some (Nat.max a b) | _, _ => None end)) subs (1, Some 1).

(** ParallelGroup.get_req_procs, lines 101-120 *)
Definition parallel_req (subs : list reqs) : reqs :=
  let '(mn, mx) :=
    fold_left (fun (acc : reqs) (s : reqs) =>
                 (if fst acc <? fst s then fst s else fst acc,
                  match snd acc, snd s with Some a, Some b => Some (a + b) | _, _ => None end)) subs (0, Some 0) in
  (if mn =? 0 then 1 else mn, match mx with Some 0 => Some 1 | m => m end).

(** ** allocation *)
(** a bucket: number of processes and the subsystems that share them *)
Notation bucket := (nat * list nat)%type.

(** may a subsystem with this maximum use one more process, lines 177-178 *)
Definition room (mx : option nat) (a : nat) : bool := match mx with None => true | Some m => a <? m end.

(** one pass of the for loop, lines 176-182 *)
Fixpoint rr_pass (mxs : list (option nat)) (asg : list nat) (assigned limit : nat) : list nat * nat :=
  match mxs, asg with
  | m :: mxs', a :: asg' =>
      if room m a then
        if S assigned =? limit then (S a :: asg', S assigned)
        else let '(r, n) := rr_pass mxs' asg' (S assigned) limit in (S a :: r, n)
      else let '(r, n) := rr_pass mxs' asg' assigned limit in (a :: r, n)
  | _, _ => (asg, assigned)
  end.

(** while assigned < limit, lines 175-182 *)
Fixpoint rr_loop (fuel : nat) (mxs : list (option nat)) (asg : list nat) (assigned limit : nat) : option (list nat * nat) :=
  if assigned <? limit then
    match fuel with
    | 0 => None
    | S fuel' => let '(asg', n) := rr_pass mxs asg assigned limit in rr_loop fuel' mxs asg' n limit
    end
  else Some (asg, assigned).

(** sorted(..., reverse=True) of the pairs (requested, index), lines 191-192 *)
Definition tup_ge (a b : nat * nat) : bool := (fst b <? fst a) || ((fst a =? fst b) && (snd b <=? snd a)).
Fixpoint insert_desc (x : nat * nat) (l : list (nat * nat)) : list (nat * nat) :=
  match l with
  | [] => [x]
  | y :: r => if tup_ge x y then x :: l else y :: insert_desc x r
  end.
Definition sort_desc (l : list (nat * nat)) : list (nat * nat) := fold_right insert_desc [] l.

(** Python comparison of lists of integers *)
Fixpoint list_ltb (a b : list nat) : bool :=
  match a, b with
  | _, [] => false
  | [], _ :: _ => true
  | x :: a', y :: b' => (x <? y) || ((x =? y) && list_ltb a' b')
  end.
(** the order of lines 211-216: number of subsystems, then processes, then the
    list itself *)
Definition bucket_ltb (a b : bucket) : bool :=
  let la := length (snd a) in let lb := length (snd b) in
  (la <? lb) || ((la =? lb) && ((fst a <? fst b) || ((fst a =? fst b) && list_ltb (snd a) (snd b)))).

(** final[0]: the least of the buckets that are big enough.  (The code sorts
    twice and takes the first; the least element is the same.) *)
Fixpoint best (req : nat) (bs : list bucket) : option bucket :=
  match bs with
  | [] => None
  | b :: r =>
      match best req r with
      | Some b' => if (req <=? fst b) && bucket_ltb b b' then Some b else Some b'
      | None => if req <=? fst b then Some b else None
      end
  end.

(** final[0][1].append(sub_idx): the list is the one in 'buckets' *)
Definition list_eqb (a b : list nat) : bool := if list_eq_dec Nat.eq_dec a b then true else false.
Fixpoint append_to (b : bucket) (sub : nat) (bs : list bucket) : list bucket :=
  match bs with
  | [] => []
  | x :: r => if (fst x =? fst b) && list_eqb (snd x) (snd b) then (fst x, snd x ++ [sub]) :: r else x :: append_to b sub r
  end.

(** for i, (req, sub_idx) in enumerate(tups), lines 194-217; 'first' is i == 0 *)
Fixpoint group_subs (tups : list (nat * nat)) (first : bool) (remaining : nat) (bs : list bucket) : res (list bucket * nat) :=
  match tups with
  | [] => Ok (bs, remaining)
  | (req, sub) :: rest =>
      if req <=? remaining then group_subs rest false (remaining - req) (bs ++ [(req, [sub])])
      else if first then Err RuntimeError
      else match best req bs with
           | None => Err IndexError
           | Some b => group_subs rest false remaining (append_to b sub bs)
           end
  end.

(** one pass over the buckets, lines 225-234 *)
Fixpoint extra_pass (mxs : list (option nat)) (bs : list bucket) (remaining : nat) : list bucket * nat :=
  match bs with
  | [] => ([], remaining)
  | (procs, subs) :: r =>
      if existsb (fun i => room (nth i mxs None) procs) subs then
        if remaining =? 1 then ((S procs, subs) :: r, 0)
        else let '(r', n) := extra_pass mxs r (remaining - 1) in ((S procs, subs) :: r', n)
      else let '(r', n) := extra_pass mxs r remaining in ((procs, subs) :: r', n)
  end.

(** while remaining > 0, lines 224-234 *)
Fixpoint extra_loop (fuel : nat) (mxs : list (option nat)) (bs : list bucket) (remaining : nat) : option (list bucket * nat) :=
  if 0 <? remaining then
    match fuel with
    | 0 => None
    | S fuel' => let '(bs', n) := extra_pass mxs bs remaining in extra_loop fuel' mxs bs' n
    end
  else Some (bs, remaining).

Inductive outcome : Type :=
| Alloc (bs : list bucket) (assigned : nat)
| Raises (e : pyerr)
| Running.                      (* the loop is still running when the fuel is used up *)

(** _setup_communicators on 'size' processes, lines 145-236 *)
Definition alloc (fuel size : nat) (subs : list reqs) : outcome :=
  if existsb (fun s : reqs => fst s =? 0) subs then Raises AssertionError     (* line 153 *)
  else
    let mins := map fst subs in
    let mxs := map snd subs in
    let requested := list_sum mins in
    let limit := match snd (parallel_req subs) with
                 | None => size                                                (* lines 164-166 *)
                 | Some _ => Nat.min size (list_sum (map (fun m => match m with Some k => k | None => 0 end) mxs))
                 end in
    if requested =? 0 then Raises NameError                                    (* 'buckets' is not bound, line 242 *)
    else if requested <=? size then                                            (* lines 174-186 *)
      match rr_loop fuel mxs (map (fun _ => 0) subs) 0 limit with
      | None => Running
      | Some (asg, assigned) => Alloc (combine asg (map (fun i => [i]) (seq 0 (length asg)))) assigned
      end
    else                                                                       (* lines 188-236 *)
      match group_subs (sort_desc (combine mins (seq 0 (length mins)))) true size [] with
      | Err e => Raises e
      | Ok (bs, remaining) =>
          match extra_loop fuel mxs bs remaining with
          | None => Running
          | Some (bs', rem') => Alloc bs' (size - rem')
          end
      end.

(** the color of each rank, None for MPI.UNDEFINED, lines 241-247 *)
Definition colors (size : nat) (bs : list bucket) (assigned : nat) : list (option nat) :=
  concat (map (fun ib : nat * bucket => repeat (Some (fst ib)) (fst (snd ib))) (combine (seq 0 (length bs)) bs)) ++
  repeat None (size - assigned).

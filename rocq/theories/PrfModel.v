(** The profiler: openmdao/util/profile.py (start and stop 182-200, _iter_raw_prof_file 202-225,
    _finalize_profile 227-246, _profile_dec 248-308, _update_counts 310-323, process_profile
    325-440, the sums of prof_totals 494-507).

    Simplified: times are exact (the file has them in single precision); the identifiers of the
    call paths are natural numbers (the file has them in 32 bits, the table of names in decimal),
    and a line of the table is the pair of a path and its identifier (so names have no white
    space).  The time stamps, which process_profile does not use, are left out. *)
From Verif Require Import Base.
Local Open Scope string_scope.
Local Open Scope nat_scope.
Local Open Scope list_scope.

(** s.split(c) for a character c *)
Fixpoint split_on (c : ascii) (s : string) : list string :=
  match s with
  | EmptyString => [""]
  | String a r => if Ascii.eqb a c then "" :: split_on c r
                  else match split_on c r with h :: t => String a h :: t | [] => [String a ""] end
  end.

(** ','.join(l) *)
Fixpoint join_comma (l : list string) : string :=
  match l with
  | [] => ""
  | [x] => x
  | x :: rest => (x ++ "," ++ join_comma rest)%string
  end.

Definition comma : ascii := ","%char.

(** ** The wrapped methods *)

(** What a program does that the profiler sees, in order: [Start t] and [Stop t] are calls of
    start() and stop() at the time t; [Call n o s body e raised] is a call of a wrapped method
    that the profiler calls n: the wrapper is entered at o (263), the method at s (292), and left
    at e (294) or, with [raised], by an exception; [body] is what the method does. *)
Inductive prog : Type :=
| Done
| Start (t : Q) (rest : prog)
| Stop (t : Q) (rest : prog)
| Call (name : string) (o s : Q) (body : prog) (e : Q) (raised : bool) (rest : prog).

(** what 298-302 write *)
Record raw : Type := mkRaw { r_t : Q; r_ovr : Q; r_id : nat }.

(** _call_stack (last call last), _profile_funcs_dict, _profile_out, _profile_start and
    _profile_total *)
Record pst : Type := mkPst { p_stack : list string; p_funcs : list (string * nat); p_out : list raw; p_start : option Q; p_total : Q }.

Definition pst0 : pst := mkPst [] [] [] None 0.

(** 182-190 *)
Definition do_start (t : Q) (st : pst) : pst :=
  match p_start st with
  | Some _ => st
  | None => mkPst (p_stack st) (p_funcs st) (p_out st) (Some t) (p_total st)
  end.

(** 192-200 *)
Definition do_stop (t : Q) (st : pst) : pst :=
  match p_start st with
  | None => st
  | Some t0 => mkPst (p_stack st) (p_funcs st) (p_out st) None (p_total st + (t - t0))
  end.

(** 276-290: the name goes on the stack, and its path gets an identifier *)
Definition enter (n : string) (st : pst) : pst :=
  let stack := p_stack st ++ [n] in
  let path := join_comma stack in
  mkPst stack (if smem (p_funcs st) path then p_funcs st else sset (p_funcs st) path (length (p_funcs st))) (p_out st) (p_start st) (p_total st).

(** 296-302: the name leaves the stack and the call is written; [path] is the local variable of
    the wrapper *)
Definition leave (path : string) (o s e : Q) (st : pst) : pst :=
  mkPst (removelast (p_stack st)) (p_funcs st)
    (p_out st ++ match sget (p_funcs st) path with Some i => [mkRaw (e - s) (s - o) i] | None => [] end) (p_start st) (p_total st).

(** wrapper 258-308: an exception of the method leaves the wrapper at 293, before stack.pop() *)
Fixpoint exec (p : prog) (st : pst) : pst :=
  match p with
  | Done => st
  | Start t r => exec r (do_start t st)
  | Stop t r => exec r (do_stop t st)
  | Call n o s b e raised r =>
      match p_start st with
      | None => exec r (exec b st)
      | Some _ =>
          let st1 := enter n st in
          let st2 := exec b st1 in
          exec r (if raised then st2 else leave (join_comma (p_stack st1)) o s e st2)
      end
  end.

(** A raw file with its table of names: [d_ext] is the extension of its name, if it is a number
    (348-353). *)
Record pfile : Type := mkPfile { d_ext : option string; d_recs : list raw; d_funcs : list (string * nat); d_total : Q }.

(** _finalize_profile 227-246, at the time t *)
Definition finalize (ext : option string) (t : Q) (st : pst) : pfile :=
  let st' := do_stop t st in mkPfile ext (p_out st') (p_funcs st') (p_total st').

(** ** Reading the files *)

(** _iter_raw_prof_file 216-225 *)
Definition name_table (f : list (string * nat)) : list (nat * string) := fold_left (fun d x => dset Nat.eqb d (snd x) (fst x)) f [].
Fixpoint iter_raw (tab : list (nat * string)) (l : list raw) : res (list (string * (Q * Q))) :=
  match l with
  | [] => Ok []
  | r :: l' => match dget Nat.eqb tab (r_id r) with
               | None => Err KeyError
               | Some path => let! rest := iter_raw tab l' in Ok ((path, (r_t r, r_ovr r)) :: rest)
               end
  end.

(** _update_counts 310-323: count, time and overhead *)
Definition update_counts (d : list (string * (nat * Q * Q))) (name : string) (elapsed overhead : Q) : list (string * (nat * Q * Q)) :=
  match sget d name with
  | None => sset d name (1, elapsed, overhead)
  | Some (c, t, o) => sset d name (S c, (t + elapsed)%Q, (o + overhead)%Q)
  end.

(** 355-371 for one call; [dec] is the extension to decorate the names with *)
Definition add_call (dec : option string) (acc : list (string * (nat * Q * Q)) * list string) (x : string * (Q * Q)) : list (string * (nat * Q * Q)) * list string :=
  let '(funcs, tops) := acc in
  let '(path, (t, ovr)) := x in
  let parts := split_on comma path in
  let parts' := match dec with Some d => map (fun p => (p ++ d)%string) parts | None => parts end in
  let funcpath := match dec with Some _ => join_comma parts' | None => path end in
  (update_counts funcs funcpath t ovr, match removelast parts' with [] => tops ++ [funcpath] | _ => tops end).

(** 345-373; [many] is nfiles > 1 *)
Fixpoint read_files (many : bool) (fs : list pfile) (acc : list (string * (nat * Q * Q)) * list string * Q) : res (list (string * (nat * Q * Q)) * list string * Q) :=
  match fs with
  | [] => Ok acc
  | f :: fs' =>
      let! calls := iter_raw (name_table (d_funcs f)) (d_recs f) in
      let '(ft, total) := acc in
      read_files many fs' (fold_left (add_call (if many then d_ext f else None)) calls ft, (total + d_total f)%Q)
  end.

(** ** The tree *)

(** A dictionary of the tree; its list of children has the dictionaries themselves, here the
    keys of these in [tmp] (403). *)
Record node : Type := mkNode { n_name : string; n_children : list string; n_time : Q; n_ovr : Q; n_count : nat; n_tot_time : Q; n_tot_count : nat }.

Definition add_child (nd : node) (k : string) : node :=
  mkNode (n_name nd) (n_children nd ++ [k]) (n_time nd) (n_ovr nd) (n_count nd) (n_tot_time nd) (n_tot_count nd).
Definition set_time (nd : node) (t : Q) : node :=
  mkNode (n_name nd) (n_children nd) t (n_ovr nd) (n_count nd) (n_tot_time nd) (n_tot_count nd).

(** sorted(iteritems(funcs)) 390: by path, the paths being different *)
Fixpoint insert_path {V} (x : string * V) (l : list (string * V)) : list (string * V) :=
  match l with
  | [] => [x]
  | y :: l' => if (fst x <=? fst y)%string then x :: l else y :: insert_path x l'
  end.
Definition sort_paths {V} (l : list (string * V)) : list (string * V) := fold_right insert_path [] l.

(** 390-411 *)
Fixpoint build (tops : list string) (l : list (string * (nat * Q * Q))) (tree : node) (tmp : list (string * node)) : res (node * list (string * node)) :=
  match l with
  | [] => Ok (tree, tmp)
  | (path, (c, t, o)) :: l' =>
      let parts := split_on comma path in
      let tmp1 := sset tmp path (mkNode (last parts "") [] t o c 0 0) in
      if existsb (String.eqb path) tops
      then build tops l' (mkNode (n_name tree) (n_children tree ++ [path]) (n_time tree + t) (n_ovr tree + o) (n_count tree) (n_tot_time tree) (n_tot_count tree)) tmp1
      else match sget tmp1 (join_comma (removelast parts)) with
           | None => Err KeyError
           | Some caller => build tops l' tree (sset tmp1 (join_comma (removelast parts)) (add_child caller path))
           end
  end.

(** remove_child_ovr 415-422 for a dictionary of tmp and (the loop of 419-420) for a list of
    children; the fuel bounds the depth *)
Section Kids.
  Variable rec : string -> list (string * node) -> res (Q * list (string * node)).
  Fixpoint kids_ovr (ks : list string) (total : Q) (tmp : list (string * node)) : res (Q * list (string * node)) :=
    match ks with
    | [] => Ok (total, tmp)
    | k :: ks' => let! (o, tmp1) := rec k tmp in kids_ovr ks' (total + o)%Q tmp1
    end.
End Kids.
Fixpoint remove_child_ovr (fuel : nat) (k : string) (tmp : list (string * node)) : res (Q * list (string * node)) :=
  match fuel with
  | O => Err RuntimeError
  | S fuel' =>
      match sget tmp k with
      | None => Err KeyError
      | Some nd =>
          let! (total, tmp1) := kids_ovr (remove_child_ovr fuel') (n_children nd) 0%Q tmp in
          Ok ((total + n_ovr nd)%Q, match n_children nd with [] => tmp1 | _ => sset tmp1 k (set_time nd (n_time nd - total)) end)
      end
  end.

(** 426-433: totals by name *)
Definition add_total (d : list (string * (Q * nat))) (x : string * node) : list (string * (Q * nat)) :=
  let name := last (split_on comma (fst x)) "" in
  match sget d name with
  | Some (t, c) => sset d name ((t + n_time (snd x))%Q, c + n_count (snd x))
  | None => sset d name (n_time (snd x), n_count (snd x))
  end.
(** 435-438 *)
Definition set_totals (totals : list (string * (Q * nat))) (x : string * node) : string * node :=
  let '(k, nd) := x in
  match sget totals (last (split_on comma k) "") with
  | Some (t, c) => (k, mkNode (n_name nd) (n_children nd) (n_time nd) (n_ovr nd) (n_count nd) t c)
  | None => x
  end.

(** process_profile 325-440: the root of the tree, the dictionaries under it, and the totals *)
Definition process_profile (fuel : nat) (fs : list pfile) : res (node * list (string * node) * list (string * (Q * nat))) :=
  let! (funcs, tops, total) := read_files (1 <? length fs) fs ([], [], 0%Q) in
  let! (tree, tmp) := build tops (sort_paths funcs) (mkNode "." [] 0 0 1 total 1) [] in
  let! (o, tmp1) := kids_ovr (remove_child_ovr fuel) (n_children tree) 0%Q tmp in
  let tree1 := match n_children tree with [] => tree | _ => set_time tree (n_time tree - o) end in
  let totals := fold_left add_total tmp1 [] in
  Ok (tree1, map (set_totals totals) tmp1, totals).

(** prof_totals 494-507: the grand totals; [by_time] is the order of 495-497 *)
Definition add_grand (d : list (string * (nat * Q))) (x : string * (Q * nat)) : list (string * (nat * Q)) :=
  let key := last (split_on "."%char (fst x)) "" in
  let '(c, t) := match sget d key with Some ct => ct | None => (0, 0%Q) end in
  sset d key (c + snd (snd x), (t + fst (snd x))%Q).
Definition grand_totals (by_time : list (string * (Q * nat)) -> list (string * (Q * nat))) (totals : list (string * (Q * nat))) : list (string * (nat * Q)) :=
  fold_left add_grand (by_time totals) [].

(** Model of the keyword sieve: the generator script/mksieve (a Perl script that is run during the build) and the C lookup
    function that it prints.  Three tables of the program are made this way: src/hob3l/gc-color.sieve,
    src/hob3l/scad-cmd.sieve, and src/hob3l/svg-elem.sieve.

    Characters are natural numbers below 256.  Perl hashes that are only iterated in sorted order are lists.  The input file's
    syntax (mksieve 72-161) and the formatting of the C text are not modelled: the generator starts with the list of pairs of
    key and rest, and ends with the contents of the C tables.  Perl's croak and die are None. *)
From Coq Require Import Arith Bool List NArith.
Import ListNotations.

Notation char := nat (only parsing).
Notation str := (list nat) (only parsing).

(** mksieve 206-228: an entry of {step} resp. {len}: nothing, kind 'state' or kind 'final' *)
Inductive step := NoStep | State (i : nat) | Final (i : nat).
(** mksieve: {step} of one state *)
Notation state := (list (nat * step)) (only parsing).
(** a set of keys (what is left of them) with the index of the value *)
Notation set := (list (list nat * nat)) (only parsing).

(** mksieve 165-372: {state} and {tok2char}, the latter without the undef at its start: the character at index i has token
    i + 1 *)
Record build := mk_build { states : list (list (nat * step)); toks : list nat }.

(** Perl's sort for keys of hashes: sorted and without duplicates *)
Fixpoint insert (c : nat) (l : list nat) : list nat :=
  match l with
  | [] => [c]
  | d :: l' => if c <? d then c :: l else if c =? d then l else d :: insert c l'
  end.
Definition sorted_keys (l : list nat) : list nat := fold_right insert [] l.

(** mksieve 178-190: the first characters, and the set for one of them *)
Definition firsts (s : set) : list nat := sorted_keys (map (fun e => hd 0 (fst e)) s).
Definition sub (c : char) (s : set) : set :=
  flat_map (fun e => match fst e with
    | a :: r => if a =? c then [(r, snd e)] else []
    | [] => []
    end) s.

(** mksieve 197-201 *)
Definition register (c : char) (b : build) : build :=
  if existsb (Nat.eqb c) (toks b) then b else mk_build (states b) (toks b ++ [c]).
(** mksieve 217-218 *)
Definition push_state (b : build) : build := mk_build (states b ++ [[]]) (toks b).

Fixpoint set_nth {A} (n : nat) (x : A) (l : list A) : list A :=
  match l, n with
  | [], _ => []
  | _ :: l, O => x :: l
  | a :: l, S n => a :: set_nth n x l
  end.
Definition set_state (i : nat) (st : state) (b : build) : build := mk_build (set_nth i st (states b)) (toks b).

(** mksieve 193-227: the loop over the first characters.  The result has the steps, the states still to be made, in order of
    their index, and the new build. *)
Fixpoint steps (cs : list char) (s : set) (b : build) : state * list (nat * set) * build :=
  match cs with
  | [] => ([], [], b)
  | c :: cs =>
    let b := register c b in
    match sub c s with
    | [(_, v)] =>
      let '(st, todo, b) := steps cs s b in ((c, Final v) :: st, todo, b)
    | e =>
      let n := length (states b) in
      let b := push_state b in
      let '(st, todo, b) := steps cs s b in ((c, State n) :: st, (n, e) :: todo, b)
    end
  end.

(** mksieve 163-238 [make_tree_rec].  An empty key (for which substr would give an empty string) is an error. *)
Fixpoint make_tree_rec (fuel : nat) (i : nat) (s : set) (b : build) : option build :=
  match fuel with
  | O => None
  | S fuel =>
    if length s <? 2 then None else
    if existsb (fun e => length (fst e) =? 0) s then None else
    let '(st, todo, b) := steps (firsts s) s b in
    let b := set_state i st b in
    fold_left (fun ob ne => match ob with
      | None => None
      | Some b => make_tree_rec fuel (fst ne) (snd ne) b
      end) todo (Some b)
  end.

(** mksieve 248-283: the loop over the lengths, in increasing order *)
Definition of_len (n : nat) (s : set) : set := filter (fun e => length (fst e) =? n) s.
Fixpoint len_steps (ls : list nat) (s : set) (b : build) : state * list (nat * set) * build :=
  match ls with
  | [] => ([], [], b)
  | l :: ls =>
    match of_len l s with
    | [(_, v)] => let '(st, todo, b) := len_steps ls s b in ((l, Final v) :: st, todo, b)
    | e =>
      let n := length (states b) in
      let b := push_state b in
      let '(st, todo, b) := len_steps ls s b in ((l, State n) :: st, (n, e) :: todo, b)
    end
  end.
(** mksieve 240-294 [make_tree_len], 298-318 [make_tree]: also returns {len} *)
Definition lens (s : set) : list nat := sorted_keys (map (fun e => length (fst e)) s).
Definition make_tree (s : set) : option (state * build) :=
  let '(ls, todo, b) := len_steps (lens s) s (mk_build [] []) in
  match fold_left (fun ob ne => match ob with
      | None => None
      | Some b => make_tree_rec (S (list_max (lens s))) (fst ne) (snd ne) b
      end) todo (Some b) with
  | None => None
  | Some b => Some (ls, b)
  end.

(** mksieve 320-332 [uint_max]: the number of values of the C type; None: croak *)
Definition uint_max (max : nat) : option N :=
  (if N.of_nat max <=? 2 ^ 8 - 1 then Some (2 ^ 8)
  else if N.of_nat max <=? 2 ^ 16 - 1 then Some (2 ^ 16)
  else if N.of_nat max <=? 2 ^ 32 - 1 then Some (2 ^ 32) else None)%N.
(** a table entry, stored in such a type *)
Definition trunc (w : N) (x : nat) : nat := N.to_nat (N.of_nat x mod w).

(** the C tables; [values] has the keys (as the zero padded array of maxlen + 1 characters that all three sieves declare) and
    the rest *)
Record tables (A : Type) := mk_tables {
  minlen : nat; maxlen : nat; statecnt : nat; failidx : nat;
  values : list (list nat * A); len2step : list nat; char2tok : list nat; tok2step : list (list nat) }.
Arguments mk_tables {A}. Arguments minlen {A}. Arguments maxlen {A}. Arguments statecnt {A}. Arguments failidx {A}.
Arguments values {A}. Arguments len2step {A}. Arguments char2tok {A}. Arguments tok2step {A}.

(** mksieve 334-350 [get_idx] *)
Definition get_idx (statecnt failidx : nat) (st : step) : nat :=
  match st with
  | NoStep => failidx
  | State i => i
  | Final i => i + statecnt
  end.
(** a lookup in {step} resp. {len} *)
Fixpoint look (c : nat) (st : state) : step :=
  match st with
  | [] => NoStep
  | (d, x) :: st => if d =? c then x else look c st
  end.
(** {char2tok}; 0 if there is none *)
Fixpoint index_of (c : nat) (l : list nat) (i : nat) : option nat :=
  match l with
  | [] => None
  | d :: l => if d =? c then Some i else index_of c l (S i)
  end.
Definition tok_of (ts : list nat) (c : nat) : nat :=
  match index_of c ts 0 with Some i => S i | None => 0 end.

(** Perl's cmp on strings: is [a] less than [b]? *)
Fixpoint str_lt (a b : str) : bool :=
  match a, b with
  | [], [] => false
  | [], _ :: _ => true
  | _ :: _, [] => false
  | x :: a, y :: b => if x <? y then true else if x =? y then str_lt a b else false
  end.
Fixpoint insert_key {A} (e : str * A) (l : list (str * A)) : list (str * A) :=
  match l with
  | [] => [e]
  | d :: l' => if str_lt (fst d) (fst e) then d :: insert_key e l' else e :: l
  end.
(** mksieve 156-160: the entries sorted, with their index *)
Definition choice_arr {A} (l : list (str * A)) : list (str * A) := fold_right insert_key [] l.
Definition choice_set {A} (l : list (str * A)) : set := combine (map fst l) (seq 0 (length l)).

Fixpoint str_eqb (a b : str) : bool :=
  match a, b with
  | [], [] => true
  | x :: a, y :: b => (x =? y) && str_eqb a b
  | _, _ => false
  end.
(** mksieve 145: duplicate keys are errors *)
Fixpoint has_dup (l : list str) : bool :=
  match l with
  | [] => false
  | k :: l => existsb (str_eqb k) l || has_dup l
  end.

(** mksieve 138-161, 352-450 [generate_body], [generate].  The type stok_t is made from an option that does not exist
    (statesize), so it is always uint8_t. *)
Definition generate {A} (l : list (str * A)) : option (tables A) :=
  if has_dup (map fst l) then None else
  let arr := choice_arr l in
  match make_tree (choice_set arr) with
  | None => None
  | Some (ls, b) =>
    let keycnt := length arr in
    let statecnt := length (states b) in
    let failidx := statecnt + keycnt in
    let minlen := hd 0 (map fst ls) in
    let maxlen := last (map fst ls) 0 in
    match uint_max failidx with
    | None => None
    | Some w =>
      let idx st := trunc w (get_idx statecnt failidx st) in
      Some (mk_tables minlen maxlen statecnt failidx
        (map (fun e => (fst e ++ repeat 0 (maxlen + 1 - length (fst e)), snd e)) arr)
        (map (fun n => idx (look n ls)) (seq minlen (maxlen - minlen + 1)))
        (map (fun c => trunc (2 ^ 8) (tok_of (toks b) c)) (seq 0 256))
        (map (fun st => trunc w failidx :: map (fun c => idx (look c st)) (toks b)) (states b)))
    end
  end.

(** The outcome of the lookup function: an entry, the default (NULL), a failed assertion, or an access outside of an array *)
Inductive outcome (A : Type) := Hit (v : A) | Miss | AssertFail | OutOfBounds.
Arguments Hit {A} v. Arguments Miss {A}. Arguments AssertFail {A}. Arguments OutOfBounds {A}.

(** mksieve 404-407: the loop; [o] counts the characters read.  The result has the final step, and what is at [s] now. *)
Fixpoint run {A} (t : tables A) (step : nat) (s : str) (o : nat) : option (nat * str * nat) :=
  if step <? statecnt t then
    match s with
    | [] => None
    | c :: s =>
      match nth_error (char2tok t) c, nth_error (tok2step t) step with
      | Some tok, Some row =>
        match nth_error row tok with
        | Some step => run t step s (S o)
        | None => None
        end
      | _, _ => None
      end
    end
  else Some (step, s, o).
(** memcmp(a, b, n) == 0; None: out of bounds *)
Definition mem_eq (a b : str) (n : nat) : option bool :=
  if (n <=? length a) && (n <=? length b) then Some (str_eqb (firstn n a) (firstn n b)) else None.
(** mksieve 400-416: the lookup function; [s] is the readable memory at the pointer s.  For an empty table, 441-446. *)
Definition find {A} (t : tables A) (s : str) (len : nat) : outcome A :=
  match values t with [] => Miss | _ :: _ =>
  if len <? minlen t then Miss else
  if maxlen t <? len then Miss else
  match nth_error (len2step t) (len - minlen t) with
  | None => OutOfBounds
  | Some step =>
    match run t step s 0 with
    | None => OutOfBounds
    | Some (step, s, o) =>
      if negb (o <=? maxlen t) then AssertFail else
      if failidx t <=? step then Miss else
      match nth_error (values t) (step - statecnt t) with
      | None => OutOfBounds
      | Some (key, v) =>
        if len <? o then OutOfBounds else
        match mem_eq s (skipn o key) (len - o) with
        | None => OutOfBounds
        | Some true => Hit v
        | Some false => Miss
        end
      end
    end
  end end.

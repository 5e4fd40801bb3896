(** Model of the SCAD scanner and parser (src/hob3l/syn.c) and of the printer of the syntax tree (src/hob3l/syn-2scad.c).

    Characters are numbers 0..255; C's char may be signed, the code only tests whether bit 7 is set, and compares with ASCII.
    The scanner writes a NUL at the end of some tokens into the file, and the tree points into the file.  The code is given once, for
    any machine with the operations [ops]: Syn_model gives the machine of the C code (memory and pointers), Syn_spec one that copies
    texts.  Error messages and locations are not modelled (but that no more tokens are read after an error is).
    Not modelled: [include] (outcome [Inc]: the run ends there); allocation failures.  Floating point values are any type [F], strtod
    and printf with %.16g are any functions. *)
From Coq Require Import ZArith Bool List Arith.
Import ListNotations.
Local Open Scope Z_scope.

(** [Err]: the parser returns false; [Crash]: access outside of the file, or a failing assertion; [Inc]: an include statement *)
Inductive res (A : Type) : Type := Ok (a : A) | Err | Crash | Inc | NoFuel.
Arguments Ok {A}. Arguments Err {A}. Arguments Crash {A}. Arguments Inc {A}. Arguments NoFuel {A}.
Definition bind {A B} (x : res A) (f : A -> res B) : res B :=
  match x with Ok a => f a | Err => Err | Crash => Crash | Inc => Inc | NoFuel => NoFuel end.
Notation "'do' p <- x ; y" := (bind x (fun p => y)) (at level 200, p pattern, x at level 100, y at level 200).

(** syn.c 14-33: token types *)
Definition T_EOF := 0. Definition T_ERROR := 257. Definition T_ID := 258. Definition T_INT := 259. Definition T_FLOAT := 260.
Definition T_STRING := 261. Definition T_PATH := 262. Definition T_LCOM := 263. Definition T_BCOM := 264.
Definition K_INCLUDE := 513. Definition K_USE := 514. Definition K_MODULE := 515. Definition K_FUNCTION := 516.
(** p->c.tok.type & _T_KEY: of the types above, the last four have this bit *)
Definition is_key (t : Z) : bool := Z.testbit t 9.

(** syn.c 87-114 *)
Definition is_space (c : Z) : bool := (c =? 32) || (c =? 9) || (c =? 13) || (c =? 10).
Definition is_digit (c : Z) : bool := (48 <=? c) && (c <=? 57).
Definition is_alpha (c : Z) : bool := ((97 <=? c) && (c <=? 122)) || ((65 <=? c) && (c <=? 90)).
(** syn.c 147-150, 202 and 211-214 *)
Definition num_start (c : Z) : bool := (c =? 43) || (c =? 45) || (c =? 46) || is_digit c.
Definition id_start (c : Z) : bool := (c =? 36) || (c =? 95) || is_alpha c.
Definition id_char (c : Z) : bool := is_alpha c || is_digit c || (c =? 95).

(** syn_tam.h 76-205: the tree; [V] is the type of strings ('char const *'), a functor [None] is the static string with the brace *)
Inductive value (V F : Type) : Type :=
  | VId (s : V) | VInt (n : Z) | VFloat (x : F) | VString (s : V)
  | VRange (start end_ : value V F) (inc : option (value V F)) | VArray (l : list (value V F)).
Arguments VId {V F}. Arguments VInt {V F}. Arguments VFloat {V F}. Arguments VString {V F}. Arguments VRange {V F}. Arguments VArray {V F}.
Definition arg (V F : Type) : Type := option V * value V F.
Inductive item (V F : Type) : Type := Item (functor : option V) (args : list (arg V F)) (body : list (item V F)) (modifier : Z).
Arguments Item {V F}.
Inductive stmt (V F : Type) : Type := SItem (i : item V F) | SUse (path : V).
Arguments SItem {V F}. Arguments SUse {V F}.

(** strtoll with base 10 (C standard), for the texts of T_INT tokens: an optional minus and digits; saturating *)
Definition atoi (s : list Z) : Z := fold_left (fun n c => 10 * n + (c - 48)) s 0.
Definition strtoll (s : list Z) : Z :=
  let v := match s with 45 :: s => - atoi s | _ => atoi s end in Z.max (- 2 ^ 63) (Z.min (2 ^ 63 - 1) v).

(** What the scanner does with the file.  [cur] is p->c.lex.cur, [here] is *p->c.lex.string, [ahead] is p->c.lex.string[1], [step] is
    lex_next, [mark] sets p->c.tok.string to p->c.lex.string, [cut] writes a NUL to *p->c.lex.string, [word] is p->c.tok.string as a
    pointer, [text] is the string it points to *)
Record ops (S V : Type) : Type := mk_ops {
  cur : S -> Z; here : S -> res Z; ahead : S -> res Z; step : S -> res S; mark : S -> S; cut : S -> res S; word : S -> V; text : S -> list Z }.
Arguments cur {S V}. Arguments here {S V}. Arguments ahead {S V}. Arguments step {S V}. Arguments mark {S V}. Arguments cut {S V}. Arguments word {S V}. Arguments text {S V}.

Section Syn.
Variables (St V F : Type) (M : ops St V) (strtod : list Z -> F).
(** the state of the parser: type of the current token, and the scanner *)
Notation pst := (Z * St)%type.

(** the loops 'while (test(p->c.lex.cur)) lex_next(p)' *)
Fixpoint skip (f : Z -> bool) (fuel : nat) (s : St) : res St :=
  match fuel with O => NoFuel | S fuel => if f (cur M s) then do s <- step M s; skip f fuel s else Ok s end.

(** syn.c 147-197: numbers *)
Definition scan_number (fuel : nat) (s : St) : res pst :=
  do c <- here M s;
  if c =? 0 then Ok (T_ERROR, s) else
  do s <- (if cur M s =? 43 then do s <- step M s; Ok (mark M s) else if cur M s =? 45 then step M s else Ok s);
  do s <- skip is_digit fuel s;
  do (t, s) <- (if cur M s =? 46 then do s <- step M s; do s <- skip is_digit fuel s; Ok (T_FLOAT, s) else Ok (T_INT, s));
  do (t, s) <- (if (cur M s =? 101) || (cur M s =? 69) then
    do s <- step M s;
    do s <- (if (cur M s =? 45) || (cur M s =? 43) then step M s else Ok s);
    do s <- skip is_digit fuel s; Ok (T_FLOAT, s) else Ok (t, s));
  do s <- cut M s; Ok (t, s).
(** syn.c 199-220: identifiers *)
Definition scan_id (fuel : nat) (s : St) : res pst :=
  do c <- here M s;
  if c =? 0 then Ok (T_ERROR, s) else
  do s <- (if cur M s =? 36 then step M s else Ok s);
  do s <- skip id_char fuel s;
  do s <- cut M s; Ok (T_ID, s).
(** syn.c 227-248: the loop over the characters of a string; false: an error *)
Fixpoint scan_string_loop (fuel : nat) (s : St) : res (bool * St) :=
  match fuel with
  | O => NoFuel
  | S fuel =>
    do c <- here M s;
    if c =? 34 then Ok (true, s) else
    if c =? 92 then
      do s <- step M s; do c <- here M s;
      if 128 <=? c then Ok (false, s) else if c =? 0 then Ok (false, s) else do s <- step M s; scan_string_loop fuel s
    else if c =? 0 then Ok (false, s) else do s <- step M s; scan_string_loop fuel s
  end.
(** syn.c 222-252 *)
Definition scan_string (fuel : nat) (s : St) : res pst :=
  do s <- step M s;
  do (ok, s) <- scan_string_loop fuel (mark M s);
  if negb ok then Ok (T_ERROR, s) else
  do s <- cut M s; do s <- step M s; Ok (T_STRING, s).
(** syn.c 274-291: the loop of block comments *)
Fixpoint scan_comment_loop (fuel : nat) (prev : Z) (s : St) : res pst :=
  match fuel with
  | O => NoFuel
  | S fuel =>
    if negb (prev =? 42) || negb (cur M s =? 47) then
      if cur M s =? 0 then Ok (T_ERROR, s) else let prev := cur M s in do s <- step M s; scan_comment_loop fuel prev s
    else Ok (T_BCOM, s)
  end.
(** syn.c 131-305: one token, or comment *)
Definition scan (fuel : nat) (p : pst) : res pst :=
  let '(t, s) := p in
  if t =? T_ERROR then Ok p else
  do s <- skip is_space fuel s;
  let s := mark M s in
  if num_start (cur M s) then scan_number fuel s
  else if id_start (cur M s) then scan_id fuel s
  else if cur M s =? 34 then scan_string fuel s
  else
    do a <- (if cur M s =? 47 then ahead M s else Ok 0);
    if a =? 47 then do s <- skip (fun c => negb (c =? 10) && negb (c =? 0)) fuel s; Ok (T_LCOM, s)
    else if a =? 42 then
      do s <- step M s; do s <- step M s; do (t, s) <- scan_comment_loop fuel 0 s; do s <- step M s; Ok (t, s)
    else if 128 <=? cur M s then Ok (T_ERROR, s)
    else let t := cur M s in do s <- step M s; Ok (t, s).
(** syn.c 307-317: tok_next *)
Fixpoint next (fuel : nat) (p : pst) : res pst :=
  match fuel with
  | O => NoFuel
  | S fuel => do p <- scan fuel p; if (fst p =? T_LCOM) || (fst p =? T_BCOM) then next fuel p else Ok p
  end.
(** syn.c 319-345: tok_path, and its loop *)
Fixpoint path_loop (fuel : nat) (s : St) : res (bool * St) :=
  match fuel with
  | O => NoFuel
  | S fuel => do c <- here M s; if c =? 62 then Ok (true, s) else if c =? 0 then Ok (false, s) else do s <- step M s; path_loop fuel s
  end.
Definition tok_path (fuel : nat) (p : pst) : res pst :=
  let '(t, s) := p in
  if negb (t =? 60) then Ok p else
  do (ok, s) <- path_loop fuel (mark M s);
  if negb ok then Ok (T_ERROR, s) else do s <- cut M s; do s <- step M s; Ok (T_PATH, s).

(** syn.c 347-374: the keywords; the words are include, use, module, function *)
Definition equ (a b : list Z) : bool := if list_eq_dec Z.eq_dec a b then true else false.
Definition sieve_id (s : list Z) : Z :=
  if equ s [105; 110; 99; 108; 117; 100; 101] then K_INCLUDE else if equ s [117; 115; 101] then K_USE
  else if equ s [109; 111; 100; 117; 108; 101] then K_MODULE else if equ s [102; 117; 110; 99; 116; 105; 111; 110] then K_FUNCTION else T_ID.
Definition sieve (p : pst) : pst := let '(t, s) := p in if t =? T_ID then (sieve_id (text M s), s) else p.

(** syn.c 376-385 and 442-466: expect and expect_err, which is the same but for messages *)
Definition expect (fuel : nat) (t : Z) (p : pst) : res (bool * pst) :=
  if fst p =? t then do p <- next fuel p; Ok (true, p) else Ok (false, p).
Definition expect_err (fuel : nat) (t : Z) (p : pst) : res pst :=
  do (ok, p) <- expect fuel t p; if ok then Ok p else Err.

(** syn.c 633-646 *)
Definition looking_at_value (p : pst) : bool :=
  let t := fst p in (t =? T_INT) || (t =? T_FLOAT) || (t =? T_STRING) || (t =? T_ID) || (t =? 91).
(** syn.c 496-674: values, with parse_new_int etc. inlined (the text of the token is converted before the next token is read);
    [parse_elems] is the loop of parse_new_range_or_array, after an element *)
Fixpoint parse_value (fuel : nat) (p : pst) : res (value V F * pst) :=
  match fuel with
  | O => NoFuel
  | S fuel =>
    let '(t, s) := p in
    if t =? T_INT then do p <- next fuel p; Ok (VInt (strtoll (text M s)), p)
    else if t =? T_FLOAT then do p <- next fuel p; Ok (VFloat (strtod (text M s)), p)
    else if t =? T_STRING then do p <- next fuel p; Ok (VString (word M s), p)
    else if t =? T_ID then do p <- next fuel p; Ok (VId (word M s), p)
    else if t =? 91 then
      do p <- next fuel p;
      do (e, p) <- expect fuel 93 p;
      if e then Ok (VArray [], p) else
      do (v, p) <- parse_value fuel p;
      do (r, p) <- expect fuel 58 p;
      if r then
        do (w, p) <- parse_value fuel p;
        do (r, p) <- expect fuel 58 p;
        if r then do (x, p) <- parse_value fuel p; do p <- expect_err fuel 93 p; Ok (VRange v x (Some w), p)
        else do p <- expect_err fuel 93 p; Ok (VRange v w None, p)
      else
        do (l, p) <- parse_elems fuel p;
        do p <- expect_err fuel 93 p; Ok (VArray (v :: l), p)
    else Err
  end
with parse_elems (fuel : nat) (p : pst) : res (list (value V F) * pst) :=
  match fuel with
  | O => NoFuel
  | S fuel =>
    do (c, p) <- expect fuel 44 p;
    if c && looking_at_value p then do (v, p) <- parse_value fuel p; do (l, p) <- parse_elems fuel p; Ok (v :: l, p) else Ok ([], p)
  end.
(** syn.c 682-700 *)
Definition parse_arg (fuel : nat) (p : pst) : res (arg V F * pst) :=
  if fst p =? T_ID then
    let w := word M (snd p) in
    do p <- next fuel p;
    do (e, p) <- expect fuel 61 p;
    if e then do (v, p) <- parse_value fuel p; Ok ((Some w, v), p) else Ok ((None, VId w), p)
  else do (v, p) <- parse_value fuel p; Ok ((None, v), p).
(** syn.c 676-680 and 702-729; looking_at_arg is the same as looking_at_value *)
Fixpoint parse_args (fuel : nat) (p : pst) : res (list (arg V F) * pst) :=
  match fuel with
  | O => NoFuel
  | S fuel =>
    if negb ((fst p =? T_ID) || looking_at_value p) then Ok ([], p) else
    do (a, p) <- parse_arg fuel p;
    if fst p =? 41 then Ok ([a], p) else
    do p <- expect_err fuel 44 p;
    do (l, p) <- parse_args fuel p; Ok (a :: l, p)
  end.

(** syn.c 731-753 *)
Definition looking_at_modifier (p : pst) : bool := let t := fst p in (t =? 42) || (t =? 37) || (t =? 33) || (t =? 35).
Definition looking_at_stmt_item (p : pst) : bool := (* after sieve *)
  let t := fst p in (t =? T_ID) || (t =? K_INCLUDE) || (t =? 59) || (t =? 123) || looking_at_modifier p.
(** gc_tam.h 12-32 *)
Definition mod_bits (t : Z) : option Z :=
  if t =? 33 then Some (64 + 4) else if t =? 42 then Some (128 + 2) else if t =? 37 then Some (32 + 1 + 2) else if t =? 35 then Some (16 + 1) else None.
(** syn.c 767-784 *)
Fixpoint parse_modifier (fuel : nat) (m : Z) (p : pst) : res (Z * pst) :=
  match fuel with
  | O => NoFuel
  | S fuel => match mod_bits (fst p) with Some b => do p <- next fuel p; parse_modifier fuel (Z.lor m b) p | None => Ok (m, p) end
  end.
(** syn.c 786-819 (parse_stmt_item), 862-877 (parse_item_push_stmt_item), 887-899 (parse_stmt_item_list) *)
Fixpoint parse_item (fuel : nat) (p : pst) : res (item V F * pst) :=
  match fuel with
  | O => NoFuel
  | S fuel =>
    do (h, p) <- (if fst p =? 123 then Ok ((None, [], 0), p) else
      do (m, p) <- parse_modifier fuel 0 p;
      let w := word M (snd p) in
      do p <- expect_err fuel T_ID p;
      do p <- expect_err fuel 40 p;
      do (a, p) <- parse_args fuel p;
      do p <- expect_err fuel 41 p;
      Ok ((Some w, a, m), p));
    let '(f, a, m) := h in
    if fst p =? 123 then
      do (ok, p) <- expect fuel 123 p;
      do (b, p) <- parse_items fuel p;
      do p <- expect_err fuel 125 p;
      Ok (Item f a b m, p)
    else do (b, p) <- push_item fuel p; Ok (Item f a b m, p)
  end
with push_item (fuel : nat) (p : pst) : res (list (item V F) * pst) :=
  match fuel with
  | O => NoFuel
  | S fuel =>
    do (ok, p) <- expect fuel 59 p;
    if ok then Ok ([], p) else
    let p := sieve p in
    if fst p =? K_INCLUDE then Inc else
    do (i, p) <- parse_item fuel p; Ok ([i], p)
  end
with parse_items (fuel : nat) (p : pst) : res (list (item V F) * pst) :=
  match fuel with
  | O => NoFuel
  | S fuel =>
    let p := sieve p in
    if negb (looking_at_stmt_item p) then Ok ([], p) else
    do (l, p) <- push_item fuel p; do (r, p) <- parse_items fuel p; Ok (l ++ r, p)
  end.
(** syn.c 821-837 *)
Definition parse_use (fuel : nat) (p : pst) : res (stmt V F * pst) :=
  do (ok, p) <- expect fuel K_USE p;
  if negb ok then Err else
  do p <- tok_path fuel p;
  let w := word M (snd p) in
  do (ok, p) <- expect fuel T_PATH p;
  if ok then Ok (SUse w, p) else Err.
(** syn.c 901-930; looking_at_stmt (755-765) and parse_item_push_stmt (879-885) inlined *)
Fixpoint parse_stmts (fuel : nat) (p : pst) : res (list (stmt V F) * pst) :=
  match fuel with
  | O => NoFuel
  | S fuel =>
    let p := sieve p in
    if negb (looking_at_stmt_item p || is_key (fst p)) then Ok ([], p) else
    if fst p =? K_USE then do (u, p) <- parse_use fuel p; do (r, p) <- parse_stmts fuel p; Ok (u :: r, p)
    else if is_key (fst p) then Ok ([], p)
    else do (l, p) <- push_item fuel p; do (r, p) <- parse_stmts fuel p; Ok (map SItem l ++ r, p)
  end.
(** syn.c 1070-1107, after begin_file (62-77): the token type is 0 then *)
Definition parse (fuel : nat) (s : St) : res (list (stmt V F) * St) :=
  do p <- next fuel (0, s);
  do (l, p) <- parse_stmts fuel p;
  if fst p =? T_EOF then Ok (l, snd p) else Err.
End Syn.

(** The machine of the C code: [m_pos] is p->c.lex.string, [m_str] is p->c.tok.string, both as indices into the file; the file has a NUL at
    its end (syn.c 1019-1021) *)
Record mem := mk_mem { m_cur : Z; m_pos : nat; m_str : nat; m_mem : list Z }.
Definition load (m : list Z) (p : nat) : res Z := match nth_error m p with Some c => Ok c | None => Crash end.
Fixpoint poke (m : list Z) (p : nat) (c : Z) : list Z :=
  match m, p with [], _ => [] | _ :: m, O => c :: m | x :: m, S p => x :: poke m p c end.
Fixpoint upto0 (m : list Z) : list Z := match m with [] => [] | c :: m => if c =? 0 then [] else c :: upto0 m end.
Definition cstr (m : list Z) (p : nat) : list Z := upto0 (skipn p m).
(** syn.c 121-132: [e] is the index of the end, p->c.lex.end *)
Definition m_step (e : nat) (s : mem) : res mem :=
  if Nat.leb e (m_pos s) then Ok (mk_mem 0 (m_pos s) (m_str s) (m_mem s))
  else do c <- load (m_mem s) (S (m_pos s)); Ok (mk_mem c (S (m_pos s)) (m_str s) (m_mem s)).
Definition m_cut (s : mem) : res mem :=
  do _ <- load (m_mem s) (m_pos s); Ok (mk_mem (m_cur s) (m_pos s) (m_str s) (poke (m_mem s) (m_pos s) 0)).
Definition machine (e : nat) : ops mem nat :=
  mk_ops mem nat m_cur (fun s => load (m_mem s) (m_pos s)) (fun s => load (m_mem s) (S (m_pos s))) (m_step e)
    (fun s => mk_mem (m_cur s) (m_pos s) (m_pos s) (m_mem s)) m_cut m_str (fun s => cstr (m_mem s) (m_str s)).
(** syn.c 62-77 and 1070-1107 *)
Definition syn_parse {F} (strtod : list Z -> F) (fuel : nat) (file : list Z) : res (list (stmt nat F) * mem) :=
  parse mem nat F (machine (length file)) strtod fuel (mk_mem (nth 0 (file ++ [0]) 0) 0 0 (file ++ [0])).

(** syn-2scad.c.  [fmt] is printf with %.16g (def-float.h 34) *)
Section Put.
Variables (F : Type) (fmt : F -> list Z).
Notation value := (value (list Z) F). Notation item := (item (list Z) F). Notation stmt := (stmt (list Z) F).
(** printf with %lld: the digits from the least, with fuel *)
Fixpoint digits (fuel : nat) (n : Z) : list Z := match fuel with O => [] | S fuel => (if n <? 10 then [] else digits fuel (n / 10)) ++ [48 + n mod 10] end.
Definition put_int (n : Z) : list Z := if n <? 0 then 45 :: digits 20 (- n) else digits 20 n.
Fixpoint sep (l : list (list Z)) : list Z := match l with [] => [] | [x] => x | x :: l => x ++ 44 :: sep l end.
(** syn-2scad.c 30-80 *)
Fixpoint put_value (v : value) : list Z :=
  match v with
  | VId s => s
  | VInt n => put_int n
  | VFloat x => fmt x
  | VString s => 34 :: s ++ [34]
  | VRange a b c => 91 :: put_value a ++ 58 :: (match c with Some c => put_value c ++ [58] | None => [] end) ++ put_value b ++ [93]
  | VArray l => 91 :: sep (map put_value l) ++ [93]
  end.
Definition put_arg (a : arg (list Z) F) : list Z := (match fst a with Some k => k ++ [61] | None => [] end) ++ put_value (snd a).
(** syn-2scad.c 82-113; base-def.h 9: the indentation is 2 *)
Fixpoint put_item (d : nat) (i : item) : list Z :=
  let '(Item f a b _) := i in
  repeat 32 d ++ (match f with Some f => f | None => [123] end) ++ 40 :: sep (map put_arg a) ++ 41 ::
  match b with [] => [59; 10] | _ => [32; 123; 10] ++ flat_map (put_item (2 + d)) b ++ repeat 32 d ++ [125; 10] end.
(** syn-2scad.c 115-144 *)
Definition put_stmt (s : stmt) : list Z :=
  match s with SItem i => put_item 0 i | SUse p => [117; 115; 101; 32; 60] ++ p ++ [62; 10] end.
Definition put_tree (l : list stmt) : list Z := flat_map put_stmt l.
End Put.

(** Model of src/hob3l/xml-parse.c: parsing XML in place.

    [mem]: the bytes of the file and the terminating NUL (src/hob3l/syn.c 1018-1022); pointers into the file are positions.  Strings are
    positions, too: they end at the next NUL, which the parser writes.  Outcomes: [Ok], [Err] (an error message), [Crash] (a failing
    assertion or an access outside of [mem]), [Null] (access via a null pointer), [Hang] (a loop without an exit repeats in the same state) and [NoFuel]
    (the bound for the recursion of the model is reached).  Left out: messages, locations, the pool, the dump (debugging).
    p->tok_start is never set: it is NULL and never equal to p->loc. *)
From Coq Require Import ZArith Bool List.
From Verif Require Import Utf8_model.
Import ListNotations.
Local Open Scope Z_scope.

Inductive xres (A : Type) : Type := Ok (a : A) | Err | Crash | Null | Hang | NoFuel.
Arguments Ok {A} a. Arguments Err {A}. Arguments Crash {A}. Arguments Null {A}. Arguments Hang {A}. Arguments NoFuel {A}.
Definition bind {A B} (x : xres A) (f : A -> xres B) : xres B :=
  match x with Ok a => f a | Err => Err | Crash => Crash | Null => Null | Hang => Hang | NoFuel => NoFuel end.
Notation "'do' x '<-' e ';' f" := (bind e (fun x => f)) (at level 200, x pattern, e at level 100, f at level 200, right associativity).

(** 8-19 [parse_t]: p->cur, p->loc, p->str_next, and the contents of the file *)
Record state := mk_state { cur : Z; loc : nat; nxt : nat; mem : list Z }.
Fixpoint write (m : list Z) (p : nat) (c : Z) : option (list Z) :=
  match m, p with [], _ => None | _ :: m, O => Some (c :: m) | x :: m, S p => match write m p c with Some m => Some (x :: m) | None => None end end.
Fixpoint writes (m : list Z) (p : nat) (l : list Z) : option (list Z) :=
  match l with [] => Some m | c :: l => match write m p c with Some m => writes m (S p) l | None => None end end.
Definition store (st : state) (p : nat) (l : list Z) : xres state :=
  match writes (mem st) p l with Some m => Ok (mk_state (cur st) (loc st) (nxt st) m) | None => Crash end.
(** A string: the bytes up to the next NUL *)
Fixpoint upto0 (m : list Z) : list Z := match m with [] => [] | c :: m => if c =? 0 then [] else c :: upto0 m end.
Definition cstr (m : list Z) (p : nat) : list Z := upto0 (skipn p m).
Definition peek (st : state) (c : Z) : xres bool := match nth_error (mem st) (nxt st) with Some x => Ok (x =? c) | None => Crash end.
Definition same (a b : state) : bool := (cur a =? cur b) && Nat.eqb (loc a) (loc b) && Nat.eqb (nxt a) (nxt b).

Section Parse.
(** p->str_end *)
Variable str_end : nat.

(** 117-133 [lex_next] *)
Definition lex_next (st : state) : xres state :=
  match decode (mem st) (mk_iter (nxt st) (str_end - nxt st) None) with
  | UOk (c, i) => match error i with Some _ => Err | None => Ok (mk_state c (nxt st) (pos i) (mem st)) end
  | UFail | Uoob => Crash
  end.

(** 147-163 [cp_xml_is_space] *)
Definition is_space (c : Z) : bool :=
  (c =? 32) || (c =? 9) || (c =? 13) || (c =? 10) || (c =? 12) || (c =? 133) || (c =? 8232) || (c =? 8233).
(** 165-176 *)
Definition maybe_tag_begin (c : Z) : bool := negb ((c =? 45) || (c =? 46) || ((48 <=? c) && (c <=? 57))).
(** 178-194: the characters of the switch, ASCII codes *)
Definition is_tag_char (c : Z) : bool :=
  if is_space c then false else if 127 <? c then true else
  negb (existsb (Z.eqb c) [33; 34; 35; 36; 37; 38; 39; 40; 41; 42; 43; 44; 47; 59; 60; 61; 62; 63; 64; 91; 92; 93; 94; 96; 123; 124; 125; 126; 58]).

(** 202-204: the loop of [parse_tag] *)
Fixpoint tag_loop (fuel : nat) (st : state) : xres state :=
  match fuel with
  | O => NoFuel
  | S fuel => if is_tag_char (cur st) then do st' <- lex_next st; if same st st' then Hang else tag_loop fuel st' else Ok st
  end.
(** 196-214 [parse_tag] *)
Definition parse_tag (fuel : nat) (st : state) : xres (nat * state) :=
  let tok := loc st in
  do st <- (if maybe_tag_begin (cur st) then tag_loop fuel st else Ok st);
  do st <- store st (loc st) [0]; Ok (tok, st).
(** 216-223 *)
Fixpoint skip_space (fuel : nat) (st : state) : xres state :=
  match fuel with O => NoFuel | S fuel => if is_space (cur st) then do st <- lex_next st; skip_space fuel st else Ok st end.
(** 225-238: [s] is the string *)
Fixpoint expect (s : list Z) (st : state) : xres state :=
  match s with [] => Ok st | c :: s => if negb (cur st =? c) then Err else do st <- lex_next st; expect s st end.
(** 240-246 *)
Definition digit_val (c : Z) : Z :=
  if (48 <=? c) && (c <=? 57) then c - 48 else if (97 <=? c) && (c <=? 122) then c - 97 + 10 else if (65 <=? c) && (c <=? 90) then c - 65 + 10 else 99.
(** 248-261: unsigned has 32 bits *)
Fixpoint read_num (fuel : nat) (base n : Z) (st : state) : xres (Z * state) :=
  match fuel with
  | O => NoFuel
  | S fuel => let val := digit_val (cur st) in if base <=? val then Ok (n, st) else do st <- lex_next st; read_num fuel base ((n * base + val) mod 4294967296) st
  end.
(** 276-307: the character denoted by an entity, at '&'; then p->cur is at ';' *)
Definition entity (fuel : nat) (st : state) : xres (Z * state) :=
  do st <- lex_next st;
  do (c, st) <-
    (if cur st =? 113 then do st <- expect [113; 117; 111; 116] st; Ok (34, st)
     else if cur st =? 108 then do st <- expect [108; 116] st; Ok (60, st)
     else if cur st =? 103 then do st <- expect [103; 116] st; Ok (62, st)
     else if cur st =? 97 then
       do st <- lex_next st;
       if cur st =? 109 then do st <- expect [109; 112] st; Ok (38, st)
       else do st <- expect [112; 111; 115] st; Ok (39, st)
     else if cur st =? 35 then
       do st <- lex_next st;
       if (cur st =? 120) || (cur st =? 88) then do st <- lex_next st; read_num fuel 16 0 st
       else read_num fuel 10 0 st
     else Err);
  if negb (cur st =? 59) then Err else Ok (c, st).
(** 269-322: the loop of [parse_text] *)
Fixpoint text_loop (fuel : nat) (delim : Z) (dst : nat) (st : state) : xres (nat * state) :=
  match fuel with
  | O => NoFuel
  | S fuel' =>
    if (cur st =? delim) || (cur st =? 60) || (cur st =? 0) then Ok (dst, st) else
    do (c, st) <- (if cur st =? 38 then entity fuel' st else Ok (cur st, st));
    if negb (utf8_ok c) then Err else
    match encode (nxt st - dst) c with
    | UOk [] | UFail | Uoob => Crash
    | UOk l => do st <- store st dst l; do st <- lex_next st; text_loop fuel' delim (dst + length l) st
    end
  end.
(** 263-342 [parse_text], [parse_cdata] *)
Definition parse_text (fuel : nat) (delim : Z) (st : state) : xres (nat * state) :=
  let cdata := loc st in
  do (dst, st) <- text_loop fuel delim cdata st;
  do st <- store st dst [0]; Ok (cdata, st).

(** include/hob3l/xml-parse_tam.h: ns_prefix, data, ns, child (the value of an attribute); the children of an element are two lists *)
Record attr := mk_attr { a_nsp : option nat; a_name : nat; a_ns : option nat; a_value : option nat }.
Inductive node := Elem (nsp : option nat) (tag : nat) (ns : option nat) (attrs : list attr) (child : list node) | Cdata (text : nat).

(** 344-357 [parse_scoped_name]: prefix and name *)
Definition parse_scoped_name (fuel : nat) (st : state) : xres (option nat * nat * state) :=
  do (name, st) <- parse_tag fuel st;
  if cur st =? 58 then do st <- lex_next st; do (name', st) <- parse_tag fuel st; Ok (Some name, name', st)
  else Ok (None, name, st).
(** 359-410 [parse_attr]: prefix, name, value *)
Definition parse_attr (fuel : nat) (st : state) : xres (option (option nat * nat * option nat) * state) :=
  do st <- skip_space fuel st;
  if (cur st =? 0) || (cur st =? 47) || (cur st =? 62) || (cur st =? 63) then Ok (None, st) else
  do (nsp, name, st) <- parse_scoped_name fuel st;
  if negb (cur st =? 61) then Ok (Some (nsp, name, None), st) else
  do st <- lex_next st;
  let delim := cur st in
  if negb (delim =? 34) && negb (delim =? 39) then Err else
  do st <- lex_next st;
  do (v, st) <- parse_text fuel delim st;
  if negb (cur st =? delim) then Err else
  do st <- lex_next st; Ok (Some (nsp, name, Some v), st).
(** 20-32 [ctxt_t]: ns_map (names and values, as attributes) and ns_default *)
Record ctxt := mk_ctxt { ns_map : list (nat * option nat); ns_default : option nat }.
Definition xmlns : list Z := [120; 109; 108; 110; 115].
Definition equ (a b : list Z) : bool := if list_eq_dec Z.eq_dec a b then true else false.
(** 412-436 [parse_attr_list]: the attributes in order, and the context *)
Fixpoint attr_list (fuel : nat) (c : ctxt) (st : state) : xres (list attr * ctxt * state) :=
  match fuel with
  | O => NoFuel
  | S fuel' =>
    do (a, st') <- parse_attr fuel' st;
    match a with
    | None => Ok ([], c, st')
    | Some (nsp, name, v) =>
      if same st st' then Hang else
      if match nsp with Some q => equ (cstr (mem st') q) xmlns | None => false end then
        attr_list fuel' (mk_ctxt ((name, v) :: ns_map c) (ns_default c)) st'
      else if match nsp with None => equ (cstr (mem st') name) xmlns | Some _ => false end then
        match v with None => Null | Some v => attr_list fuel' (mk_ctxt (ns_map c) (Some v)) st' end
      else
        do (r, c, st') <- attr_list fuel' c st'; Ok (mk_attr nsp name None v :: r, c, st')
    end
  end.
(** 438-448 [skip_comment] *)
Fixpoint skip_comment (fuel : nat) (st : state) : xres state :=
  match fuel with
  | O => NoFuel
  | S fuel =>
    do d <- (if cur st =? 45 then peek st 45 else Ok false);
    if d then expect [45; 45; 62] st
    else do st' <- lex_next st; if same st st' then Hang else skip_comment fuel st'
  end.
(** 520-541 [find_ns] *)
Fixpoint find_map (m : list Z) (l : list (nat * option nat)) (p : list Z) : xres (option nat) :=
  match l with
  | [] => Err
  | (n, v) :: l => if equ (cstr m n) p then match v with Some v => Ok (Some v) | None => Null end else find_map m l p
  end.
Definition find_ns (m : list Z) (c : ctxt) (nsp : option nat) (is_elem : bool) : xres (option nat) :=
  match nsp with None => Ok (if is_elem then ns_default c else None) | Some p => find_map m (ns_map c) (cstr m p) end.
(** 543-554 [resolve_ns] *)
Fixpoint resolve_attrs (m : list Z) (c : ctxt) (l : list attr) : xres (list attr) :=
  match l with
  | [] => Ok []
  | a :: l => do ns <- find_ns m c (a_nsp a) false; do l <- resolve_attrs m c l; Ok (mk_attr (a_nsp a) (a_name a) ns (a_value a) :: l)
  end.

Section Rec.
(** [parse_content_list] with less fuel *)
Variable rec : ctxt -> option (option nat * nat) -> state -> xres (list node * state).
(** 556-592 [parse_elem], without CP_XML_OPT_CHOMP *)
Definition parse_elem (fuel : nat) (co : ctxt) (st : state) : xres (node * state) :=
  do (nsp, tag, st) <- parse_scoped_name fuel st;
  do (attrs, c, st) <- attr_list fuel co st;
  do ns <- find_ns (mem st) c nsp true;
  do attrs <- resolve_attrs (mem st) c attrs;
  if cur st =? 47 then do st <- expect [47; 62] st; Ok (Elem nsp tag ns attrs [], st)
  else
    do st <- expect [62] st;
    do (ch, st) <- rec c (Some (nsp, tag)) st;
    Ok (Elem nsp tag ns attrs ch, st).
(** 455-486 [parse_content]: the loop at "again" *)
Fixpoint parse_content (fuel : nat) (c : ctxt) (st : state) : xres (option node * state) :=
  match fuel with
  | O => NoFuel
  | S fuel' =>
    if cur st =? 0 then Ok (None, st) else
    if cur st =? 60 then
      do st <- lex_next st;
      if cur st =? 33 then do st <- expect [33; 45; 45] st; do st <- skip_comment fuel' st; parse_content fuel' c st
      else do (e, st) <- parse_elem fuel' c st; Ok (Some e, st)
    else do (t, st) <- parse_text fuel' 60 st; Ok (Some (Cdata t), st)
  end.
End Rec.
(** 488-518 [parse_content_list]; [tag]: prefix and name of the element, or None for the document *)
Fixpoint content_list (fuel : nat) (c : ctxt) (tag : option (option nat * nat)) (st : state) : xres (list node * state) :=
  match fuel with
  | O => NoFuel
  | S fuel' =>
    do e <- (if match tag with Some _ => cur st =? 60 | None => false end then peek st 47 else Ok false);
    match e, tag with
    | true, Some (nsp, name) =>
      do st <- lex_next st; do st <- lex_next st;
      do st <- match nsp with Some p => do st <- expect (cstr (mem st) p) st; expect [58] st | None => Ok st end;
      do st <- expect (cstr (mem st) name) st; do st <- skip_space fuel' st; do st <- expect [62] st;
      Ok ([], st)
    | _, _ =>
      do (n, st) <- parse_content (content_list fuel') fuel' c st;
      match n with
      | None => match tag with Some _ => Err | None => Ok ([], st) end
      | Some n => do (r, st) <- content_list fuel' c tag st; Ok (n :: r, st)
      end
    end
  end.

(** strpref(p->str_next, s) *)
Fixpoint prefix (s m : list Z) : bool := match s, m with [], _ => true | _, [] => false | c :: s, x :: m => (c =? x) && prefix s m end.
Definition doctype : list Z := [33; 68; 79; 67; 84; 89; 80; 69].
(** 621-627 *)
Fixpoint doctype_loop (fuel : nat) (st : state) : xres state :=
  match fuel with
  | O => NoFuel
  | S fuel => if cur st =? 62 then Ok st else if cur st =? 0 then Err else do st <- lex_next st; doctype_loop fuel st
  end.
(** 594-633 [parse_doc] up to the content: the attributes (of <?xml ?>) and the content *)
Definition parse_doc (fuel : nat) (st : state) : xres (list attr * list node * state) :=
  do st <- (if cur st =? 65279 then lex_next st else Ok st);
  let c := mk_ctxt [] None in
  do q <- (if cur st =? 60 then peek st 63 else Ok false);
  do (c, attrs, st) <-
    (if q then
       do st <- lex_next st; do st <- lex_next st;
       do (tag, st) <- parse_tag fuel st;
       if negb (equ (cstr (mem st) tag) [120; 109; 108]) then Err else
       do (attrs, c, st) <- attr_list fuel c st;
       do st <- expect [63; 62] st; Ok (c, attrs, st)
     else Ok (c, [], st));
  do st <- skip_space fuel st;
  do st <-
    (if (cur st =? 60) && prefix doctype (skipn (nxt st) (mem st)) then
       do st <- expect (60 :: doctype) st; do st <- doctype_loop fuel st; do st <- lex_next st; skip_space fuel st
     else Ok st);
  do (n, st) <- content_list fuel c None st; Ok (attrs, n, st).
End Parse.

(** 717-746 [cp_xml_parse], 137-145 [start_file], up to the chomping and the check of the structure (634-649): [file] without the final NUL *)
Definition xml_parse (fuel : nat) (file : list Z) : xres (list attr * list node * state) :=
  do st <- lex_next (length file) (mk_state 0 0 0 (file ++ [0]));
  parse_doc (length file) fuel st.

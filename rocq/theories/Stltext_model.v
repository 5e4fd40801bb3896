(** Model of the reader for STL files in text format, src/hob3l/stl-parse.c 15-488, and of the writer for that
    format, src/hob3l/csg2-2stl.c 80-93 and 369-373.  The reader works inside the file's content: a number or
    word is ended by overwriting the character behind it with NUL, while that character is kept in lex_cur.
    Simplifications: locations and texts of messages are not modelled; a double is represented by a number,
    and strtod and printf of "%.16g" are parameters. *)
From Coq Require Import ZArith Bool String Ascii List.
From Verif Require Import Stl_model.
Import ListNotations.
Local Open Scope Z_scope.

(** the characters of a literal *)
Fixpoint chars (s : string) : list Z :=
  match s with
  | EmptyString => []
  | String a s => Z.of_nat (nat_of_ascii a) :: chars s
  end.

(** stl-parse.c 17-34: types of tokens; 1..127 are single characters *)
Definition T_EOF := 0.
Definition T_ERROR := 257.
Definition T_ID := 258.
Definition T_FLOAT := 260.
Definition T_STRING := 261.
Definition K_SOLID := 513.
Definition K_ENDSOLID := 514.
Definition K_FACET := 515.
Definition K_NORMAL := 516.
Definition K_ENDFACET := 517.
Definition K_OUTER := 518.
Definition K_LOOP := 519.
Definition K_ENDLOOP := 520.
Definition K_VERTEX := 521.

(** 66-81 [is_space], [is_digit], [is_alpha] *)
Definition is_space (c : Z) : bool := (c =? 32) || (c =? 9) || (c =? 13) || (c =? 10).
Definition is_digit (c : Z) : bool := (48 <=? c) && (c <=? 57).
Definition is_alpha (c : Z) : bool := ((97 <=? c) && (c <=? 122)) || ((65 <=? c) && (c <=? 90)).

Fixpoint str_eqb (a b : list Z) : bool :=
  match a, b with
  | [], [] => true
  | x :: a, y :: b => (x =? y) && str_eqb a b
  | _, _ => false
  end.

(** the C string that starts at a position; None if there is no NUL *)
Fixpoint cstr_of (l : list Z) : option (list Z) :=
  match l with
  | [] => None
  | c :: l => if c =? 0 then Some [] else option_map (cons c) (cstr_of l)
  end.
Definition cstr (mem : list Z) (p : nat) : option (list Z) := cstr_of (skipn p mem).

Fixpoint poke (mem : list Z) (p : nat) (x : Z) : list Z :=
  match mem, p with
  | [], _ => []
  | _ :: mem, O => x :: mem
  | y :: mem, S p => y :: poke mem p x
  end.

(** 35-51 parse_t: the bytes of the file, followed by one NUL (src/hob3l/syn.c 1020-1022); position of
    lex_string; lex_cur *)
Record lex := mk_lex { mem : list Z; lpos : nat; cur : Z }.
(** and the type and position of the token; points, faces *)
Record text := mk_text { lx : lex; typ : Z; tstr : nat; tpts : list point3; tfaces : list (list nat) }.

Section Text.
(** lex_end - content.data *)
Variable size : nat.
(** strtod *)
Variable strtod : list Z -> Z.
(** cp_vec3_dict_insert, as in Stl_model.v *)
Variable find : list point3 -> point3 -> option nat.

(** 53-64 [lex_next] *)
Definition lex_next (l : lex) : sres lex :=
  if Nat.leb size (lpos l) then SOk (mk_lex (mem l) (lpos l) 0)
  else match nth_error (mem l) (S (lpos l)) with
       | None => Soob
       | Some c => SOk (mk_lex (mem l) (S (lpos l)) c)
       end.
(** reading and writing at lex_string *)
Definition deref (l : lex) : sres Z :=
  match nth_error (mem l) (lpos l) with None => Soob | Some c => SOk c end.
Definition zap (l : lex) : sres lex :=
  if Nat.ltb (lpos l) (length (mem l)) then SOk (mk_lex (poke (mem l) (lpos l) 0) (lpos l) (cur l)) else Soob.
(** a loop 'while (P(p->lex_cur)) lex_next(p);'; SFail: does not end *)
Fixpoint skip_while (P : Z -> bool) (fuel : nat) (l : lex) : sres lex :=
  match fuel with
  | O => SFail
  | S fuel => if P (cur l) then let% l := lex_next l in skip_while P fuel l else SOk l
  end.
Definition many : nat := S (S size).

(** 100-148: a number; the result is the state, type, tok_string *)
Definition lex_float (l : lex) : sres (lex * Z * nat) :=
  let% c := deref l in
  if c =? 0 then SOk (l, T_ERROR, lpos l)
  else
    let start := lpos l in
    let% (l, start) :=
      if cur l =? 43 then (let% l := lex_next l in SOk (l, lpos l))
      else if cur l =? 45 then (let% l := lex_next l in SOk (l, start))
      else SOk (l, start) in
    let% l := skip_while is_digit many l in
    let% l := if cur l =? 46 then (let% l := lex_next l in skip_while is_digit many l) else SOk l in
    let% l :=
      if (cur l =? 101) || (cur l =? 69) then
        let% l := lex_next l in
        let% l := if (cur l =? 45) || (cur l =? 43) then lex_next l else SOk l in
        skip_while is_digit many l
      else SOk l in
    let% l := zap l in
    SOk (l, T_FLOAT, start).
(** 150-165: an identifier *)
Definition lex_id (l : lex) : sres (lex * Z * nat) :=
  let% c := deref l in
  if c =? 0 then SOk (l, T_ERROR, lpos l)
  else
    let start := lpos l in
    let% l := skip_while is_alpha many l in
    let% l := zap l in
    SOk (l, T_ID, start).
(** 83-175 [tok_next_aux], unless the type is T_ERROR *)
Definition tok_next_aux (l : lex) : sres (lex * Z * nat) :=
  let% l := skip_while is_space many l in
  let c := cur l in
  if (c =? 43) || (c =? 45) || (c =? 46) || is_digit c then lex_float l
  else if is_alpha c then lex_id l
  else if negb (c <? 128) then SOk (l, T_ERROR, lpos l)
  else let% l' := lex_next l in SOk (l', c, lpos l).

(** 196-237 [sieve_id]; s is a C string of at least len bytes *)
Definition sieve_id (s : list Z) (len : nat) : Z :=
  if Nat.ltb len 4 then T_ID
  else
    let c := nth 0 s 0 in
    let d := nth 3 s 0 in
    if c =? 101 then
      if d =? 102 then if str_eqb s (chars "endfacet") then K_ENDFACET else T_ID
      else if d =? 108 then if str_eqb s (chars "endloop") then K_ENDLOOP else T_ID
      else if d =? 115 then if str_eqb s (chars "endsolid") then K_ENDSOLID else T_ID
      else T_ID
    else if c =? 102 then if str_eqb s (chars "facet") then K_FACET else T_ID
    else if c =? 108 then if str_eqb s (chars "loop") then K_LOOP else T_ID
    else if c =? 110 then if str_eqb s (chars "normal") then K_NORMAL else T_ID
    else if c =? 111 then if str_eqb s (chars "outer") then K_OUTER else T_ID
    else if c =? 115 then if str_eqb s (chars "solid") then K_SOLID else T_ID
    else if c =? 118 then if str_eqb s (chars "vertex") then K_VERTEX else T_ID
    else T_ID.

(** 239-245 [tok_next] *)
Definition tok_next (p : text) : sres text :=
  if typ p =? T_ERROR then SOk p
  else
    let% (l, t, s) := tok_next_aux (lx p) in
    let% t :=
      if t =? T_ID then
        match cstr (mem l) s with
        | None => Soob
        | Some w => SOk (sieve_id w (lpos l - s))
        end
      else SOk t in
    SOk (mk_text l t s (tpts p) (tfaces p)).

(** 177-194 [tok_next_line] *)
Fixpoint to_line_end (fuel : nat) (l : lex) : sres lex :=
  match fuel with
  | O => SFail
  | S fuel =>
      let% c := deref l in
      if negb (c =? 10) && negb (c =? 0) then let% l := lex_next l in to_line_end fuel l else SOk l
  end.
Definition tok_next_line (p : text) : sres text :=
  if typ p =? T_ERROR then SOk p
  else
    let% l := lex_next (lx p) in
    let s := lpos l in
    let% l := to_line_end many l in
    SOk (mk_text l T_STRING s (tpts p) (tfaces p)).

(** 247-330 [_expect], [expect_err]; the message may have the string of the token ([get_tok_string]) *)
Definition expect_err (p : text) (t : Z) : sres text :=
  if typ p =? t then tok_next p
  else match cstr (mem (lx p)) (tstr p) with None => Soob | Some _ => SErr end.

(** 332-338 [parse_float] *)
Definition parse_float (p : text) : sres (Z * text) :=
  match cstr (mem (lx p)) (tstr p) with
  | None => Soob
  | Some w => let% p := expect_err p T_FLOAT in SOk (strtod w, p)
  end.
(** 340-350 [parse_vec3] *)
Definition parse_vec3 (p : text) : sres (point3 * text) :=
  let% (x, p) := parse_float p in
  let% (y, p) := parse_float p in
  let% (z, p) := parse_float p in
  SOk ((x, y, z), p).
(** 352-366 [parse_vertex]: the index of the point *)
Definition parse_vertex (p : text) : sres (nat * text) :=
  let% p := expect_err p K_VERTEX in
  let% (v, p) := parse_vec3 p in
  match find (tpts p) v with
  | Some i => SOk (i, p)
  | None => SOk (length (tpts p), mk_text (lx p) (typ p) (tstr p) (tpts p ++ [v]) (tfaces p))
  end.
(** 386-409 [parse_facet], 368-384 [make_facet] *)
Definition parse_facet (p : text) : sres text :=
  let% p := expect_err p K_FACET in
  let% p := expect_err p K_NORMAL in
  let% (_, p) := parse_vec3 p in
  let% p := expect_err p K_OUTER in
  let% p := expect_err p K_LOOP in
  let% (v0, p) := parse_vertex p in
  let% (v1, p) := parse_vertex p in
  let% (v2, p) := parse_vertex p in
  let% p := expect_err p K_ENDLOOP in
  let% p := expect_err p K_ENDFACET in
  SOk (mk_text (lx p) (typ p) (tstr p) (tpts p) (tfaces p ++ [[v2; v1; v0]])).

(** 440-444, the loop *)
Fixpoint parse_facets (fuel : nat) (p : text) : sres text :=
  match fuel with
  | O => SFail
  | S fuel => if typ p =? K_FACET then let% p := parse_facet p in parse_facets fuel p else SOk p
  end.
(** 432-454 [parse_solid], without [make_solid] *)
Definition parse_solid (p : text) : sres text :=
  if negb (typ p =? K_SOLID) then SErr
  else
    let% p := tok_next_line p in
    let% p := tok_next p in
    let% p := parse_facets many p in
    let% p := expect_err p K_ENDSOLID in
    let% p := tok_next_line p in
    tok_next p.
End Text.

(** 456-463 [stl_start_file], 465-488 [parse_text], 411-430 [make_solid] *)
Definition parse_text (strtod : list Z -> Z) (find : list point3 -> point3 -> option nat)
    (content : list Z) : sres (list (list point3)) :=
  let size := length content in
  let p := mk_text (mk_lex (content ++ [0]) 0 (nth 0 (content ++ [0]) 0)) T_EOF 0 [] [] in
  let% p := tok_next size p in
  let% p := parse_solid size strtod find p in
  let% r := make_faces (tpts p) (tfaces p) in
  if typ p =? T_EOF then SOk r else SErr.

(** *** writing *)
Section Write.
Variable normal : point3 -> point3 -> point3 -> option point3.
Variable zs : list (Z * Z * bool).
Variables zero one mone : Z.
(** printf of a number *)
Variable fmt : Z -> list Z.

Definition nl : list Z := [10].
Definition put_vec3 (p : point3) : list Z :=
  let '(x, y, z) := p in fmt x ++ [32] ++ fmt y ++ [32] ++ fmt z ++ nl.
(** csg2-2stl.c 80-93 [triangle_put_stl], text *)
Definition put_text (c : list Z) (t : tri3) : list Z :=
  c ++ chars "  facet normal " ++ put_vec3 (t_n t) ++
  chars "    outer loop" ++ nl ++
  chars "      vertex " ++ put_vec3 (t_a t) ++
  chars "      vertex " ++ put_vec3 (t_b t) ++
  chars "      vertex " ++ put_vec3 (t_c t) ++
  chars "    endloop" ++ nl ++
  chars "  endfacet" ++ nl.
(** 369-373 [cp_csg2_tree_put_stl] with bin = false *)
Definition write_text (root : csg2) : sres (list Z) :=
  let% s := put_csg2 normal zs zero one mone put_text (chars "solid model" ++ nl) 0 root in
  SOk (s ++ chars "endsolid model" ++ nl).
End Write.

(** Model of the source locations: src/hob3l/syn-msg.c 7-113, 138-180, the line table of src/hob3l/syn.c 1020-1040, and
    cp_bsearch of src/hob3lbase/vec.c 449-477.

    Pointers are natural numbers (addresses), characters are natural numbers below 256.  A file is the address of its
    content, the content (without the terminating NUL), its line table being computed by [line_table]. *)
From Coq Require Import Arith Bool List NArith.
Import ListNotations.

Notation char := nat (only parsing).

Definition NL : char := 10.
Definition TAB : char := 9.
Definition SPACE : char := 32.

(** syn.c 1033-1037: the loop, [i] is the address of the first character of [s] *)
Fixpoint cut (i : nat) (s : list char) : list nat :=
  match s with
  | [] => []
  | c :: s => if c =? NL then (i + 1) :: cut (i + 1) s else cut (i + 1) s
  end.
(** syn.c 1027-1040 *)
Definition line_table (start : nat) (s : list char) : list nat :=
  let l := start :: cut start s in
  let e := start + length s in
  if negb (last l 0 =? e) then l ++ [e] else l.

(** syn-msg.c 7-24 [cmp_line]; [lines] is the table, [elem] the index.  None: the assertion fails. *)
Definition cmp_line (key : nat) (lines : list nat) (elem : nat) : option comparison :=
  let e0 := nth elem lines 0 in
  if key <? e0 then Some Lt
  else if key =? e0 then Some Eq
  else if elem + 1 <? length lines then
    (if nth (elem + 1) lines 0 <? key then Some Gt else Some Eq)
  else None.

Inductive found := Found (i : nat) | NotFound | AssertFail | NoFuel.
(** vec.c 449-477 [cp_bsearch] *)
Fixpoint bsearch_ (fuel : nat) (cmp : nat -> option comparison) (a b : nat) : found :=
  match fuel with
  | O => NoFuel
  | S fuel =>
    if a <? b then
      let idx := a + (b - a) / 2 in
      match cmp idx with
      | None => AssertFail
      | Some Lt => bsearch_ fuel cmp a idx
      | Some Gt => bsearch_ fuel cmp (idx + 1) b
      | Some Eq => Found idx
      end
    else NotFound
  end.
Definition bsearch (cmp : nat -> option comparison) (nmemb : nat) : found := bsearch_ (S nmemb) cmp 0 nmemb.

(** syn_tam.h [cp_syn_file_t]: base address and content *)
Record file := mk_file { base : nat; content : list char }.
(** syn.h [cp_syn_loc_t]: the index of the file, the line, and the line's text as offsets in the original content *)
Record loc := mk_loc { lfile : nat; line : nat; orig : nat; orig_end : nat }.

Inductive got := Loc (l : loc) | NoLoc | Bad.
(** syn-msg.c 138-180 [cp_syn_get_loc]; [i] is the number of files before [fs] *)
Fixpoint get_loc_ (i : nat) (fs : list file) (token : nat) : got :=
  match fs with
  | [] => NoLoc
  | f :: fs =>
    if (base f <=? token) && (token <=? base f + length (content f)) then
      let lines := line_table (base f) (content f) in
      match bsearch (cmp_line token lines) (length lines) with
      | Found ln =>
        if negb (ln <? length lines) then Bad else
        let copy := nth ln lines 0 in
        let copy_end := if ln + 1 <? length lines then nth (ln + 1) lines 0 else copy in
        Loc (mk_loc i ln (copy - base f) (copy - base f + (copy_end - copy)))
      | _ => Bad
      end
    else get_loc_ (i + 1) fs token
  end.
Definition get_loc (fs : list file) (token : nat) : got := get_loc_ 0 fs token.

(** syn-msg.c 26-32 [is_printable] *)
Definition is_printable (u : char) : bool :=
  (u =? 10) || (u =? 9) || (u =? 13) || ((32 <=? u) && (u <=? 126)).

(** (x + 4) & -4U: the mask has 32 bits *)
Definition tab_stop (x : nat) : nat := N.to_nat (N.land (N.of_nat x + 4) (2 ^ 32 - 4)).
(** "[...binary...]" *)
Definition binary_txt : list char := [91; 46; 46; 46; 98; 105; 110; 97; 114; 121; 46; 46; 46; 93].

(** syn-msg.c 45-69: the loop.  [out] is the output after the first blank, [i] the offset of the first character of [s], [pos]
    is None for CP_SIZE_MAX *)
Fixpoint format_loop (out : list char) (pos : option nat) (x : nat) (need_cr : bool) (loc i : nat) (s : list char)
  : list char * option nat * bool :=
  match s with
  | [] => (out, pos, need_cr)
  | c :: s =>
    let pos := if i =? loc then Some x else pos in
    if c =? TAB then
      let new_x := tab_stop x in
      format_loop (out ++ repeat SPACE (new_x - x)) pos (Nat.max x new_x) need_cr loc (i + 1) s
    else if negb (is_printable c) then
      (if negb (length out =? 0) then out ++ binary_txt else out, pos, need_cr)
    else
      format_loop (out ++ [c]) pos (x + 1) (if c =? NL then false else need_cr) loc (i + 1) s
  end.
(** syn-msg.c 34-80 [format_source_line]: the text (with the leading blank), the position, the result *)
Definition format_source_line (loc i : nat) (s : list char) : list char * option nat * bool :=
  let '(out, pos, need_cr) := format_loop [] None 0 true loc i s in
  if length out =? 0 then ([SPACE], pos, false)
  else (SPACE :: out ++ (if need_cr then [NL] else []), pos, true).

(** syn-msg.c 82-113 [cp_syn_get_loc_src_aux]: the file, line and column printed (line and column are counted from 1; the
    column may be missing), the source line, and the line with the caret *)
Definition loc_src (fs : list file) (token : nat) : option (nat * nat * option nat * list char * list char) :=
  match get_loc fs token with
  | Loc l =>
    match nth_error fs (lfile l) with
    | None => None
    | Some f =>
      let at_ := token - base f in
      let src := firstn (orig_end l - orig l) (skipn (orig l) (content f)) in
      let '(text, pos, ok) := format_source_line at_ (orig l) src in
      Some (lfile l, line l + 1, option_map S pos, text,
        match pos with
        | Some p => if ok then SPACE :: repeat SPACE p ++ [94; NL] else []
        | None => []
        end)
    end
  | _ => None
  end.

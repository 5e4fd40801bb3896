(** Model of strings: the character vectors of src/hob3lbase/vchar.c and include/hob3lbase/vchar.h, string_unquote of
    src/hob3l/scad.c 1409-1433, and cp_color_by_name of src/hob3l/gc.c 32-88.

    Characters are natural numbers below 256.  Sizes of type size_t are in N, modulo 2^64 where the code can overflow. *)
From Coq Require Import Arith Bool List NArith.
From Verif Require Import Sieve_model Color_table.
Import ListNotations.

Inductive fault := AssertFails | NullDeref | Overrun | OutOfFuel.
Inductive res (A : Type) := Ok (a : A) | Err (e : fault).
Arguments Ok {A} a. Arguments Err {A} e.
Notation "'do' x <- e ;; k" := (match e with Ok x => k | Err er => Err er end) (at level 200, x pattern, right associativity).

(** vchar_tam.h [cp_vchar_t]: [vdata] is None for NULL, else the allocated bytes, of which there are alloc *)
Record vchar := mk_vchar { vdata : option (list nat); vsize : nat }.
Definition alloc (v : vchar) : nat := match vdata v with None => 0 | Some d => length d end.

(** vchar.h 60-64 [cp_vchar_init] *)
Definition vchar_init : vchar := mk_vchar None 0.
(** vchar.c 12-21 [cp_vchar_fini]; NULL for v is not modelled *)
Definition vchar_fini (v : vchar) : vchar := mk_vchar None 0.

(** vchar.c 34-37: the loop of v_grow *)
Fixpoint grow_loop (fuel : nat) (old a n : N) : res N :=
  match fuel with
  | O => Err OutOfFuel
  | S fuel =>
    if (a <? n)%N then
      let a := (a * 2 mod 2 ^ 64)%N in
      if (old <? a)%N then grow_loop fuel old a n else Err AssertFails
    else Ok a
  end.
(** vchar.c 23-41 [v_grow].  [junk] is what the memory that realloc adds contains; realloc does not fail (the code does not
    check this). *)
Definition v_grow (junk : nat -> nat) (v : vchar) (new_size : nat) : res vchar :=
  if new_size <=? alloc v then Ok v else
  let new_alloc := if alloc v <? 4 then 4 else alloc v in
  do a <- grow_loop 66 (N.of_nat (alloc v)) (N.of_nat new_alloc) (N.of_nat new_size) ;;
  let old := match vdata v with None => [] | Some d => d end in
  Ok (mk_vchar (Some (old ++ map junk (seq (length old) (N.to_nat a - length old)))) (vsize v)).

(** *(v->data + i) = x, and a memcpy to v->data + i *)
Definition put_at (v : vchar) (i : nat) (xs : list nat) : res vchar :=
  match vdata v with
  | None => Err NullDeref
  | Some d => if i + length xs <=? length d
              then Ok (mk_vchar (Some (firstn i d ++ xs ++ skipn (i + length xs) d)) (vsize v))
              else Err Overrun
  end.
Definition with_size (v : vchar) (n : nat) : vchar := mk_vchar (vdata v) n.

(** vchar.c 46-55 [cp_vchar_clear] *)
Definition vchar_clear (v : vchar) : res vchar :=
  if vsize v =? 0 then Ok v else put_at (with_size v 0) 0 [0].
(** vchar.c 60-69 [cp_vchar_append_arr]; [data] is not in the memory of v *)
Definition vchar_append_arr (junk : nat -> nat) (v : vchar) (data : list nat) : res vchar :=
  do v <- v_grow junk v (vsize v + length data + 1) ;;
  do v <- put_at v (vsize v) data ;;
  let v := with_size v (vsize v + length data) in
  put_at v (vsize v) [0].
(** vchar.h 69-74 [cp_vchar_push] *)
Definition vchar_push junk v c := vchar_append_arr junk v [c].
(** vchar.h 76-83 [cp_vchar_append]: w->data may be NULL, then w->size is 0 *)
Definition vchar_append junk (v w : vchar) : res vchar :=
  vchar_append_arr junk v (firstn (vsize w) match vdata w with None => [] | Some d => d end).
(** vchar.h 96-104 [cp_vchar_cstr] *)
Definition vchar_cstr junk (v : vchar) : res vchar :=
  if vsize v =? 0 then do v <- vchar_push junk v 0 ;; Ok (with_size v 0) else Ok v.
(** vchar.h 106-114 [cp_vchar_pop] *)
Definition vchar_pop (v : vchar) : res (nat * vchar) :=
  if vsize v =? 0 then Err AssertFails else
  let v := with_size v (vsize v - 1) in
  match vdata v with
  | None => Err NullDeref
  | Some d =>
    match nth_error d (vsize v) with
    | None => Err Overrun
    | Some r => do v <- put_at v (vsize v) [0] ;; Ok (r, v)
    end
  end.

(** vsnprintf(p, have, ...) where the whole output is [text]: as much as fits, and a 0 *)
Definition snprintf_out (have : nat) (text : list nat) : list nat :=
  if have =? 0 then [] else firstn (have - 1) text ++ [0].
(** vchar.c 88-115 [cp_vchar_vprintf]: one round of the loop; None: once more *)
Definition vprintf_try (v : vchar) (text : list nat) : res (option vchar * vchar) :=
  let have := alloc v - vsize v in
  do v <- put_at v (vsize v) (snprintf_out have text) ;;
  let done := length text in
  if done <? have then
    let v := with_size v (vsize v + done) in
    if vsize v <? alloc v then Ok (Some v, v) else Err AssertFails
  else Ok (None, v).
Fixpoint vprintf_loop (fuel : nat) junk (v : vchar) (text : list nat) : res vchar :=
  match fuel with
  | O => Err OutOfFuel
  | S fuel =>
    do (r, v) <- vprintf_try v text ;;
    match r with
    | Some v => Ok v
    | None =>
      if length text =? 0 then Err AssertFails else
      do v <- v_grow junk v (vsize v + length text + 1) ;;
      vprintf_loop fuel junk v text
    end
  end.
Definition vchar_vprintf junk (v : vchar) (text : list nat) : res vchar :=
  do v <- v_grow junk v 1 ;; vprintf_loop 3 junk v text.

(** A sequence of calls *)
Inductive op := Append (d : list nat) | Push (c : nat) | Clear | Cstr | Pop | Printf (text : list nat) | Fini.
Definition exec junk (o : op) (v : vchar) : res vchar :=
  match o with
  | Append d => vchar_append_arr junk v d
  | Push c => vchar_push junk v c
  | Clear => vchar_clear v
  | Cstr => vchar_cstr junk v
  | Pop => do (c, v) <- vchar_pop v ;; Ok v
  | Printf text => vchar_vprintf junk v text
  | Fini => Ok (vchar_fini v)
  end.
Fixpoint exec_all junk (l : list op) (v : vchar) : res vchar :=
  match l with
  | [] => Ok v
  | o :: l => do v <- exec junk o v ;; exec_all junk l v
  end.

(** scad.c 1409-1433 [string_unquote]: the loop; [s] is what is left before the terminating zero.  The result is false with
    whatever is in v by then if there is a message. *)
Definition BACKSLASH := 92.
Definition QUOTE := 34.
Definition escape (c : nat) : option nat :=
  if c =? BACKSLASH then Some BACKSLASH else
  if c =? QUOTE then Some QUOTE else
  if c =? 116 then Some 9 else
  if c =? 110 then Some 10 else
  if c =? 114 then Some 13 else None.
Fixpoint unquote_loop junk (v : vchar) (s : list nat) : res (bool * vchar) :=
  match s with
  | [] => Ok (true, v)
  | c :: s =>
    if c =? BACKSLASH then
      match s with
      | [] => (* *i is the terminating zero *) Ok (false, v)
      | d :: s =>
        match escape d with
        | Some x => do v <- vchar_push junk v x ;; unquote_loop junk v s
        | None => Ok (false, v)
        end
      end
    else do v <- vchar_push junk v c ;; unquote_loop junk v s
  end.
Definition string_unquote junk (v : vchar) (s : list nat) : res (bool * vchar) :=
  do v <- vchar_cstr junk v ;; unquote_loop junk v s.

(** gc.c 44-70: the value of a digit; char may be signed or not, which makes no difference *)
Definition digit (c : nat) : option N :=
  if (48 <=? c) && (c <=? 57) then Some (N.of_nat (c - 48)) else
  if (97 <=? c) && (c <=? 102) then Some (N.of_nat (c - 97) + 10)%N else
  if (65 <=? c) && (c <=? 70) then Some (N.of_nat (c - 65) + 10)%N else None.
(** gc.c 47-65: the loop; unsigned has 32 bits *)
Fixpoint hex_loop (v : N) (s : list nat) : option N :=
  match s with
  | [] => Some v
  | c :: s => match digit c with
              | Some d => hex_loop ((v * 16 + d) mod 2 ^ 32) s
              | None => None
              end
  end.
Notation rgb := (N * N * N)%type (only parsing).
Definition split_rgb (v : N) : rgb := (N.land (N.shiftr v 16) 255, N.land (N.shiftr v 8) 255, N.land v 255).
(** gc.c 32-88 [cp_color_by_name], with the lookup function [color_find] that mksieve made.  [old] is what is in *rgb. *)
Definition color_by_name (color_find : list nat -> nat -> outcome N) (old : rgb) (name : list nat) : res (bool * rgb) :=
  let len := length name in
  if hd 0 name =? 35 then
    if negb (len =? 4) && negb (len =? 7) then Ok (false, old) else
    match hex_loop 0 (tl name) with
    | None => Ok (false, old)
    | Some v =>
      if len =? 4 then
        Ok (true, (N.land (N.shiftr v 8) 15 * 17, N.land (N.shiftr v 4) 15 * 17, N.land v 15 * 17)%N)
      else Ok (true, split_rgb v)
    end
  else
    match color_find (name ++ [0]) len with
    | Hit c => Ok (true, split_rgb c)
    | Miss => Err NullDeref
    | AssertFail => Err AssertFails
    | OutOfBounds => Err Overrun
    end.
(** the lookup function for gc-color.sieve *)
Definition color_find : list nat -> nat -> outcome N :=
  match generate color_names with
  | Some t => find t
  | None => fun _ _ => AssertFail
  end.

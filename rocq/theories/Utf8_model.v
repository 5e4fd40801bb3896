(** Model of src/hob3lbase/utf8.c, and of cp_utf8_take, cp_utf8_ok from include/hob3lbase/utf8.h.

    The memory that is read is a list of bytes.  Reading beyond its end is the outcome [Uoob], a
    failing assertion [UFail].  Decoding errors are not failures, but are recorded in the iterator.
    Values are unsigned 32 bit numbers in C: none of the computations overflows. *)
From Coq Require Import ZArith Bool List.
Import ListNotations.
Local Open Scope Z_scope.

Inductive ures (A : Type) : Type := UOk (a : A) | UFail | Uoob.
Arguments UOk {A} a. Arguments UFail {A}. Arguments Uoob {A}.
Definition ubind {A B} (x : ures A) (f : A -> ures B) : ures B :=
  match x with UOk a => f a | UFail => UFail | Uoob => Uoob end.
Notation "'let/' x ':=' e 'in' f" := (ubind e (fun x => f))
  (at level 200, x pattern, e at level 100, f at level 200, right associativity).

(** error messages *)
Inductive msg := Continuation | Overlong | Range | Surrogate | Start | Backslash | Escape | Premature | TooLarge.

(** include/hob3lbase/utf8_tam.h 18-34 cp_utf8_iter_t: the position of [data], [size], [error_msg] *)
Record iter := mk_iter { pos : nat; size : nat; error : option msg }.

Section Mem.
Variable mem : list Z.

(** 9-15 [iter_get] *)
Definition iter_get (i : iter) : ures Z :=
  if Nat.eqb (size i) 0 then UOk 0
  else match nth_error mem (pos i) with Some c => UOk c | None => Uoob end.

(** 17-23 [iter_advance] *)
Definition iter_advance (i : iter) : ures iter :=
  match nth_error mem (pos i) with
  | None => Uoob
  | Some c => if (c =? 0) || Nat.eqb (size i) 0 then UFail
              else UOk (mk_iter (pos i + 1) (size i - 1) (error i))
  end.

(** 25-32 [iter_error]: [size] is not reset *)
Definition iter_error (i : iter) (back : nat) (m : msg) : iter := mk_iter back (size i) (Some m).

(** 34-46 [digit_value] *)
Definition digit_value (c : Z) : Z :=
  if (48 <=? c) && (c <=? 57) then c - 48
  else if (97 <=? c) && (c <=? 122) then c - 97 + 10
  else if (65 <=? c) && (c <=? 90) then c - 65 + 10
  else 99.

(** 48-58 [get_cont]: None is false *)
Definition get_cont (start : nat) (i : iter) : ures (option Z * iter) :=
  let/ c2 := iter_get i in
  if negb ((128 <=? c2) && (c2 <=? 191)) then UOk (None, iter_error i start Continuation)
  else let/ i := iter_advance i in UOk (Some c2, i).

(** 60-84 [check_valid] *)
Definition check_valid (start : nat) (i : iter) (minimum c1 c2 c3 c4 : Z) : Z * iter :=
  let r := Z.lor (Z.lor (Z.lor (Z.shiftl c1 18) (Z.shiftl c2 12)) (Z.shiftl c3 6)) c4 in
  if r <? minimum then (0, iter_error i start Overlong)
  else if 1114111 <? r then (0, iter_error i start Range)
  else if (55296 <=? r) && (r <? 57344) then (0, iter_error i start Surrogate)
  else (r, i).

(** 93-136 [cp_utf8_decode] *)
Definition decode (i : iter) : ures (Z * iter) :=
  let start := pos i in
  let/ c1 := iter_get i in
  if c1 =? 0 then UOk (0, i) else
  let/ i := iter_advance i in
  if c1 <? 128 then UOk (c1, i) else
  if c1 <? 194 then UOk (0, iter_error i start Start) else
  let/ (r2, i) := get_cont start i in
  match r2 with
  | None => UOk (0, i)
  | Some c2 =>
    if c1 <? 224 then UOk (check_valid start i 128 0 0 (Z.land c1 31) c2) else
    let/ (r3, i) := get_cont start i in
    match r3 with
    | None => UOk (0, i)
    | Some c3 =>
      if c1 <? 240 then UOk (check_valid start i 2048 0 (Z.land c1 15) c2 c3) else
      let/ (r4, i) := get_cont start i in
      match r4 with
      | None => UOk (0, i)
      | Some c4 =>
        if c1 <=? 244 then UOk (check_valid start i 65536 (Z.land c1 7) c2 c3 c4) else
        UOk (0, iter_error i start Start)
      end
    end
  end.

(** 187-200: the loop reading hexadecimal digits: the rest of [len], the code, the iterator *)
Fixpoint digits (len : nat) (code : Z) (i : iter) : ures (nat * Z * iter) :=
  match len with
  | O => UOk (O, code, i)
  | S len =>
      let/ cx := iter_get i in
      if cx =? 0 then UOk (len, code, i) else
      let val := digit_value cx in
      if 16 <=? val then UOk (len, code, i) else
      let/ i := iter_advance i in
      digits len (code * 16 + val) i
  end.

(** 168-184: the switch: None is the default; otherwise [code], [len], [max] *)
Definition escape (c2 : Z) : option (Z * nat * Z) :=
  if (c2 =? 92) || (c2 =? 39) || (c2 =? 34) then Some (c2, 0%nat, 1114111)
  else if c2 =? 116 then Some (9, 0%nat, 1114111)
  else if c2 =? 110 then Some (10, 0%nat, 1114111)
  else if c2 =? 114 then Some (13, 0%nat, 1114111)
  else if c2 =? 120 then Some (0, 2%nat, 127)
  else if c2 =? 117 then Some (0, 4%nat, 1114111)
  else if c2 =? 85 then Some (0, 6%nat, 1114111)
  else None.

(** 142-210 [cp_utf8_escaped_decode] *)
Definition escaped_decode (i : iter) : ures (Z * iter) :=
  let start := pos i in
  let/ c1 := iter_get i in
  if c1 =? 0 then UOk (0, i) else
  if 128 <=? c1 then decode i else
  let/ i := iter_advance i in
  if negb (c1 =? 92) then UOk (c1, i) else
  let/ c2 := iter_get i in
  if c2 =? 0 then UFail else
  match escape c2 with
  | None => UOk (0, iter_error i start Escape)
  | Some (code, len, max) =>
      let/ i := iter_advance i in
      let/ (len, code, i) := digits len code i in
      if Nat.ltb 0 len then UOk (0, iter_error i start Premature)
      else if max <? code then UOk (0, iter_error i start TooLarge)
      else UOk (code, i)
  end.

(** utf8.h 45-53 [cp_utf8_take]: the code point and the new position; size_t has 64 bits, written
    as [unlimited] *)
Variable unlimited : nat.
Definition take (s : nat) : ures (Z * nat) :=
  let/ (u, i) := decode (mk_iter s unlimited None) in
  match error i with None => UOk (u, pos i) | Some _ => UFail end.
End Mem.

(** utf8.h 63-66 [cp_utf8_ok] *)
Definition utf8_ok (cp : Z) : bool :=
  negb ((cp =? 0) || (1114111 <? cp) || ((55296 <=? cp) && (cp <=? 57343))).

(** 219-259 [cp_utf8_encode]: the bytes written to [dst]; [] if 0 is returned *)
Definition encode (dst_size : nat) (cp : Z) : ures (list Z) :=
  if negb (utf8_ok cp) then UFail else
  if cp <=? 127 then
    if Nat.ltb dst_size 1 then UOk [] else UOk [Z.land cp 127]
  else if cp <=? 2047 then
    if Nat.ltb dst_size 2 then UOk [] else
    UOk [Z.lor 192 (Z.land (Z.shiftr cp 6) 31); Z.lor 128 (Z.land cp 63)]
  else if cp <=? 65535 then
    if Nat.ltb dst_size 3 then UOk [] else
    UOk [Z.lor 224 (Z.land (Z.shiftr cp 12) 15); Z.lor 128 (Z.land (Z.shiftr cp 6) 63); Z.lor 128 (Z.land cp 63)]
  else
    if Nat.ltb dst_size 4 then UOk [] else
    UOk [Z.lor 240 (Z.land (Z.shiftr cp 18) 7); Z.lor 128 (Z.land (Z.shiftr cp 12) 63);
         Z.lor 128 (Z.land (Z.shiftr cp 6) 63); Z.lor 128 (Z.land cp 63)].

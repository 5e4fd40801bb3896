(** Model of the boolean combination tables (bool-bitmap).
    Covers src/hob3lbase/bool-bitmap.c completely and
    include/hob3lbase/bool-bitmap.h 50-80. *)
From Coq Require Import List NArith Arith Bool.
Import ListNotations.

(** include/hob3lbase/bool-bitmap_tam.h 10-22: the union [cp_bool_bitmap_t] is 128 bytes of
    memory; here it is a total map from byte offset to byte value, and the size limit is checked by
    the functions where the C code has an assertion.  The views [s], [i], [w] of the union
    are groups of 2, 4, 8 consecutive bytes; all code below is independent of endianness,
    because words are only copied, set to 0 / ~0, or combined bitwise. *)
Definition mem := nat -> N.

(** bool-bitmap_tam.h 10: CP_BOOL_BITMAP_MAX_LAZY *)
Definition max_lazy : nat := 10.

(** cp_countof(c->b): number of bytes of the union (bool-bitmap_tam.h 16) *)
Definition nbytes : nat := 128.

(** Memory write of one byte (C assignment to [b[k]]) *)
Definition upd (m : mem) (k : nat) (v : N) : mem :=
  fun j => if Nat.eqb j k then v else m j.

(** Write of several consecutive bytes, lowest address first (one store of a
    char/short/int/long long through a pointer in bool-bitmap.c) *)
Fixpoint upds (m : mem) (k : nat) (vs : list N) : mem :=
  match vs with
  | [] => m
  | v :: vs' => upds (upd m k v) (S k) vs'
  end.

(** Read of several consecutive bytes *)
Fixpoint reads (m : mem) (k n : nat) : list N :=
  match n with
  | O => []
  | S n' => m k :: reads m (S k) n'
  end.

(** bool-bitmap.c 8-10 *)
Definition spread1_tab : list N :=
  [0x00;0x03;0x0c;0x0f;0x30;0x33;0x3c;0x3f;0xc0;0xc3;0xcc;0xcf;0xf0;0xf3;0xfc;0xff]%N.
Definition spread1 (x : N) : N := nth (N.to_nat x) spread1_tab 0%N.

(** bool-bitmap.c 12-18: the byte view of the table; [spread2.w[x]] is the pair of bytes
    2x, 2x+1 *)
Definition spread2_tab : list N :=
  [0x00;0x00;0x0f;0x00;0xf0;0x00;0xff;0x00;0x00;0x0f;0x0f;0x0f;0xf0;0x0f;0xff;0x0f;
   0x00;0xf0;0x0f;0xf0;0xf0;0xf0;0xff;0xf0;0x00;0xff;0x0f;0xff;0xf0;0xff;0xff;0xff]%N.
Definition spread2 (x : N) : list N :=
  [nth (2 * N.to_nat x) spread2_tab 0%N; nth (2 * N.to_nat x + 1) spread2_tab 0%N].

(** [*--b = v]: store of the bytes [vs] just below pointer [b] (bool-bitmap.c 58,59,68,69,79,90,
    101,117) *)
Definition store_down (st : mem * nat) (vs : list N) : mem * nat :=
  let b := snd st - length vs in (upds (fst st) b vs, b).

(** The weights of [for (w = 0x80; w != 0; w >>= 1)] (bool-bitmap.c 78, 89, 100, 112) *)
Definition weights : list N := [0x80;0x40;0x20;0x10;0x08;0x04;0x02;0x01]%N.

(** [(x & w) ? ~0 : 0] for an element of [n] bytes (bool-bitmap.c 79, 90, 101, 113) *)
Definition fill (n : nat) (x w : N) : list N :=
  repeat (if N.eqb (N.land x w) 0 then 0%N else 255%N) n.

(** Body of the inner loop: [k] stores of the same value (bool-bitmap.c 114-118) *)
Fixpoint store_k (k n : nat) (x w : N) (st : mem * nat) : mem * nat :=
  match k with
  | O => st
  | S k' => store_k k' n x w (store_down st (fill n x w))
  end.

(** One iteration of the outer loop for source byte [x]; the switch over [add]
    (bool-bitmap.c 49-122) *)
Definition spread_byte (add : nat) (x : N) (st : mem * nat) : mem * nat :=
  match add with
  | 0 => st
  | 1 => store_down (store_down st [spread1 (N.shiftr x 4)]) [spread1 (N.land x 0x0f)]
  | 2 => store_down (store_down st (spread2 (N.shiftr x 4))) (spread2 (N.land x 0x0f))
  | 3 => fold_left (fun s w => store_down s (fill 1 x w)) weights st
  | 4 => fold_left (fun s w => store_down s (fill 2 x w)) weights st
  | 5 => fold_left (fun s w => store_down s (fill 4 x w)) weights st
  | _ => fold_left (fun s w => store_k (2 ^ (add - 6)) 8 x w s) weights st
  end.

(** [while (cnt-- > 0) { x = *--a; ... }] with pointer [a] starting at [cnt]
    (bool-bitmap.c 41-44 and the loops 56, 66, 76, 87, 98, 110) *)
Fixpoint spread_loop (add cnt : nat) (st : mem * nat) : mem * nat :=
  match cnt with
  | O => st
  | S a => spread_loop add a (spread_byte add (fst st a) st)
  end.

(** bool-bitmap.c 41-122: the part of [cp_bool_bitmap_spread] for have >= 3;
    [None] is a failing assertion *)
Definition spread_big (c : mem) (have add : nat) : option mem :=
  if negb (2 ^ (have + add) <=? nbytes * 8) then None else
  let cnt := 2 ^ (have - 3) in
  Some (match add with
        | O => c
        | _ => fst (spread_loop add cnt (c, cnt * 2 ^ add))
        end).

(** bool-bitmap.c 25-123 [cp_bool_bitmap_spread]; the loop 32-39 runs at most 3 times and
    its iteration count is the first argument *)
Fixpoint spread_small (fuel : nat) (c : mem) (have add : nat) : option mem :=
  if have <? 3 then
    match add, fuel with
    | O, _ => Some c
    | S add', S f => spread_small f (upd c 0 (spread1 (N.land (c 0) 0x0f))) (S have) add'
    | _, O => None
    end
  else spread_big c have add.

Definition bitmap_spread (c : mem) (have add : nat) : option mem :=
  spread_small 3 c have add.

(** bool-bitmap.c 189-192 (and 178-183, which is the same loop with skip = 1):
    [for (i = skip; i < cnt; i++) w[i] = w[i - skip]], with [n] iterations left;
    [i] counts 64-bit words *)
Fixpoint copy_words (m : mem) (skip i n : nat) : mem :=
  match n with
  | O => m
  | S n' => copy_words (upds m (8 * i) (reads m (8 * (i - skip)) 8)) skip (S i) n'
  end.

(** bool-bitmap.c 178-184: case 6 writes the word read before the loop *)
Fixpoint fill_words (m : mem) (w0 : list N) (i n : nat) : mem :=
  match n with
  | O => m
  | S n' => fill_words (upds m (8 * i) w0) w0 (S i) n'
  end.

(** bool-bitmap.c 145-197: the while loop; [n] = want - have *)
Fixpoint repeat_loop (n : nat) (r : mem) (have : nat) : mem :=
  match n with
  | O => r
  | S n' =>
      let want := have + n in
      match have with
      | 0 => let a := N.land (r 0) 1 in
             repeat_loop n' (upd r 0 (N.lor a (N.land (N.shiftl a 1) 255))) 1
      | 1 => let a := N.land (r 0) 3 in
             repeat_loop n' (upd r 0 (N.lor a (N.land (N.shiftl a 2) 255))) 2
      | 2 => let a := N.land (r 0) 15 in
             repeat_loop n' (upd r 0 (N.lor a (N.land (N.shiftl a 4) 255))) 3
      | 3 => repeat_loop n' (upds r 1 (reads r 0 1)) 4
      | 4 => repeat_loop n' (upds r 2 (reads r 0 2)) 5
      | 5 => repeat_loop n' (upds r 4 (reads r 0 4)) 6
      | 6 => fill_words r (reads r 0 8) 1 (2 ^ (want - 6) - 1)
      | _ => copy_words r (2 ^ (have - 6)) (2 ^ (have - 6)) (2 ^ (want - 6) - 2 ^ (have - 6))
      end
  end.

(** bool-bitmap.c 133-198 [cp_bool_bitmap_repeat]; [None] is a failing assertion (144) *)
Definition bitmap_repeat (r : mem) (have add : nat) : option mem :=
  if negb (2 ^ (have + add) <=? nbytes * 8) then None
  else Some (repeat_loop add r have).

(** include/hob3lbase/base-def.h: cp_bool_op_t *)
Inductive bool_op := OP_CUT | OP_XOR | OP_SUB | OP_ADD.

(** The right hand sides of bool-bitmap.c 217, 223, 229, 235 for one byte of the word *)
Definition op_byte (op : bool_op) (a b : N) : N :=
  match op with
  | OP_ADD => N.lor a b
  | OP_CUT => N.land a b
  | OP_SUB => N.ldiff a b
  | OP_XOR => N.lxor a b
  end.

(** bool-bitmap.c 205-242 [cp_bool_bitmap_combine]: all bytes of the first
    [cnt = ((1 << size) + 63) / 64] words.  Simplified: the words are independent of each other,
    so the loop is written as one simultaneous update. *)
Definition bitmap_combine (r b : mem) (size : nat) (op : bool_op) : mem :=
  let cnt := (2 ^ size + 63) / 64 in
  fun k => if k <? 8 * cnt then op_byte op (r k) (b k) else r k.

(** include/hob3lbase/bool-bitmap.h 52-60 [cp_bool_bitmap_get]; the assertion
    [k < cp_countof(b->b)] is a precondition of the theorems *)
Definition bitmap_get (b : mem) (i : nat) : bool :=
  negb (N.eqb (N.land (b (i / 8)) (N.shiftl 1 (N.of_nat (i mod 8)))) 0).

(** include/hob3lbase/bool-bitmap.h 65-80 [cp_bool_bitmap_set] *)
Definition bitmap_set (b : mem) (i : nat) (v : bool) : mem :=
  let k := i / 8 in
  let w := N.shiftl 1 (N.of_nat (i mod 8)) in
  upd b k (if v then N.lor (b k) w else N.land (b k) (N.land (N.lnot w 32) 255)).

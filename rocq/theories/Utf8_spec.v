(** What UTF-8 is. *)
From Coq Require Import ZArith Bool List.
Import ListNotations.
Local Open Scope Z_scope.

(** Unicode scalar values except 0 *)
Definition scalar (c : Z) : Prop := 0 < c <= 1114111 /\ ~ (55296 <= c <= 57343).

(** the encoding *)
Definition utf8 (c : Z) : list Z :=
  if c <? 128 then [c]
  else if c <? 2048 then [192 + c / 64; 128 + c mod 64]
  else if c <? 65536 then [224 + c / 4096; 128 + c / 64 mod 64; 128 + c mod 64]
  else [240 + c / 262144; 128 + c / 4096 mod 64; 128 + c / 64 mod 64; 128 + c mod 64].

(** [mem] has the bytes [l] at position [p] *)
Definition has (mem : list Z) (p : nat) (l : list Z) : Prop := firstn (length l) (skipn p mem) = l.

Definition byte_list (mem : list Z) : Prop := Forall (fun b => 0 <= b < 256) mem.

(** reading [size] bytes at [p], but not beyond a 0, is inside of the memory *)
Definition bounded (mem : list Z) (p size : nat) : Prop :=
  (p + size <= length mem)%nat \/ (exists q, (p <= q)%nat /\ nth_error mem q = Some 0).

(** 1 to 4 bytes that are structured like the encoding of a character *)
Definition cont (b : Z) : Prop := 128 <= b < 192.
Definition structured (l : list Z) : Prop :=
  match l with
  | [a] => 0 < a < 128
  | [a; b] => 194 <= a < 224 /\ cont b
  | [a; b; c] => 224 <= a < 240 /\ cont b /\ cont c
  | [a; b; c; d] => 240 <= a < 245 /\ cont b /\ cont c /\ cont d
  | _ => False
  end.

(** the value of hexadecimal digits *)
Definition hexdigit (c v : Z) : Prop :=
  (48 <= c <= 57 /\ v = c - 48) \/ (97 <= c <= 102 /\ v = c - 87) \/ (65 <= c <= 70 /\ v = c - 55).
Inductive hex : list Z -> Z -> Prop :=
  | hex_nil : hex [] 0
  | hex_app l c n v : hex l n -> hexdigit c v -> hex (l ++ [c]) (16 * n + v).

(** the escapes with hexadecimal digits: the letter, how many digits, maximum value *)
Definition hex_escape (c : Z) (n : nat) (max : Z) : Prop :=
  (c = 120 /\ n = 2%nat /\ max = 127) \/ (c = 117 /\ n = 4%nat /\ max = 1114111) \/ (c = 85 /\ n = 6%nat /\ max = 1114111).

(** the others *)
Definition simple_escape (c v : Z) : Prop :=
  In (c, v) [(92, 92); (39, 39); (34, 34); (116, 9); (110, 10); (114, 13)].
(** the bits 7, 13, 19, one for each continuation byte of an encoding of n bytes *)
Definition mask (n : nat) : Z := nth n [0; 0; 128; 8320; 532608] 0.

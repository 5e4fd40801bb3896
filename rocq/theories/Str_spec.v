(** Specification for strings *)
From Coq Require Import Arith List NArith.
From Verif Require Import Sieve_spec Str_model.
Import ListNotations.

(** ** character vectors as strings *)
(** what a sequence of calls should do to a string: None if it is not allowed (taking a character from an empty string) *)
Inductive sop := SAppend (d : list nat) | SClear | SKeep | SPop.
Definition sexec (o : sop) (s : list nat) : option (list nat) :=
  match o with
  | SAppend d => Some (s ++ d)
  | SClear => Some []
  | SKeep => Some s
  | SPop => match s with [] => None | _ => Some (removelast s) end
  end.

(** the string in a character vector, and that it is terminated by a zero if there is memory *)
Definition content (v : vchar) : list nat := match vdata v with None => [] | Some d => firstn (vsize v) d end.
Definition wf (v : vchar) : Prop :=
  match vdata v with None => vsize v = 0 | Some d => vsize v < length d /\ nth_error d (vsize v) = Some 0 end.

(** the specification of each call, and of a sequence *)
Definition sop_of (o : op) : sop :=
  match o with
  | Append d => SAppend d | Push c => SAppend [c] | Clear => SClear | Cstr => SKeep | Pop => SPop
  | Printf text => SAppend text | Fini => SClear
  end.
Fixpoint sexec_all (l : list sop) (s : list nat) : option (list nat) :=
  match l with
  | [] => Some s
  | o :: l => match sexec o s with Some s => sexec_all l s | None => None end
  end.
(** how many characters a call may add *)
Definition op_len (o : op) : nat := match o with Append d => length d | Push _ => 1 | Printf t => length t | _ => 0 end.

(** ** quoted strings *)
(** [denotes q s]: the text [q] between quotes denotes the characters [s] *)
Inductive denotes : list nat -> list nat -> Prop :=
| den_nil : denotes [] []
| den_char c q s : c <> 92 -> denotes q s -> denotes (c :: q) (c :: s)
| den_backslash q s : denotes q s -> denotes (92 :: 92 :: q) (92 :: s)
| den_quote q s : denotes q s -> denotes (92 :: 34 :: q) (34 :: s)
| den_t q s : denotes q s -> denotes (92 :: 116 :: q) (9 :: s)
| den_n q s : denotes q s -> denotes (92 :: 110 :: q) (10 :: s)
| den_r q s : denotes q s -> denotes (92 :: 114 :: q) (13 :: s).
(** how to quote *)
Definition quote1 (c : nat) : list nat :=
  match c with
  | 92 => [92; 92] | 34 => [92; 34] | 9 => [92; 116] | 10 => [92; 110] | 13 => [92; 114]
  | _ => [c]
  end.
Definition quote (s : list nat) : list nat := flat_map quote1 s.

(** ** colours *)
(** the hexadecimal digits, in both cases *)
Definition hex_digits : list (nat * N) :=
  combine (seq 48 10) [0; 1; 2; 3; 4; 5; 6; 7; 8; 9]%N
  ++ combine (seq 97 6) [10; 11; 12; 13; 14; 15]%N ++ combine (seq 65 6) [10; 11; 12; 13; 14; 15]%N.
Definition is_digit (c : nat) (d : N) : Prop := In (c, d) hex_digits.
(** a string of the form #rgb or #rrggbb denotes a colour *)
Inductive hex_color : list nat -> N * N * N -> Prop :=
| hex3 r g b r' g' b' : is_digit r r' -> is_digit g g' -> is_digit b b' ->
    hex_color [35; r; g; b] (r' * 17, g' * 17, b' * 17)%N
| hex6 r g b r' g' b' s t u s' t' u' : is_digit r r' -> is_digit g g' -> is_digit b b' ->
    is_digit s s' -> is_digit t t' -> is_digit u u' ->
    hex_color [35; r; s; g; t; b; u] (r' * 16 + s', g' * 16 + t', b' * 16 + u')%N.
(** the value of a name in a table of 24 bit numbers *)
Definition named_color (table : list (list nat * N)) (name : list nat) (c : N * N * N) : Prop :=
  exists v, assoc name table = Some v /\ let '(r, g, b) := c in (v mod 2 ^ 24 = r * 65536 + g * 256 + b /\ r < 256 /\ g < 256 /\ b < 256)%N.

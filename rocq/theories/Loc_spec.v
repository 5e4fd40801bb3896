(** What a location is: the number of line breaks before it, and the line it is on. *)
From Coq Require Import Arith Bool List.
From Verif Require Import Loc_model.
Import ListNotations.

(** the number of line breaks before offset [p] *)
Definition breaks (s : list nat) (p : nat) : nat := count_occ Nat.eq_dec (firstn p s) NL.
(** [p] is the first character of a line other than the first *)
Definition line_start (s : list nat) (p : nat) : Prop := 0 < p /\ nth (p - 1) s 0 = NL.
(** [a] and [e] delimit the line of offset [p]: no line break before [p] since [a], which starts a line; the line ends after
    the first line break from [p] on or at the end of the file *)
Definition delimits (s : list nat) (p a e : nat) : Prop :=
  a <= p <= e /\ e <= length s /\ (p < e \/ e = length s) /\
  (a = 0 \/ nth (a - 1) s 0 = NL) /\ (forall i, a <= i < p -> nth i s 0 <> NL) /\
  (forall i, p <= i < e - 1 -> nth i s 0 <> NL) /\ (e = length s \/ (0 < e /\ nth (e - 1) s 0 = NL)).
(** The files are in separate memory (with a NUL after each). *)
Definition separate (fs : list file) : Prop :=
  forall i j f g, i <> j -> nth_error fs i = Some f -> nth_error fs j = Some g ->
    base f + length (content f) < base g \/ base g + length (content g) < base f.

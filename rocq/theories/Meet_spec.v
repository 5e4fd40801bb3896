(** When lines intersect. *)
From Coq Require Import ZArith QArith List.
From Verif Require Import Matq_model Matq_spec Meet_model.
Local Open Scope Z_scope.

(** The point is on the line, but is not one of its end points *)
Definition inside (x y : Q) (l : line) : Prop :=
  exists t : Q, (0 < t < 1)%Q /\
    (x == inject_Z (fst (fst l)) + t * (inject_Z (fst (snd l)) - inject_Z (fst (fst l))))%Q /\
    (y == inject_Z (snd (fst l)) + t * (inject_Z (snd (snd l)) - inject_Z (snd (fst l))))%Q.

(** full overlap *)
Definition same (a b : line) : Prop := a = b \/ a = (snd b, fst b).

(** Two lines cross or overlap (but not fully): they have a common inner point. *)
Definition meet (a b : line) : Prop := ~ same a b /\ exists x y, inside x y a /\ inside x y b.

(** ... or an end point of one is an inner point of the other *)
Definition touch (a b : line) : Prop :=
  ~ same a b /\ exists x y, on_segment x y (fst a) (snd a) /\ on_segment x y (fst b) (snd b) /\ (inside x y a \/ inside x y b).

Definition line_int (l : line) : Prop := vec_int (fst l) /\ vec_int (snd l).
Definition line_range (l : line) : Prop := vec_range (fst l) /\ vec_range (snd l).
Definition proper (l : line) : Prop := fst l <> snd l.

Definition end_of (i : vec2if) (l : line) : Prop := i = vec2ifi (fst l) \/ i = vec2ifi (snd l).

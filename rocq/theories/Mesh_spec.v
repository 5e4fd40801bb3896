(** Surfaces made of faces, which are cycles of points *)
From Coq Require Import List.
Import ListNotations.

(** The directed edges of a face *)
Definition edges {A} (f : list A) : list (A * A) := match f with [] => [] | x :: r => combine f (r ++ [x]) end.
Definition all_edges {A} (l : list (list A)) : list (A * A) := flat_map edges l.
Definition swap {A} (e : A * A) : A * A := (snd e, fst e).
(** Each edge occurs once, and its reverse occurs once *)
Definition closed {A} (l : list (list A)) : Prop := NoDup (all_edges l) /\ forall e, In e (all_edges l) -> In (swap e) (all_edges l).

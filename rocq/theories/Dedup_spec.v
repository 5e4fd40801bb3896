(** Specification for the numbering of points *)
From Coq Require Import ZArith List Bool Arith Sorted Permutation.
From Verif Require Import Dedup_model.
Import ListNotations.

(** All coordinates differ by less than e *)
Definition close (e : Z) (a b : list Z) : Prop := Forall2 (fun x y => (Z.abs (x - y) < e)%Z) a b.
(** In each coordinate, being closer than e is transitive for the values that occur.  This is so for coordinates on a grid. *)
Definition separated (e : Z) (vs : list (list Z)) : Prop :=
  forall i u v w x y z, In u vs -> In v vs -> In w vs -> nth_error u i = Some x -> nth_error v i = Some y -> nth_error w i = Some z ->
  (Z.abs (x - y) < e)%Z -> (Z.abs (y - z) < e)%Z -> (Z.abs (x - z) < e)%Z.
Definition same_dim (n : nat) (vs : list (list Z)) : Prop := forall v, In v vs -> length v = n.

(** Numbers are given in the order of first occurrence *)
Definition in_order_of_occurrence (idx : list nat) : Prop := forall k n, nth_error idx k = Some n ->
  In n (firstn k idx) \/ n = length (nodup Nat.eq_dec (firstn k idx)).

(** a comes before b or at the same place, lexicographically *)
Definition not_after (e : Z) (a b : spoint) : Prop := (lex_cmp e (scoord a) (scoord b) <= 0)%Z.

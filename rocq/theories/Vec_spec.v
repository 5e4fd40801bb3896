(** Specification of vectors: what is in them is a list *)
From Coq Require Import List Arith Bool ZArith.
From Verif Require Import Vec_model.
Import ListNotations.

Definition wf {A} (v : vec A) : Prop := vsize v <= length (vmem v).
Definition contents {A} (v : vec A) : list A := firstn (vsize v) (vmem v).

(** The list with xs inserted at pos; with n elements removed at pos; with n
    elements reversed at pos; with elements overwritten at pos *)
Definition inserted {A} (l : list A) (pos : nat) (xs : list A) : list A := firstn pos l ++ xs ++ skipn pos l.
Definition removed {A} (l : list A) (pos n : nat) : list A := firstn pos l ++ skipn n (skipn pos l).
Definition reversed {A} (l : list A) (pos n : nat) : list A :=
  firstn pos l ++ rev (firstn n (skipn pos l)) ++ skipn n (skipn pos l).
Definition overwritten {A} (l : list A) (pos : nat) (xs : list A) : list A :=
  firstn pos l ++ xs ++ skipn (length xs) (skipn pos l).

(** Part of a list *)
Definition slice {A} (l : list A) (pos n : nat) : list A := firstn n (skipn pos l).

(** [cmp] orders the list: signs of comparing the key with the elements never increase *)
Definition sorted_for {A} (cmp : A -> Z) (l : list A) : Prop :=
  forall i j x y, i <= j -> nth_error l i = Some x -> nth_error l j = Some y ->
    (cmp x < 0 -> cmp y < 0)%Z /\ (cmp y > 0 -> cmp x > 0)%Z.

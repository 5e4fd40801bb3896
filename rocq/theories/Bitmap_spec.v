(** Specification vocabulary for the combination tables. *)
From Coq Require Import List NArith Arith Bool.
From Verif Require Import Bitmap_model.
Import ListNotations.

(** All cells of the memory are bytes. *)
Definition wf (m : mem) := forall k, (m k < 256)%N.

(** Membership vector (entry i = is the point inside of polygon i) as table index. *)
Fixpoint mask_index (x : list bool) : nat :=
  match x with
  | [] => 0
  | b :: x' => (if b then 1 else 0) + 2 * mask_index x'
  end.

(** The set operations, pointwise. *)
Definition op_bool (op : bool_op) (a b : bool) : bool :=
  match op with
  | OP_ADD => a || b
  | OP_CUT => a && b
  | OP_SUB => a && negb b
  | OP_XOR => xorb a b
  end.

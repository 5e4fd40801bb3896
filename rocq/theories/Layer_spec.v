(** What a layer of the output has to be: the cut of the 3D tree at the height of the layer. *)
From Coq Require Import List Arith Bool.
From Verif Require Import Layer_model.
Import ListNotations.

Section Spec.

Variables obj zt region sweep poly point : Type.
(** is the point of the plane at this height inside of the object? *)
Variable solid_in : obj -> zt -> point -> bool.
Variable region_in : region -> point -> bool.
Variable sweep_in : sweep -> point -> bool.
Variable poly_in : poly -> point -> bool.

(** Is the point of the plane at height [z] inside of the 3D tree? *)
Fixpoint csg3_in (z : zt) (p : point) (d : csg3 obj) : bool :=
  match d with
  | T3Obj _ o => solid_in o z p
  | T3Add _ add => existsb (csg3_in z p) add
  | T3Sub _ add sub => existsb (csg3_in z p) add && negb (existsb (csg3_in z p) sub)
  | T3Cut _ [] => false
  | T3Cut _ cut => forallb (existsb (csg3_in z p)) cut
  | T3Xor _ xor => fold_right xorb false (map (existsb (csg3_in z p)) xor)
  end.

Definition root_in (z : zt) (p : point) (root : option (list (csg3 obj))) : bool :=
  match root with None => false | Some add => existsb (csg3_in z p) add end.

(** slicing one object: the cut, or nothing if there is no cut *)
Definition slice_correct (slice : obj -> zt -> option region) : Prop :=
  forall o z p, solid_in o z p = match slice o z with None => false | Some r => region_in r p end.

(** triangulation keeps the set of points, and makes points from what is not empty *)
Definition tri_correct (sweep_empty : sweep -> bool) (trianglify : sweep -> option poly) (points : poly -> nat) : Prop :=
  forall s q, trianglify s = Some q ->
    (forall p, poly_in q p = sweep_in s p) /\ (sweep_empty s = false -> 0 < points q).

(** layer [i] of the output is this set of points *)
Definition layer_is (r : out zt poly) (i : nat) (inside : point -> bool) : Prop :=
  (nth_error (o_layer _ _ r) i = Some (0, None) /\ nth_error (o_flag _ _ r) i = Some false /\
   forall p, inside p = false) \/
  (exists q, nth_error (o_layer _ _ r) i = Some (i, Some [q]) /\ nth_error (o_flag _ _ r) i = Some true /\
   forall p, inside p = poly_in q p).

End Spec.

(** What slicing means. *)
From Coq Require Import ZArith Bool List Permutation Sorted.
From Verif Require Import Matq_model Slice_model.
Import ListNotations.
Local Open Scope Z_scope.

(** all differences of coordinates fit into an int *)
Definition small (x : Z) : Prop := -1073741824 <= x < 1073741824.
Definition small3 (a : vec3) : Prop := small (x3 a) /\ small (y3 a) /\ small (z3 a).

(** the edges of a closed vertex cycle *)
Definition edges (face : list vec3) : list (vec3 * vec3) :=
  combine face (tl face ++ firstn 1 face).

(** an edge has points at or below z and points above z, i.e. it crosses the plane slightly above z *)
Definition crossing (z : Z) (e : vec3 * vec3) : bool :=
  ((z3 (fst e) <=? z) && (z <? z3 (snd e))) || ((z3 (snd e) <=? z) && (z <? z3 (fst e))).

(** [p] is the coordinate at height z of the straight line from (z0,a0) to (z1,a1), z0 < z1, rounded to the
    nearest integer: a0 + (a1 - a0) * (z - z0) / (z1 - z0) is in [p - 1/2, p + 1/2) *)
Definition rounded (z z0 z1 a0 a1 p : Z) : Prop :=
  let d := z1 - z0 in
  let n := a0 * d + (a1 - a0) * (z - z0) in
  2 * d * p - d <= 2 * n < 2 * d * p + d.

(** [p] is the cut point of an edge at z *)
Definition cut_point (z : Z) (e : vec3 * vec3) (p : vec2) : Prop :=
  let (a, b) := if z3 (fst e) <? z3 (snd e) then e else (snd e, fst e) in
  rounded z (z3 a) (z3 b) (x3 a) (x3 b) (fst p) /\
  rounded z (z3 a) (z3 b) (y3 a) (y3 b) (snd p).

(** qsort_r sorts by the first component (in unspecified order if they are equal) *)
Definition sorts (qsort : list (Z * vec2) -> list (Z * vec2)) : Prop :=
  forall l, Permutation l (qsort l) /\ StronglySorted (fun a b => fst a <= fst b) (qsort l).

(** how often the edge between a and b occurs, in either direction *)
Definition v3eq (a b : vec3) : bool := (x3 a =? x3 b) && (y3 a =? y3 b) && (z3 a =? z3 b).
Definition edge_is (a b : vec3) (e : vec3 * vec3) : bool :=
  (v3eq (fst e) a && v3eq (snd e) b) || (v3eq (fst e) b && v3eq (snd e) a).
Definition occurs (a b : vec3) (faces : list (list vec3)) : nat :=
  length (filter (edge_is a b) (flat_map edges faces)).

(** a closed polyhedron *)
Definition closed (faces : list (list vec3)) : Prop :=
  forall a b, a <> b -> Nat.Even (occurs a b faces).

(** how many ends of lines are at p *)
Definition ends (p : vec2) (lines : list line2) : nat :=
  length (filter (veq p) (flat_map (fun l => [fst l; snd l]) lines)).

(** *** the order of cut points along the line (C41) *)

(** the comment in op-slice.c 103-109: sorted by x, secondarily by y *)
Definition before (p q : vec2) : Prop := fst p < fst q \/ (fst p = fst q /\ snd p <= snd q).

(** all points are on one line *)
Definition collinear (l : list vec2) : Prop :=
  forall p q r, In p l -> In q l -> In r l ->
  (fst q - fst p) * (snd r - snd p) = (fst r - fst p) * (snd q - snd p).

(** of any two points, the one that is right of the other is not below *)
Definition ascending (l : list vec2) : Prop :=
  forall p q, In p l -> In q l -> 0 <= (fst q - fst p) * (snd q - snd p).

(** the line from a to b passes position t, where positions are measured by the linear form u*x + v*y *)
Definition at_ (u v : Z) (p : vec2) : Z := u * fst p + v * snd p.
Definition covers (u v t : Z) (l : line2) : bool :=
  ((at_ u v (fst l) <? t) && (t <? at_ u v (snd l))) || ((at_ u v (snd l) <? t) && (t <? at_ u v (fst l))).

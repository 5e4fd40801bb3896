(** Model of the convex hull: src/hob3l/csg2-hull.c 74-149.

    Coordinates are on the grid of integers (csg3.c 1778 gets the points from cp_csg2_flatten, which makes them from integers,
    gon.h 83-86), and arithmetic is exact (for doubles: if products have at most 53 bits).  Comparisons use epsilons (algo.h 78-105).
    For the default scale 2^13 and the default epsilons 2^-15 and 2^-30 (def-float.h 29-32), differences of coordinates and
    of products of two coordinates are compared exactly on the grid.  Squared distances are compared with cp_cmp, i.e., the epsilon
    for lengths: on the grid, squared distances with a difference below [T] = 2^-15 * 2^26 = 2048 are equal.  The locations of points are
    left out.  [None]: a failing assertion, or an access outside of the vector. *)
From Coq Require Import ZArith Bool List.
Import ListNotations.
Local Open Scope Z_scope.
Notation pt := (Z * Z)%type.
(** cp_vec2_right_cross3_z: mat.h 74-80, 26-29 *)
Definition cross3 (a o b : pt) : Z := (fst a - fst o) * (snd b - snd o) - (snd a - snd o) * (fst b - fst o).
(** cp_vec2_right_normal3_z: mat.h 96-102, 35-38 *)
Definition normal3 (a o b : pt) : Z := Z.sgn (cross3 a o b).
(** cp_vec2_sqr_dist: mat_gen_inl.h 863-870 *)
Definition sqr_dist (a b : pt) : Z := (fst a - fst b) * (fst a - fst b) + (snd a - snd b) * (snd a - snd b).
(** cp_e_cmp: algo.h 86-89 *)
Definition e_cmp (e a b : Z) : Z := if Z.abs (a - b) <? e then 0 else if a <? b then -1 else 1.
(** cp_vec2_lex_cmp, exact: mat_gen_inl.h 12-17, algo.c 41-49 *)
Definition lex_cmp (a b : pt) : Z :=
  if fst a =? fst b then (if snd a =? snd b then 0 else if snd a <? snd b then -1 else 1) else if fst a <? fst b then -1 else 1.
(** pt_y_angle_cmp: csg2-hull.c 73-88 *)
Definition y_angle_cmp (T : Z) (u a b : pt) : Z :=
  let i := normal3 a u b in if negb (i =? 0) then i else e_cmp T (sqr_dist u a) (sqr_dist u b).
(** csg2-hull.c 112-118 *)
Definition lowest (l : list pt) (p : pt) : pt := fold_left (fun first p => if lex_cmp p first <? 0 then p else first) l p.
Fixpoint upd (l : list pt) (i : nat) (p : pt) : list pt :=
  match l, i with [], _ => [] | _ :: l, O => p :: l | x :: l, S i => x :: upd l i p end.
(** csg2-hull.c 127-138; structural over [last] *)
Fixpoint kick (point : list pt) (i last : nat) : option nat :=
  match last with
  | O => Some O
  | S last1 => match nth_error point last1, nth_error point last, nth_error point i with
    | Some cp, Some cl, Some cc => if normal3 cp cl cc >? 0 then Some last else kick point i last1
    | _, _, _ => None
    end
  end.
(** csg2-hull.c 125-144: [todo] is the number of rounds left, i.e., size - i *)
Fixpoint scan (point : list pt) (todo i last : nat) : option (list pt * nat) :=
  match todo with
  | O => Some (point, last)
  | S todo => match kick point i last with
    | None => None
    | Some last => let last := S last in
      match nth_error point i, nth_error point last with
      | Some p, Some _ => scan (upd point last p) todo (S i) last
      | _, _ => None
      end
    end
  end.
(** cp_csg2_hull: csg2-hull.c 98-149.  [sort cmp l] is qsort_r. *)
Definition hull (sort : (pt -> pt -> Z) -> list pt -> list pt) (T : Z) (point : list pt) : option (list pt) :=
  if Nat.leb (length point) 2 then Some point else
  match point with
  | [] => None
  | p :: l =>
    let first := lowest l p in
    let point := sort (y_angle_cmp T first) point in
    match scan point (length point - 1) 1 0 with
    | Some (point, last) => if Nat.ltb last (length point) then Some (firstn (S last) point) else None
    | None => None
    end
  end.

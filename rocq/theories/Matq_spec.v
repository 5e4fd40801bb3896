(** Specification of the exact arithmetic: integers and rational numbers *)
From Coq Require Import ZArith QArith Bool.
From Verif Require Import Matq_model.
Local Open Scope Z_scope.

(** The C types *)
Definition is_int (x : Z) : Prop := -2147483648 <= x <= 2147483647.
Definition is_llong (x : Z) : Prop := -9223372036854775808 <= x <= 9223372036854775807.
Definition is_uint (x : Z) : Prop := 0 <= x < 2 ^ 32.
Definition is_ullong (x : Z) : Prop := 0 <= x < 2 ^ 64.

(** Supported coordinate range: 30 bits plus sign (gon_tam.h, CQ_INT_DIG) *)
Definition in_range (x : Z) : Prop := Z.abs x < 2 ^ 30.
Definition vec_range (v : vec2) : Prop := in_range (fst v) /\ in_range (snd v).
Definition vec_int (v : vec2) : Prop := is_int (fst v) /\ is_int (snd v).

(** Rational number denoted by an integer plus fraction *)
Definition value (x : dimif) : Q := (inject_Z (dif_i x) + inject_Z (dif_n x) / inject_Z (dif_d x))%Q.

(** Valid integer plus fraction: the fraction is a proper one, all parts fit their types *)
Definition valid (x : dimif) : Prop :=
  is_int (dif_i x) /\ 0 <= dif_n x < dif_d x /\ is_ullong (dif_d x).

(** Sign of a comparison of rationals *)
Definition sign_of (c : comparison) : Z := match c with Lt => -1 | Eq => 0 | Gt => 1 end.

(** The point (x,y) is on the closed segment from a to b *)
Definition on_segment (x y : Q) (a b : vec2) : Prop :=
  exists t : Q, (0 <= t <= 1)%Q /\
    (x == inject_Z (fst a) + t * (inject_Z (fst b) - inject_Z (fst a)))%Q /\
    (y == inject_Z (snd a) + t * (inject_Z (snd b) - inject_Z (snd a)))%Q.

(** Directions a--b and c--d are parallel *)
Definition parallel (a b c d : vec2) : Prop :=
  (fst b - fst a) * (snd d - snd c) = (snd b - snd a) * (fst d - fst c).

(** Points which are rounded to (vx,vy): rounding is to nearest, halves go up *)
Definition in_cell (x y : Q) (vx vy : Z) : Prop :=
  (inject_Z vx - (1 # 2) <= x /\ x < inject_Z vx + (1 # 2) /\
   inject_Z vy - (1 # 2) <= y /\ y < inject_Z vy + (1 # 2))%Q.

(** [point_is v x y]: the point (x,y) is the grid point v *)
Definition point_is (v : vec2) (x y : Q) : Prop :=
  (x == inject_Z (fst v) /\ y == inject_Z (snd v))%Q.

(** What the intersection routine has to return for the segments p1--p2 and p3--p4:
    [r] is the return value, [i] the intersection that is written, if any. *)
Definition intersect_spec (p1 p2 p3 p4 : vec2) (r : Z) (i : option vec2if) : Prop :=
  (parallel p1 p2 p3 p4 -> r = -1 /\ i = None) /\
  (~ parallel p1 p2 p3 p4 ->
   (forall x y, on_segment x y p1 p2 -> ~ on_segment x y p3 p4) -> r = 0 /\ i = None) /\
  (~ parallel p1 p2 p3 p4 ->
   forall x y, on_segment x y p1 p2 -> on_segment x y p3 p4 ->
   exists vx vy, i = Some (vx, vy) /\ valid vx /\ valid vy /\ (value vx == x)%Q /\ (value vy == y)%Q /\
     0 < r < 32 /\ Z.testbit r 0 = true /\
     (Z.testbit r 1 = true <-> point_is p1 x y) /\
     (Z.testbit r 2 = true <-> point_is p2 x y) /\
     (Z.testbit r 3 = true <-> point_is p3 x y) /\
     (Z.testbit r 4 = true <-> point_is p4 x y)).

(** What comparing the grid point v with the edge k--l has to return: 0 iff the edge passes the
    rounding cell of v; otherwise the side of the edge's line where v is (by the sign of the
    cross product); and if it is neither, but beyond the end of the edge on the same line,
    -1 or +1, depending on whether it is before or behind the edge (in x, then y). *)
Definition edge_rnd_spec (v l k : vec2) (r : Z) : Prop :=
  let cross := (fst v - fst l) * (snd k - snd l) - (snd v - snd l) * (fst k - fst l) in
  let crosses := exists x y, on_segment x y k l /\ in_cell x y (fst v) (snd v) in
  (r = 0 <-> crosses) /\
  (~ crosses -> cross > 0 -> r = 1) /\
  (~ crosses -> cross < 0 -> r = -1) /\
  (~ crosses -> cross = 0 -> fst v < fst k \/ (fst k = fst l /\ snd v < Z.min (snd k) (snd l)) -> r = -1) /\
  (~ crosses -> cross = 0 -> fst l < fst v \/ (fst k = fst l /\ Z.max (snd k) (snd l) < snd v) -> r = 1).

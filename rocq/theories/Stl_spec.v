(** What STL files mean. *)
From Coq Require Import ZArith Bool List.
From Verif Require Import Stl_model.
Import ListNotations.

(** *** meshes *)
Definition p3_eq_dec (a b : point3) : {a = b} + {a <> b}.
Proof. repeat decide equality. Defined.
Definition p2_eq_dec (a b : point2) : {a = b} + {a <> b}.
Proof. repeat decide equality. Defined.
Definition e3_eq_dec (a b : point3 * point3) : {a = b} + {a <> b}.
Proof. repeat decide equality. Defined.
Definition e2_eq_dec (a b : point2 * point2) : {a = b} + {a <> b}.
Proof. repeat decide equality. Defined.

(** directed edges of triangles in 3D *)
Definition edges3 (t : tri3) : list (point3 * point3) := [(t_a t, t_b t); (t_b t, t_c t); (t_c t, t_a t)].

(** each edge is used equally often in both directions: closed and consistently oriented *)
Definition balanced3 (ts : list tri3) : Prop := forall a b,
  count_occ e3_eq_dec (flat_map edges3 ts) (a, b) = count_occ e3_eq_dec (flat_map edges3 ts) (b, a).

(** directed edges of the triangles of a polygon that are not part of the outline *)
Definition inner (point : list point2) (t : tri) : list (point2 * point2) :=
  let at_ i := nth i point (0%Z, 0%Z) in
  (if o01 t then [] else [(at_ (p0 t), at_ (p1 t))]) ++
  (if o12 t then [] else [(at_ (p1 t), at_ (p2 t))]) ++
  (if o20 t then [] else [(at_ (p2 t), at_ (p0 t))]).
Definition inner_balanced (point : list point2) (tris : list tri) : Prop := forall a b,
  count_occ e2_eq_dec (flat_map (inner point) tris) (a, b) = count_occ e2_eq_dec (flat_map (inner point) tris) (b, a).
Definition indices_ok (point : list point2) (tris : list tri) : Prop := forall t, In t tris ->
  p0 t < length point /\ p1 t < length point /\ p2 t < length point.

(** collecting what is written *)
Definition collect (c : list tri3) (t : tri3) : list tri3 := c ++ [t].

Local Open Scope Z_scope.

(** *** binary files *)
Definition bytes (l : list Z) : Prop := Forall (fun x => 0 <= x < 256) l.

(** the little endian number at a position *)
Definition u32_at (f : list Z) (k : nat) : Z :=
  nth k f 0 + 256 * nth (k + 1) f 0 + 65536 * nth (k + 2) f 0 + 16777216 * nth (k + 3) f 0.
Definition vec3_at (f : list Z) (k : nat) : point3 := (u32_at f k, u32_at f (k + 4), u32_at f (k + 8)).

(** header, count, and for each triangle: normal, 3 corners, and 2 bytes *)
Definition well_formed (f : list Z) : Prop :=
  bytes f /\ (84 <= length f)%nat /\ Z.of_nat (length f) = 84 + 50 * u32_at f 80.
(** corner c (0..2) of triangle i *)
Definition corner_at (f : list Z) (i c : nat) : point3 := vec3_at f (84 + 50 * i + 12 + 12 * c).
Definition starts_with_solid (f : list Z) : Prop := exists r, f = solid ++ r.

Definition map3 (g : Z -> Z) (p : point3) : point3 := let '(x, y, z) := p in (g x, g y, g z).

(** the dictionary of points: what is found is considered the same *)
Definition finds (same : point3 -> point3 -> Prop) (find : list point3 -> point3 -> option nat) : Prop :=
  (forall v, same v v) /\
  forall points v i, find points v = Some i -> exists q, nth_error points i = Some q /\ same v q.

(** a face with three corners, in reverse order *)
Definition face_of (same : point3 -> point3 -> Prop) (a b c : point3) (face : list point3) : Prop :=
  exists a' b' c', face = [c'; b'; a'] /\ same a a' /\ same b b' /\ same c c'.

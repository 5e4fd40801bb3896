(** What the slice of an ellipsoid shall be *)
From Coq Require Import Reals.
From Verif Require Import Lin_model Lin_spec.
Local Open Scope R_scope.

(** the ellipsoid is the image of the unit sphere *)
Definition on_ellipsoid (m : mat3w) (p : vec3) : Prop := exists q, inner q q = 1 /\ affine m q = p.
(** the image of the unit circle in the plane *)
Definition on_ellipse (m : mat2w) (x y : R) : Prop :=
  exists c s, c * c + s * s = 1 /\ a00 (wb2 m) * c + a01 (wb2 m) * s + x2 (ww2 m) = x /\ a10 (wb2 m) * c + a11 (wb2 m) * s + y2 (ww2 m) = y.
(** the normal of the image of horizontal planes, with the length as it comes out of the images of the unit vectors *)
Definition lin (m : mat3w) (p : vec3) : vec3 := plus (affine m p) (times (-1) (affine m (V3 0 0 0))).
Definition normal (m : mat3w) : vec3 := cross (lin m ex) (lin m ey).
(** a direction that is either exactly vertical or clearly not *)
Definition decided (e : R) (v : vec3) : Prop := (vx v = 0 /\ vy v = 0) \/ e * norm v <= Rabs (vx v) \/ e * norm v <= Rabs (vy v).

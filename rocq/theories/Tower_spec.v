(** Specification of towers *)
From Coq Require Import List Bool Arith QArith.
From Verif Require Import Mesh_spec Tower_model.
Import ListNotations.
Local Open Scope nat_scope.

(** The faces refer to existing points, are polygons, each directed edge occurs once and so does its reverse, and the surface
    is a sphere (Euler characteristic: points - edges + faces = 2, and each edge is counted twice) *)
Definition good_solid (npts : nat) (f : list (list nat)) : Prop :=
  (forall i, In i (concat f) -> i < npts) /\ (forall p, In p f -> 3 <= length p) /\ closed f /\
  2 * npts + 2 * length f = length (all_edges f) + 4.

(** Volume: 6 times the volume of the cone from the origin to a face, with the centroid of the points of the face as apex of its triangles *)
Local Open Scope Q_scope.
Definition qsum {A} (f : A -> Q) (l : list A) : Q := fold_right (fun x s => f x + s) 0 l.
Definition face_vol (P : nat -> vec3) (f : list nat) : Q :=
  qsum (fun p => qsum (fun e => det3 (P p) (P (fst e)) (P (snd e))) (edges f)) f / inject_Z (Z.of_nat (length f)).
Definition volume (pts : list vec3) (faces : list (list nat)) : Q := qsum (face_vol (fun i => nth i pts (mk_vec3 0 0 0))) faces.
Definition unit_mat : mat3w := mk_mat3w (mk_vec3 1 0 0) (mk_vec3 0 1 0) (mk_vec3 0 0 1) (mk_vec3 0 0 0).
Definition qabs (x : Q) : Q := if Qle_bool 0 x then x else - x.

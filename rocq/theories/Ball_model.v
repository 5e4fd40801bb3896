(** Model of slicing an ellipsoid: src/hob3l/csg2-layer.c 49-151.  Numbers are real numbers; of the result, only the matrix is kept
    by which the points of a regular polygon in the unit circle are mapped (the points themselves: see [Circle_model]). *)
From Coq Require Import Reals Bool.
From Verif Require Import Lin_model.
Local Open Scope R_scope.

(** Nothing is added; the image of the unit circle; a failed assertion *)
Inductive layer := Nothing | Circle (m : mat2w) | Stop.

(** csg2_add_layer_sphere: csg2-layer.c 49-151 *)
Definition sphere_layer (e e2 z : R) (d : mat3wi) : layer :=
  let sa := vec3w_xform (bwd d) (V3 1 0 z) in
  let sb := vec3w_xform (bwd d) (V3 0 0 z) in
  let sc := vec3w_xform (bwd d) (V3 0 1 z) in
  let (sn, ok) := vec3_right_normal3 e e2 sa sb sc in
  if negb ok then Nothing
  else match mat3wi_rot_into_z e e2 sn with
  | None => Stop
  | Some (mq, _) =>
    let sq := vec3w_xform (fwd mq) sb in
    let dist := Rabs (vz sq) in
    if cp_ge e dist 1 then Nothing
    else
      let rad := sqrt (1 - dist * dist) in
      let mt := mat3wi_scale e rad rad 1 in
      let mm := mat3wi_xlat 0 0 (vz sq) in
      let mt := mat3wi_mul mm mt in
      let mq := mat3wi_inv e None mq in
      let mt := mat3wi_mul mq mt in
      let mt := mat3wi_mul d mt in
      Circle (mat2w_from_mat3w (fwd mt))
  end.

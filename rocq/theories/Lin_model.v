(** Model of the matrix library and of the transformations of a SCAD program:
    src/hob3lmat/algo.c 51-667 and 949-964, src/hob3lmat/mat_gen_ext.c and include/hob3lmat/mat_gen_inl.h (both are generated: one
    pattern for each of the types), src/hob3lmat/mat_is_rot.c, src/hob3l/csg3.c 269-407, src/hob3l/scad.c 585-645.

    Numbers are real numbers: rounding is left out.  Structures are passed by value instead of by pointer; a function that writes to
    a structure returns it.  [e] is cp_eq_epsilon and [e2] is cp_sqr_epsilon (include/hob3lmat/algo.h 55-68).  A failed assertion is
    [None]. *)
From Coq Require Import Reals Bool List.
Import ListNotations.
Local Open Scope R_scope.

(** cp_vec2_t, cp_vec3_t, cp_vec4_t *)
Record vec2 := V2 { x2 : R; y2 : R }.
Record vec3 := V3 { vx : R; vy : R; vz : R }.
Record vec4 := V4 { q0 : R; q1 : R; q2 : R; q3 : R }.
(** cp_mat2_t, cp_mat3_t, cp_mat4_t: [mYX] is m[Y][X] *)
Record mat2 := M2 { a00 : R; a01 : R; a10 : R; a11 : R }.
Record mat3 := M3 { m00 : R; m01 : R; m02 : R; m10 : R; m11 : R; m12 : R; m20 : R; m21 : R; m22 : R }.
Record mat4 := M4 { n00 : R; n01 : R; n02 : R; n03 : R; n10 : R; n11 : R; n12 : R; n13 : R;
                    n20 : R; n21 : R; n22 : R; n23 : R; n30 : R; n31 : R; n32 : R; n33 : R }.
(** cp_mat2w_t, cp_mat3w_t: with a translation; cp_mat3wi_t: with the inverse and the determinant *)
Record mat2w := MW2 { wb2 : mat2; ww2 : vec2 }.
Record mat3w := MW { wb : mat3; ww : vec3 }.
Record mat3wi := MI { fwd : mat3w; bwd : mat3w; idet : R }.

Section Eps.
Variables e e2 : R.

(** algo.h 78-102 *)
Definition cp_e_eq (d a b : R) : bool := if Rlt_dec (Rabs (a - b)) d then true else false.
Definition cp_eq := cp_e_eq e.
Definition cp_sqr_eq := cp_e_eq e2.
Definition cp_e_le (d a b : R) : bool := if Rlt_dec (a - b) d then true else false.
Definition cp_ge (a b : R) : bool := cp_e_le e b a.
(** algo.h 713-716 *)
Definition cp_div0 (a b : R) : R := if cp_eq b 0 then 0 else a / b.

(** Vectors: mat_gen_inl.h 244-253, 364-373, 608-617, 797-802, 815-820, 833-856, mat_gen_ext.c 84-92, 285-294, 317-324, 345-352 *)
Definition vec3_add (a b : vec3) : vec3 := V3 (vx a + vx b) (vy a + vy b) (vz a + vz b).
Definition vec3_sub (a b : vec3) : vec3 := V3 (vx a - vx b) (vy a - vy b) (vz a - vz b).
Definition vec3_div (a : vec3) (b : R) : vec3 := V3 (cp_div0 (vx a) b) (cp_div0 (vy a) b) (cp_div0 (vz a) b).
Definition vec3_dot (a b : vec3) : R := vx a * vx b + vy a * vy b + vz a * vz b.
Definition vec3_sqr_len (a : vec3) : R := vec3_dot a a.
Definition vec3_len (a : vec3) : R := sqrt (vec3_sqr_len a).
Definition vec3_max_abs_coord (a : vec3) : R :=
  let m := Rabs (vx a) in
  let m := if Rgt_dec (Rabs (vy a)) m then Rabs (vy a) else m in
  if Rgt_dec (Rabs (vz a)) m then Rabs (vz a) else m.
Definition vec3_has_len0 (a : vec3) : bool := cp_eq (vx a) 0 && cp_eq (vy a) 0 && cp_eq (vz a) 0.
Definition vec3_has_len0_or_1 (a : vec3) : bool := vec3_has_len0 a || cp_sqr_eq (vec3_sqr_len a) 1.
Definition vec2_has_len0_or_1 (s c : R) : bool := (cp_eq s 0 && cp_eq c 0) || cp_sqr_eq (s * s + c * c) 1.
Definition vec3_unit (a : vec3) : vec3 * bool :=
  let l := vec3_len a in (vec3_div a l, negb (cp_sqr_eq l 0)).

(** cp_vec3_cross, cp_vec3_normal, cp_vec3_right_normal3: algo.c 168-186, 211-244 *)
Definition vec3_cross (a b : vec3) : vec3 :=
  V3 (vy a * vz b - vz a * vy b) (vz a * vx b - vx a * vz b) (vx a * vy b - vy a * vx b).
Definition vec3_normal (a b : vec3) : vec3 * bool :=
  let (r, ok) := vec3_unit (vec3_cross a b) in
  if ok then (r, true)
  else vec3_unit (vec3_cross (vec3_div a (vec3_max_abs_coord a)) (vec3_div b (vec3_max_abs_coord b))).
Definition vec3_right_normal3 (a o b : vec3) : vec3 * bool := vec3_normal (vec3_sub a o) (vec3_sub b o).

(** cp_vec*_xform: mat_gen_ext.c 399-454 *)
Definition vec2_xform (a : mat2) (b : vec2) : vec2 := V2 (a00 a * x2 b + a01 a * y2 b) (a10 a * x2 b + a11 a * y2 b).
Definition vec2w_xform (m : mat2w) (v : vec2) : vec2 :=
  let r := vec2_xform (wb2 m) v in V2 (x2 r + x2 (ww2 m)) (y2 r + y2 (ww2 m)).
Definition vec3_xform (a : mat3) (b : vec3) : vec3 :=
  V3 (m00 a * vx b + m01 a * vy b + m02 a * vz b) (m10 a * vx b + m11 a * vy b + m12 a * vz b) (m20 a * vx b + m21 a * vy b + m22 a * vz b).
Definition vec3w_xform (m : mat3w) (v : vec3) : vec3 := vec3_add (vec3_xform (wb m) v) (ww m).
Definition vec4_xform (a : mat4) (b : vec4) : vec4 :=
  V4 (n00 a * q0 b + n01 a * q1 b + n02 a * q2 b + n03 a * q3 b) (n10 a * q0 b + n11 a * q1 b + n12 a * q2 b + n13 a * q3 b)
     (n20 a * q0 b + n21 a * q1 b + n22 a * q2 b + n23 a * q3 b) (n30 a * q0 b + n31 a * q1 b + n32 a * q2 b + n33 a * q3 b).

(** cp_mat*_mul: mat_gen_ext.c 993-1123 *)
Definition mat2_mul (a b : mat2) : mat2 :=
  M2 (a00 a * a00 b + a01 a * a10 b) (a00 a * a01 b + a01 a * a11 b) (a10 a * a00 b + a11 a * a10 b) (a10 a * a01 b + a11 a * a11 b).
Definition mat2w_mul (a b : mat2w) : mat2w :=
  MW2 (mat2_mul (wb2 a) (wb2 b))
    (V2 (a00 (wb2 a) * x2 (ww2 b) + a01 (wb2 a) * y2 (ww2 b) + x2 (ww2 a)) (a10 (wb2 a) * x2 (ww2 b) + a11 (wb2 a) * y2 (ww2 b) + y2 (ww2 a))).
Definition mat3_mul (a b : mat3) : mat3 :=
  M3 (m00 a * m00 b + m01 a * m10 b + m02 a * m20 b) (m00 a * m01 b + m01 a * m11 b + m02 a * m21 b) (m00 a * m02 b + m01 a * m12 b + m02 a * m22 b)
     (m10 a * m00 b + m11 a * m10 b + m12 a * m20 b) (m10 a * m01 b + m11 a * m11 b + m12 a * m21 b) (m10 a * m02 b + m11 a * m12 b + m12 a * m22 b)
     (m20 a * m00 b + m21 a * m10 b + m22 a * m20 b) (m20 a * m01 b + m21 a * m11 b + m22 a * m21 b) (m20 a * m02 b + m21 a * m12 b + m22 a * m22 b).
Definition mat3w_mul (a b : mat3w) : mat3w :=
  let A := wb a in let w := ww b in
  MW (mat3_mul A (wb b))
    (V3 (m00 A * vx w + m01 A * vy w + m02 A * vz w + vx (ww a))
        (m10 A * vx w + m11 A * vy w + m12 A * vz w + vy (ww a))
        (m20 A * vx w + m21 A * vy w + m22 A * vz w + vz (ww a))).
Definition mat4_mul (a b : mat4) : mat4 :=
  M4 (n00 a * n00 b + n01 a * n10 b + n02 a * n20 b + n03 a * n30 b) (n00 a * n01 b + n01 a * n11 b + n02 a * n21 b + n03 a * n31 b)
     (n00 a * n02 b + n01 a * n12 b + n02 a * n22 b + n03 a * n32 b) (n00 a * n03 b + n01 a * n13 b + n02 a * n23 b + n03 a * n33 b)
     (n10 a * n00 b + n11 a * n10 b + n12 a * n20 b + n13 a * n30 b) (n10 a * n01 b + n11 a * n11 b + n12 a * n21 b + n13 a * n31 b)
     (n10 a * n02 b + n11 a * n12 b + n12 a * n22 b + n13 a * n32 b) (n10 a * n03 b + n11 a * n13 b + n12 a * n23 b + n13 a * n33 b)
     (n20 a * n00 b + n21 a * n10 b + n22 a * n20 b + n23 a * n30 b) (n20 a * n01 b + n21 a * n11 b + n22 a * n21 b + n23 a * n31 b)
     (n20 a * n02 b + n21 a * n12 b + n22 a * n22 b + n23 a * n32 b) (n20 a * n03 b + n21 a * n13 b + n22 a * n23 b + n23 a * n33 b)
     (n30 a * n00 b + n31 a * n10 b + n32 a * n20 b + n33 a * n30 b) (n30 a * n01 b + n31 a * n11 b + n32 a * n21 b + n33 a * n31 b)
     (n30 a * n02 b + n31 a * n12 b + n32 a * n22 b + n33 a * n32 b) (n30 a * n03 b + n31 a * n13 b + n32 a * n23 b + n33 a * n33 b).
Definition mat3wi_mul (a b : mat3wi) : mat3wi := MI (mat3w_mul (fwd a) (fwd b)) (mat3w_mul (bwd b) (bwd a)) (idet a * idet b).

(** Determinants: algo.c 246-267, 334-355, 403-416 *)
Definition mat2_det (m : mat2) : R := a00 m * a11 m - a10 m * a01 m.
Definition mat3_det (m : mat3) : R :=
  let b00 := m00 m * m11 m - m10 m * m01 m in
  let b01 := m00 m * m21 m - m20 m * m01 m in
  let b03 := m10 m * m21 m - m20 m * m11 m in
  b00 * m22 m - b01 * m12 m + b03 * m02 m.
Definition mat4_det (m : mat4) : R :=
  let b00 := n00 m * n11 m - n10 m * n01 m in let b01 := n00 m * n21 m - n20 m * n01 m in let b02 := n00 m * n31 m - n30 m * n01 m in
  let b03 := n10 m * n21 m - n20 m * n11 m in let b04 := n10 m * n31 m - n30 m * n11 m in let b05 := n20 m * n31 m - n30 m * n21 m in
  let b06 := n02 m * n13 m - n12 m * n03 m in let b07 := n02 m * n23 m - n22 m * n03 m in let b08 := n02 m * n33 m - n32 m * n03 m in
  let b09 := n12 m * n23 m - n22 m * n13 m in let b10 := n12 m * n33 m - n32 m * n13 m in let b11 := n22 m * n33 m - n32 m * n23 m in
  b00 * b11 - b01 * b10 + b02 * b09 + b03 * b08 - b04 * b07 + b05 * b06.

(** CP_ZERO *)
Definition zero3 : vec3 := V3 0 0 0.
Definition mat2_zero : mat2 := M2 0 0 0 0.
Definition mat3_zero : mat3 := M3 0 0 0 0 0 0 0 0 0.
Definition mat4_zero : mat4 := M4 0 0 0 0 0 0 0 0 0 0 0 0 0 0 0 0.

(** Inverses: algo.c 269-332, 357-401, 418-445, 447-500, 502-536; the second result is the value returned *)
Definition mat2_inv (m : mat2) : mat2 * R :=
  let d := a00 m * a11 m - a10 m * a01 m in
  if cp_sqr_eq d 0 then (mat2_zero, 0) else (M2 (a11 m / d) (- a01 m / d) (- a10 m / d) (a00 m / d), d).
Definition mat2w_inv (m : mat2w) : mat2w * R :=
  let b := wb2 m in
  let d := a00 b * a11 b - a10 b * a01 b in
  let b08 := x2 (ww2 m) in let b10 := y2 (ww2 m) in
  if cp_sqr_eq d 0 then (MW2 mat2_zero (V2 0 0), 0)
  else (MW2 (M2 (a11 b / d) (- a01 b / d) (- a10 b / d) (a00 b / d)) (V2 ((a01 b * b10 - a11 b * b08) / d) ((a10 b * b08 - a00 b * b10) / d)), d).
Definition mat3_inv (m : mat3) : mat3 * R :=
  let b00 := m00 m * m11 m - m10 m * m01 m in
  let b01 := m00 m * m21 m - m20 m * m01 m in
  let b03 := m10 m * m21 m - m20 m * m11 m in
  let b08 := m02 m in let b10 := m12 m in let b11 := m22 m in
  let d := b00 * b11 - b01 * b10 + b03 * b08 in
  if cp_sqr_eq d 0 then (mat3_zero, 0)
  else
    (M3 ((m11 m * b11 - m21 m * b10) / d) ((m21 m * b08 - m01 m * b11) / d) ((m01 m * b10 - m11 m * b08) / d)
        ((m20 m * b10 - m10 m * b11) / d) ((m00 m * b11 - m20 m * b08) / d) ((m10 m * b08 - m00 m * b10) / d)
        (b03 / d) (- b01 / d) (b00 / d), d).
Definition mat3w_inv (q : mat3w) : mat3w * R :=
  let m := wb q in let w := ww q in
  let b00 := m00 m * m11 m - m10 m * m01 m in
  let b01 := m00 m * m21 m - m20 m * m01 m in
  let b03 := m10 m * m21 m - m20 m * m11 m in
  let b06 := m02 m * vy w - m12 m * vx w in
  let b07 := m02 m * vz w - m22 m * vx w in
  let b08 := m02 m in
  let b09 := m12 m * vz w - m22 m * vy w in
  let b10 := m12 m in let b11 := m22 m in
  let d := b00 * b11 - b01 * b10 + b03 * b08 in
  if cp_sqr_eq d 0 then (MW mat3_zero zero3, 0)
  else
    (MW (M3 ((m11 m * b11 - m21 m * b10) / d) ((m21 m * b08 - m01 m * b11) / d) ((m01 m * b10 - m11 m * b08) / d)
            ((m20 m * b10 - m10 m * b11) / d) ((m00 m * b11 - m20 m * b08) / d) ((m10 m * b08 - m00 m * b10) / d)
            (b03 / d) (- b01 / d) (b00 / d))
        (V3 ((m11 m * b07 - m01 m * b09 - m21 m * b06) / d) ((m00 m * b09 - m10 m * b07 + m20 m * b06) / d)
            ((vy w * b01 - vx w * b03 - vz w * b00) / d)), d).
Definition mat4_inv (m : mat4) : mat4 * R :=
  let b00 := n00 m * n11 m - n10 m * n01 m in let b01 := n00 m * n21 m - n20 m * n01 m in let b02 := n00 m * n31 m - n30 m * n01 m in
  let b03 := n10 m * n21 m - n20 m * n11 m in let b04 := n10 m * n31 m - n30 m * n11 m in let b05 := n20 m * n31 m - n30 m * n21 m in
  let b06 := n02 m * n13 m - n12 m * n03 m in let b07 := n02 m * n23 m - n22 m * n03 m in let b08 := n02 m * n33 m - n32 m * n03 m in
  let b09 := n12 m * n23 m - n22 m * n13 m in let b10 := n12 m * n33 m - n32 m * n13 m in let b11 := n22 m * n33 m - n32 m * n23 m in
  let d := b00 * b11 - b01 * b10 + b02 * b09 + b03 * b08 - b04 * b07 + b05 * b06 in
  if cp_sqr_eq d 0 then (mat4_zero, 0)
  else
    let oa := (n11 m * b11 - n21 m * b10 + n31 m * b09) / d in let ob := (n20 m * b10 - n10 m * b11 - n30 m * b09) / d in
    let oc := (n13 m * b05 - n23 m * b04 + n33 m * b03) / d in let od := (n22 m * b04 - n12 m * b05 - n32 m * b03) / d in
    let oe := (n21 m * b08 - n01 m * b11 - n31 m * b07) / d in let of := (n00 m * b11 - n20 m * b08 + n30 m * b07) / d in
    let og := (n23 m * b02 - n03 m * b05 - n33 m * b01) / d in let oh := (n02 m * b05 - n22 m * b02 + n32 m * b01) / d in
    let oi := (n01 m * b10 - n11 m * b08 + n31 m * b06) / d in let oj := (n10 m * b08 - n00 m * b10 - n30 m * b06) / d in
    let ok := (n03 m * b04 - n13 m * b02 + n33 m * b00) / d in let ol := (n12 m * b02 - n02 m * b04 - n32 m * b00) / d in
    let om := (n11 m * b07 - n01 m * b09 - n21 m * b06) / d in let on := (n00 m * b09 - n10 m * b07 + n20 m * b06) / d in
    let oo := (n13 m * b01 - n03 m * b03 - n23 m * b00) / d in let op := (n02 m * b03 - n12 m * b01 + n22 m * b00) / d in
    (M4 oa oe oi om ob of oj on oc og ok oo od oh ol op, d).

(** cp_mat3w_from_mat4, cp_mat4_from_mat3w: algo.c 538-571, 639-667 *)
Definition mat3w_from_mat4 (q : mat4) : mat3w * bool :=
  (MW (M3 (n00 q) (n01 q) (n02 q) (n10 q) (n11 q) (n12 q) (n20 q) (n21 q) (n22 q)) (V3 (n03 q) (n13 q) (n23 q)),
   cp_eq (n30 q) 0 && cp_eq (n31 q) 0 && cp_eq (n32 q) 0 && cp_eq (n33 q) 1).
Definition mat4_from_mat3w (q : mat3w) : mat4 :=
  let m := wb q in let w := ww q in
  M4 (m00 m) (m01 m) (m02 m) (vx w) (m10 m) (m11 m) (m12 m) (vy w) (m20 m) (m21 m) (m22 m) (vz w) 0 0 0 1.
(** cp_mat2w_from_mat3w, without the check of whether the matrix has that form: algo.c 605-637 *)
Definition mat2w_from_mat3w (q : mat3w) : mat2w :=
  let m := wb q in MW2 (M2 (m00 m) (m01 m) (m10 m) (m11 m)) (V2 (vx (ww q)) (vy (ww q))).

(** Matrices for transformations.  Scaling: mat_gen_inl.h 1104-1136, mat_gen_ext.c 487-496; cp_mat3wi_unit: mat_gen_inl.h 1332-1337, 1658-1662 *)
Definition mat3_scale (x y z : R) : mat3 := M3 x 0 0 0 y 0 0 0 z.
Definition mat3wi_scale (x y z : R) : mat3wi :=
  MI (MW (mat3_scale x y z) zero3) (MW (mat3_scale (cp_div0 1 x) (cp_div0 1 y) (cp_div0 1 z)) zero3) (x * y * z).
Definition mat3_unit : mat3 := mat3_scale 1 1 1.
Definition mat3wi_unit : mat3wi := mat3wi_scale 1 1 1.
(** Translation: mat_gen_inl.h 2898-2905, 2941-2949 *)
Definition mat3w_xlat (x y z : R) : mat3w := MW mat3_unit (V3 x y z).
Definition mat3wi_xlat (x y z : R) : mat3wi := MI (mat3w_xlat x y z) (mat3w_xlat (- x) (- y) (- z)) 1.
(** Transposition: mat_gen_ext.c 545-563 *)
Definition mat3_trans (a : mat3) : mat3 := M3 (m00 a) (m10 a) (m20 a) (m01 a) (m11 a) (m21 a) (m02 a) (m12 a) (m22 a).
Definition mat3w_trans (a : mat3w) : mat3w := MW (mat3_trans (wb a)) zero3.
(** cp_mat3_rot_ij: mat_gen_ext.c 780-796, and its uses for the axes: mat_gen_inl.h 2206-2211, 2288-2293, 2425-2430.  [sc] is the pair sine, cosine *)
Definition mat3_rot_x (s c : R) : option mat3 := if vec2_has_len0_or_1 s c then Some (M3 1 0 0 0 c (- s) 0 s c) else None.
Definition mat3_rot_y (s c : R) : option mat3 := if vec2_has_len0_or_1 s c then Some (M3 c 0 s 0 1 0 (- s) 0 c) else None.
Definition mat3_rot_z (s c : R) : option mat3 := if vec2_has_len0_or_1 s c then Some (M3 c (- s) 0 s c 0 0 0 1) else None.
(** the pattern of cp_mat3wi_rot_unit, cp_mat3wi_rot_x, _y, _z and cp_mat3wi_rot_unit_into_z: mat_gen_ext.c 615-623, 644-651, 858-865, 885-892, 930-937 *)
Definition mat3wi_rot (m : mat3) : mat3wi := let n := MW m zero3 in MI n (mat3w_trans n) 1.
(** cp_dim3_rot_unit: algo.c 51-88 *)
Definition dim3_rot_unit (u : vec3) (s c : R) : option mat3 :=
  if vec2_has_len0_or_1 s c && vec3_has_len0_or_1 u then
    let x := vx u in let y := vy u in let z := vz u in
    let x_s := x * s in let y_s := y * s in let z_s := z * s in
    let d := 1 - c in
    let x_d := x * d in let y_d := y * d in let z_d := z * d in
    let x_y_d := x * y_d in let x_z_d := x * z_d in let y_z_d := y * z_d in
    Some (M3 (x * x_d + c) (x_y_d - z_s) (x_z_d + y_s) (x_y_d + z_s) (y * y_d + c) (y_z_d - x_s) (x_z_d - y_s) (y_z_d + x_s) (z * z_d + c))
  else None.
(** cp_mat3wi_rot_v: mat_gen_inl.h 1919-1926 *)
Definition mat3wi_rot_v (v : vec3) (s c : R) : option mat3wi := option_map mat3wi_rot (dim3_rot_unit (fst (vec3_unit v)) s c).
(** cp_dim3_mirror_unit: algo.c 110-134 *)
Definition dim3_mirror_unit (u : vec3) : option mat3 :=
  if vec3_has_len0_or_1 u then
    let x := vx u in let y := vy u in let z := vz u in
    let m2x := -2 * x in let m2y := -2 * y in let m2z := -2 * z in
    Some (M3 (1 + m2x * x) (m2x * y) (m2x * z) (m2x * y) (1 + m2y * y) (m2y * z) (m2x * z) (m2y * z) (1 + m2z * z))
  else None.
(** cp_mat3wi_mirror_v: mat_gen_inl.h 2779-2785, mat_gen_ext.c 975-982 *)
Definition mat3wi_mirror_v (v : vec3) : option mat3wi :=
  option_map (fun m => let n := MW m zero3 in MI n n (-1)) (dim3_mirror_unit (fst (vec3_unit v))).
(** cp_mat3wi_from_mat3w: algo.c 949-964 *)
Definition mat3wi_from_mat3w (q : mat3w) : mat3wi * bool :=
  let (i, d) := mat3w_inv q in (MI q i d, negb (cp_sqr_eq d 0)).
(** cp_mat3wi_inv: mat_gen_ext.c 1174-1185; [old] is what the structure contains that is written to, [None] if it is [a] itself *)
Definition mat3wi_inv (old : option mat3wi) (a : mat3wi) : mat3wi :=
  MI (bwd a) (fwd a) (cp_div0 1 (idet (match old with None => a | Some r => r end))).

(** cp_dim3_rot_unit_into_z: algo.c 136-166 *)
Definition dim3_rot_unit_into_z (u : vec3) : option mat3 :=
  if vec3_has_len0_or_1 u then
    let x := vx u in let y := vy u in let z := vz u in
    if cp_eq x 0 && cp_eq y 0 then Some (M3 1 0 0 0 1 0 0 0 z)
    else
      let k := sqrt (x * x + y * y) in
      Some (M3 (y / k) (- x / k) 0 (x * z / k) (y * z / k) (- k) x y z)
  else None.
(** cp_mat3wi_rot_into_z: mat_gen_ext.c 701-712 *)
Definition mat3wi_rot_into_z (v : vec3) : option (mat3wi * bool) :=
  let (u, ok) := vec3_unit v in
  if ok then option_map (fun m => (mat3wi_rot m, true)) (dim3_rot_unit_into_z u) else Some (mat3wi_unit, false).

(** The transformations: csg3.c 269-407.  The sines and cosines are those of CP_SINCOS_DEG (algo.h 11) *)
Inductive xf :=
  | Translate (v : vec3) | Mirror (v : vec3) | Scale (v : vec3) | Multmatrix (m : mat3w)
  | RotAxis (n : vec3) (s c : R) | RotXYZ (sx cx sy cy sz cz : R).
(** Result of one: the matrix for the children; a message, and no children; a failed assertion *)
Inductive out := Go (m : mat3wi) | Msg | Crash.
Definition of_opt (m : option mat3wi) (f : mat3wi -> mat3wi) : out := match m with Some m => Go (f m) | None => Crash end.
Definition good_scale (v : vec3) : bool := negb (cp_eq (vx v) 0) && negb (cp_eq (vy v) 0) && negb (cp_eq (vz v) 0).
Definition csg3_step (mo : mat3wi) (t : xf) : out :=
  match t with
  | Translate v => if vec3_has_len0 v then Go mo else Go (mat3wi_mul mo (mat3wi_xlat (vx v) (vy v) (vz v)))
  | Mirror v => if vec3_has_len0 v then Msg else of_opt (mat3wi_mirror_v v) (mat3wi_mul mo)
  | Scale v => if good_scale v then Go (mat3wi_mul mo (mat3wi_scale (vx v) (vy v) (vz v))) else Msg
  | Multmatrix q => let (m1, ok) := mat3wi_from_mat3w q in if ok then Go (mat3wi_mul mo m1) else Msg
  | RotAxis n s c => of_opt (mat3wi_rot_v n s c) (mat3wi_mul mo)
  | RotXYZ sx cx sy cy sz cz =>
    match mat3_rot_z sz cz, mat3_rot_y sy cy, mat3_rot_x sx cx with
    | Some z, Some y, Some x => Go (mat3wi_mul mo (mat3wi_mul (mat3wi_mul (mat3wi_rot z) (mat3wi_rot y)) (mat3wi_rot x)))
    | _, _, _ => Crash
    end
  end.
(** A primitive below a list of transformations, outermost first (csg3_from_v_scad passes the matrix on: csg3.c 285-288 and so on;
    it starts with the unit matrix: csg3.c 71-80) *)
Fixpoint csg3_run (mo : mat3wi) (l : list xf) : out :=
  match l with [] => Go mo | t :: l => match csg3_step mo t with Go m => csg3_run m l | o => o end end.

(** cp_mat3_is_rect_rot: mat_is_rot.c 7-77 *)
Definition is0 (x : R) : bool := cp_eq x 0.
Definition mat3_is_rect_rot (m : mat3) : bool :=
  if negb (is0 (m00 m)) then
    if negb (is0 (m10 m)) then
      if negb (is0 (m01 m)) then false else if negb (is0 (m12 m)) then false else if negb (is0 (m22 m)) then false else
      if negb (is0 (m11 m)) then (if negb (is0 (m20 m)) then false else true) else
      if negb (is0 (m21 m)) then false else true
    else
    if negb (is0 (m11 m)) then false else if negb (is0 (m21 m)) then false else if negb (is0 (m02 m)) then false else
    if negb (is0 (m01 m)) then (if negb (is0 (m22 m)) then false else true) else
    if negb (is0 (m20 m)) then false else if negb (is0 (m12 m)) then false else true
  else
  if negb (is0 (m10 m)) then false else if negb (is0 (m20 m)) then false else if negb (is0 (m01 m)) then false else if negb (is0 (m02 m)) then false else
  if negb (is0 (m11 m)) then (if negb (is0 (m22 m)) then false else true) else
  if negb (is0 (m21 m)) then false else if negb (is0 (m12 m)) then false else true.
End Eps.

(** The argument of multmatrix: scad.c 585-645.  Values of the syntax tree are numbers, arrays, and others (ranges, names, strings).
    [Bad]: an error message; [Abort]: the assertion in cp_syn_cast (include/hob3lbase/obj.h 57-72) fails *)
Inductive val := Num (r : R) | Arr (l : list val) | Other.
Inductive got (A : Type) := Got (a : A) | Bad | Abort.
Arguments Got {A} a.
Arguments Bad {A}.
Arguments Abort {A}.
(** get_vec3, get_vec4 (scad.c 471-493, 562-583): an array of [n] numbers *)
Fixpoint get_floats (l : list val) : option (list R) :=
  match l with
  | [] => Some []
  | Num r :: l => match get_floats l with Some rs => Some (r :: rs) | None => None end
  | _ => None
  end.
Definition get_vec (n : nat) (v : val) : option (list R) :=
  match v with Arr l => if Nat.eqb (length l) n then get_floats l else None | _ => None end.
(** one row: [y] is its number; missing elements are those of the unit matrix *)
Definition unit_at (y x : nat) : R := if Nat.eqb y x then 1 else 0.
Definition get_row (y : nat) (v : val) : option (list R) :=
  match v with
  | Arr l => if Nat.eqb (length l) 3 then match get_vec 3 v with Some r => Some (r ++ [unit_at y 3]) | None => None end else get_vec 4 v
  | _ => get_vec 4 v
  end.
Fixpoint get_rows (y : nat) (l : list val) : option (list (list R)) :=
  match l with
  | [] => Some []
  | v :: l => match get_row y v with Some r => match get_rows (S y) l with Some rs => Some (r :: rs) | None => None end | None => None end
  end.
Definition ent (rs : list (list R)) (y x : nat) : R := nth x (nth y rs []) (unit_at y x).
Definition get_mat4 (v : val) : got mat4 :=
  match v with
  | Arr l =>
    if negb (Nat.eqb (length l) 2) && negb (Nat.eqb (length l) 3) && negb (Nat.eqb (length l) 4) then Bad
    else match get_rows 0 l with
      | Some r => Got (M4 (ent r 0 0) (ent r 0 1) (ent r 0 2) (ent r 0 3) (ent r 1 0) (ent r 1 1) (ent r 1 2) (ent r 1 3)
                          (ent r 2 0) (ent r 2 1) (ent r 2 2) (ent r 2 3) (ent r 3 0) (ent r 3 1) (ent r 3 2) (ent r 3 3))
      | None => Bad
      end
  | _ => Abort
  end.
Definition get_mat3w (e : R) (v : val) : got mat3w :=
  match get_mat4 v with
  | Got q => let (r, ok) := mat3w_from_mat4 e q in if ok then Got r else Bad
  | Bad => Bad
  | Abort => Abort
  end.

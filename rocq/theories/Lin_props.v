(** C49: matrices; C50: transformations; C52: single functions of the matrix library; C53: the argument of multmatrix *)
From Coq Require Import Reals Bool List Arith Lia Lra.
From Verif Require Import Lin_model Lin_spec Lin_proofs Lin_proofs2 Lin_proofs3 Ball_spec.
Import ListNotations.
Local Open Scope R_scope.

(** C49: the product of two matrices does what applying the second and then the first does; for all five kinds of matrices *)
Theorem C49_mul :
  (forall a b v, vec2_xform (mat2_mul a b) v = vec2_xform a (vec2_xform b v)) /\
  (forall a b v, vec2w_xform (mat2w_mul a b) v = vec2w_xform a (vec2w_xform b v)) /\
  (forall a b v, vec3_xform (mat3_mul a b) v = vec3_xform a (vec3_xform b v)) /\
  (forall a b v, vec3w_xform (mat3w_mul a b) v = vec3w_xform a (vec3w_xform b v)) /\
  (forall a b v, vec4_xform (mat4_mul a b) v = vec4_xform a (vec4_xform b v)).
Proof. exact (conj mul2 (conj mul2w (conj mul3 (conj mul3w mul4)))). Qed.
Example C49_mul_example : vec3w_xform (mat3w_mul (mat3w_xlat 1 2 3) (MW (mat3_scale 2 2 2) (V3 1 0 0))) (V3 1 1 1) = V3 4 4 5.
Proof. rewrite (proj1 (proj2 (proj2 (proj2 C49_mul)))). unfold vec3w_xform, vec3_xform, vec3_add, mat3w_xlat, mat3_unit, mat3_scale. cbn [wb ww vx vy vz m00 m01 m02 m10 m11 m12 m20 m21 m22]. f_equal; ring. Qed.

(** the determinants are those of Laplace's expansion; they multiply *)
Theorem C49_det : (forall m, mat2_det m = determinant 2 (el2 m)) /\ (forall m, mat3_det m = determinant 3 (el3 m)) /\ (forall m, mat4_det m = determinant 4 (el4 m)) /\
  (forall a b, mat2_det (mat2_mul a b) = mat2_det a * mat2_det b) /\ (forall a b, mat3_det (mat3_mul a b) = mat3_det a * mat3_det b) /\
  (forall a b, mat4_det (mat4_mul a b) = mat4_det a * mat4_det b).
Proof. exact (conj det2 (conj det3 (conj det4 (conj det2_mul (conj det3_mul det4_mul))))). Qed.
Example C49_det_example : mat3_det (M3 0 1 0 1 0 0 0 0 2) = -2.
Proof. unfold mat3_det. cbn [m00 m01 m02 m10 m11 m12 m20 m21 m22]. ring. Qed.

(** the inverse: it is one, unless the determinant is about zero; then the result is zero.  What is returned is the determinant, or zero *)
Theorem C49_inv : forall e2, 0 < e2 ->
  (forall m, let d := determinant 2 (el2 m) in let r := mat2_inv e2 m in
     (Rabs d < e2 /\ r = (mat2_zero, 0)) \/ (e2 <= Rabs d /\ snd r = d /\ inverse_of (vec2_xform m) (vec2_xform (fst r)))) /\
  (forall m, let d := determinant 2 (el2 (wb2 m)) in let r := mat2w_inv e2 m in
     (Rabs d < e2 /\ r = (MW2 mat2_zero (V2 0 0), 0)) \/ (e2 <= Rabs d /\ snd r = d /\ inverse_of (vec2w_xform m) (vec2w_xform (fst r)))) /\
  (forall m, let d := determinant 3 (el3 m) in let r := mat3_inv e2 m in
     (Rabs d < e2 /\ r = (mat3_zero, 0)) \/ (e2 <= Rabs d /\ snd r = d /\ inverse_of (vec3_xform m) (vec3_xform (fst r)))) /\
  (forall m, let d := determinant 3 (el3 (wb m)) in let r := mat3w_inv e2 m in
     (Rabs d < e2 /\ r = (MW mat3_zero zero3, 0)) \/ (e2 <= Rabs d /\ snd r = d /\ inverse_of (vec3w_xform m) (vec3w_xform (fst r)))) /\
  (forall m, let d := determinant 4 (el4 m) in let r := mat4_inv e2 m in
     (Rabs d < e2 /\ r = (mat4_zero, 0)) \/ (e2 <= Rabs d /\ snd r = d /\ inverse_of (vec4_xform m) (vec4_xform (fst r)))).
Proof.
  intros e2 H. split; [|split; [|split; [|split]]]; intros m; cbv zeta.
  - rewrite <- det2. apply inv2; assumption.
  - rewrite <- det2. apply inv2w; assumption.
  - rewrite <- det3. apply inv3; assumption.
  - rewrite <- det3. apply inv3w; assumption.
  - rewrite <- det4. apply inv4; assumption.
Qed.
Example C49_inv_example : let r := mat2_inv (/ 2 ^ 30) (M2 2 1 1 1) in snd r = 1 /\ inverse_of (vec2_xform (M2 2 1 1 1)) (vec2_xform (fst r)).
Proof.
  cbv zeta. assert (H : 0 < / 2 ^ 30) by (apply Rinv_0_lt_compat; lra). assert (D : determinant 2 (el2 (M2 2 1 1 1)) = 1) by (rewrite <- det2; unfold mat2_det; cbn [a00 a01 a10 a11]; ring).
  destruct (proj1 (C49_inv _ H) (M2 2 1 1 1)) as [[A _]|(_ & A & B)]; rewrite D in A; [|split; assumption].
  rewrite Rabs_R1 in A. exfalso. assert (/ 2 ^ 30 < 1) by (apply (Rmult_lt_reg_l (2 ^ 30)); [lra|]; rewrite Rinv_r; lra). lra.
Qed.

(** a matrix with a translation does what the larger matrix does that is made from it, in homogeneous coordinates *)
Theorem C49_homogeneous :
  (forall m v, vec4_xform (mat4_from_mat3w m) (V4 (vx v) (vy v) (vz v) 1) = let r := vec3w_xform m v in V4 (vx r) (vy r) (vz r) 1) /\
  (forall a b, mat4_from_mat3w (mat3w_mul a b) = mat4_mul (mat4_from_mat3w a) (mat4_from_mat3w b)) /\
  (forall m, mat3_det (wb m) = determinant 4 (el4 (mat4_from_mat3w m))) /\
  (forall e m, 0 < e -> mat3w_from_mat4 e (mat4_from_mat3w m) = (m, true)).
Proof.
  split; [exact homog|]. split; [exact homog_mul|]. split; [exact det3w|].
  intros e [[a b c d f g h i j] [u v w]] H. unfold mat3w_from_mat4, mat4_from_mat3w. cbn [wb ww vx vy vz m00 m01 m02 m10 m11 m12 m20 m21 m22 n00 n01 n02 n03 n10 n11 n12 n13 n20 n21 n22 n23 n30 n31 n32 n33].
  unfold cp_eq. rewrite !eq_self by assumption. reflexivity.
Qed.
Example C49_homogeneous_example : vec4_xform (mat4_from_mat3w (mat3w_xlat 1 2 3)) (V4 5 5 5 1) = V4 6 7 8 1.
Proof. change (V4 5 5 5 1) with (V4 (vx (V3 5 5 5)) (vy (V3 5 5 5)) (vz (V3 5 5 5)) 1). rewrite (proj1 C49_homogeneous). cbv zeta. unfold vec3w_xform, vec3_xform, vec3_add, mat3w_xlat, mat3_unit, mat3_scale. cbn [wb ww vx vy vz m00 m01 m02 m10 m11 m12 m20 m21 m22]. f_equal; ring. Qed.

(** C50: for any nest of transformations, the matrix for what is inside does to a point what the transformations do, one after the
    other, innermost first.  The inverse and the determinant stored with it are right.  Something is refused exactly if one of the
    transformations flattens (or nearly so), and no assertion fails. *)
Theorem C50_transform_partial : forall e e2 l, 0 < e -> e <= 1 -> 0 < e2 -> Forall (fine e) l ->
  match csg3_run e e2 (mat3wi_unit e) l with
  | Go m => Forall (fun t => ~ refused e e2 t) l /\ proper m /\ nest e l (affine (fwd m))
  | Msg => Exists (refused e e2) l
  | Crash => False
  end.
Proof.
  intros e e2 l He H1 He2 F. destruct (proper_unit e He H1) as [P U]. pose proof (run_ok e e2 He He2 l _ P F) as R.
  destruct (csg3_run e e2 (mat3wi_unit e) l) as [m| |]; [|assumption|assumption]. destruct R as (A & B & g & C & D). split; [assumption|]. split; [assumption|].
  clear - C D U. assert (E : forall p, affine (fwd m) p = g p) by (intros; rewrite D; apply U). clear D U.
  destruct C as [f Hf|t l f g h A B Hh]; [apply nest_nil; intros; rewrite E; apply Hf|]. eapply nest_cons; [exact A|exact B|]. intros p. rewrite E. apply Hh.
Qed.
Example C50_transform_partial_example :
  let l := [Translate (V3 1 2 3); RotXYZ 0 1 0 1 (3/5) (4/5); Mirror (V3 1 1 0); Scale (V3 2 2 (-1)); RotAxis (V3 0 3 4) 1 0] in
  Forall (fine (/ 2 ^ 15)) l /\ exists m, csg3_run (/ 2 ^ 15) (/ 2 ^ 30) (mat3wi_unit (/ 2 ^ 15)) l = Go m.
Proof.
  cbv zeta. assert (E : 0 < / 2 ^ 15 < 1/2) by (split; [apply Rinv_0_lt_compat; lra|apply (Rmult_lt_reg_l (2 ^ 15)); [lra|]; rewrite Rinv_r; lra]).
  assert (E2 : 0 < / 2 ^ 30) by (apply Rinv_0_lt_compat; lra).
  assert (F : Forall (fine (/ 2 ^ 15)) [Translate (V3 1 2 3); RotXYZ 0 1 0 1 (3/5) (4/5); Mirror (V3 1 1 0); Scale (V3 2 2 (-1)); RotAxis (V3 0 3 4) 1 0]).
  { repeat constructor; cbn [fine]; try lra. unfold norm, inner. cbn [vx vy vz]. replace (0 * 0 + 3 * 3 + 4 * 4) with (5 * 5) by ring. rewrite sqrt_square; lra. }
  split; [exact F|]. pose proof (C50_transform_partial (/ 2 ^ 15) (/ 2 ^ 30) _ ltac:(lra) ltac:(lra) E2 F) as R.
  destruct (csg3_run (/ 2 ^ 15) (/ 2 ^ 30)) as [m| |]; [exists m; reflexivity| |contradiction]. exfalso.
  repeat match goal with H : Exists _ (_ :: _) |- _ => inversion H; clear H; subst | H : Exists _ [] |- _ => inversion H end; cbn [refused] in *; unfold near in *; cbn [vx vy vz] in *;
  rewrite ?Rminus_0_r, ?Rabs_R1, ?Rabs_Ropp, ?(Rabs_pos_eq 2) in * by lra; try lra.
  match goal with H : _ \/ _ |- _ => destruct H as [H|[H|H]]; try lra; replace (-1) with (- (1)) in H by ring; rewrite Rabs_Ropp, Rabs_R1 in H; lra end.
Qed.

(** Without the condition about the axis of a rotation this is false: around a vector of length zero, by 90 degrees, everything is
    moved into the origin, and the matrix claims to have the determinant 1 *)
Theorem C50_zero_axis_refuted : forall e e2, 0 < e -> e <= 1 -> 0 < e2 -> e2 <= 1 ->
  exists m, csg3_run e e2 (mat3wi_unit e) [RotAxis (V3 0 0 0) 1 0] = Go m /\ (forall p, affine (fwd m) p = V3 0 0 0) /\ idet m = 1 /\ ~ proper m.
Proof.
  intros e e2 He H1 He2 H2. cbn [csg3_run csg3_step]. unfold mat3wi_rot_v, vec3_unit. cbn [fst].
  assert (Z : forall l, vec3_div e (V3 0 0 0) l = V3 0 0 0).
  { intros l. unfold vec3_div, cp_div0. cbn [vx vy vz]. destruct (cp_eq e l 0); [reflexivity|]. unfold Rdiv. rewrite !Rmult_0_l. reflexivity. }
  rewrite Z. unfold dim3_rot_unit. rewrite sc_assert by (try assumption; ring).
  assert (K : vec3_has_len0_or_1 e e2 (V3 0 0 0) = true) by (unfold vec3_has_len0_or_1, vec3_has_len0, cp_eq; cbn [vx vy vz]; rewrite eq_self by assumption; reflexivity).
  rewrite K. cbn [andb option_map of_opt]. eexists. split; [reflexivity|].
  assert (A : forall p, affine (fwd (mat3wi_mul (mat3wi_unit e) (mat3wi_rot (M3 (0 * (0 * (1 - 0)) + 0) (0 * (0 * (1 - 0)) - 0 * 1) (0 * (0 * (1 - 0)) + 0 * 1) (0 * (0 * (1 - 0)) + 0 * 1)
     (0 * (0 * (1 - 0)) + 0) (0 * (0 * (1 - 0)) - 0 * 1) (0 * (0 * (1 - 0)) - 0 * 1) (0 * (0 * (1 - 0)) + 0 * 1) (0 * (0 * (1 - 0)) + 0))))) p = V3 0 0 0).
  { intros p. rewrite fwd_mul, (proj2 (proper_unit e He H1)). cbn [fwd mat3wi_rot]. unfold affine, zero3. cbn [wb ww vx vy vz m00 m01 m02 m10 m11 m12 m20 m21 m22]. f_equal; ring. }
  split; [exact A|]. split; [cbn; ring|]. intros [I _]. pose proof (proj1 (I (V3 0 0 0))) as X. pose proof (proj1 (I (V3 1 0 0))) as Y. rewrite A in X, Y.
  rewrite X in Y. injection Y as Y. lra.
Qed.

(** C52: inverting a matrix with its inverse in place *)
Theorem C52_inv_in_place_partial : forall e a, proper a -> e <= Rabs (idet a) -> proper (mat3wi_inv e None a).
Proof. exact inv_in_place. Qed.
Example C52_inv_in_place_partial_example : proper (mat3wi_xlat 1 2 3) /\ / 2 ^ 15 <= Rabs (idet (mat3wi_xlat 1 2 3)).
Proof. split; [apply proper_xlat|]. cbn [idet mat3wi_xlat]. rewrite Rabs_R1. apply (Rmult_le_reg_l (2 ^ 15)); [lra|]. rewrite Rinv_r; lra. Qed.
(** but not into another structure: the determinant is then computed from what was in that structure before *)
Theorem C52_inv_refuted : forall e, 0 < e -> e <= 1 -> exists old a, proper old /\ proper a /\ ~ proper (mat3wi_inv e (Some old) a).
Proof.
  intros e He H1. exists (mat3wi_unit e), (mat3wi_scale e 2 1 1).
  assert (A : Rabs 2 = 2) by (apply Rabs_pos_eq; lra).
  pose proof (proj1 (proper_scale e He 2 1 1 ltac:(lra) ltac:(rewrite Rabs_R1; lra) ltac:(rewrite Rabs_R1; lra))) as P. pose proof (proj1 (proper_unit e He H1)) as Q.
  split; [assumption|]. split; [assumption|]. intros [_ D]. cbn [mat3wi_inv idet fwd mat3wi_unit mat3wi_scale] in D.
  rewrite <- det3 in D. cbn [bwd mat3wi_scale wb] in D. unfold mat3_det, mat3_scale in D. cbn [m00 m01 m02 m10 m11 m12 m20 m21 m22] in D.
  rewrite !div0_big in D by (rewrite ?Rmult_1_l, ?A, ?Rabs_R1; lra). lra.
Qed.

(** turning a vector into the direction of the z axis *)
Theorem C52_into_z_partial : forall e e2 v, 0 < e -> 0 < e2 -> e2 <= e -> e <= norm v -> decided e v ->
  exists m, mat3wi_rot_into_z e e2 v = Some (m, true) /\ affine (fwd m) v = V3 0 0 (norm v) /\ isometry (affine (fwd m)) /\
    inverse_of (affine (fwd m)) (affine (bwd m)) /\ (~ (vx v = 0 /\ vy v = 0 /\ vz v < 0) -> proper m).
Proof. intros e e2 v H1 H2. apply into_z_ok; assumption. Qed.
Example C52_into_z_partial_example : norm (V3 3 0 4) = 5 /\ decided (/ 2 ^ 15) (V3 3 0 4).
Proof.
  assert (N : norm (V3 3 0 4) = 5) by (unfold norm, inner; cbn [vx vy vz]; replace (3 * 3 + 0 * 0 + 4 * 4) with (5 * 5) by ring; apply sqrt_square; lra).
  split; [exact N|]. right. left. rewrite N. cbn [vx]. rewrite Rabs_pos_eq by lra. apply (Rmult_le_reg_l (2 ^ 15)); [lra|]. rewrite <- Rmult_assoc, Rinv_r; lra.
Qed.
(** The matrix for the opposite direction is a reflection and not a rotation, with the wrong determinant; and for short vectors the
    function reports success, but returns a matrix that flattens *)
Theorem C52_into_z_refuted : forall e e2, 0 < e -> e <= 1 -> 0 < e2 -> 2 * e2 <= e ->
  (exists m, mat3wi_rot_into_z e e2 (V3 0 0 (-1)) = Some (m, true) /\ idet m = 1 /\ determinant 3 (el3 (wb (fwd m))) = -1) /\
  (exists m, mat3wi_rot_into_z e e2 (V3 0 0 (e / 2)) = Some (m, true) /\ idet m = 1 /\ affine (fwd m) (V3 0 0 (e / 2)) = V3 0 0 0).
Proof.
  intros e e2 He H1 He2 H2.
  assert (N : forall z, 0 <= z -> norm (V3 0 0 z) = z) by (intros z Hz; unfold norm, inner; cbn [vx vy vz]; rewrite !Rmult_0_l, !Rplus_0_l; apply sqrt_square; assumption).
  assert (N1 : norm (V3 0 0 (-1)) = 1) by (apply norm_axis; ring).
  split; unfold mat3wi_rot_into_z, vec3_unit, cp_sqr_eq.
  - change (vec3_len (V3 0 0 (-1))) with (norm (V3 0 0 (-1))). rewrite N1. rewrite eq_big by (rewrite Rabs_R1; lra). cbn [negb].
    assert (U : vec3_div e (V3 0 0 (-1)) 1 = V3 0 0 (-1)) by (unfold vec3_div; cbn [vx vy vz]; rewrite !div0_big by (rewrite Rabs_R1; lra); f_equal; field).
    rewrite U. unfold dim3_rot_unit_into_z. rewrite unit_assert by (try assumption; unfold inner; cbn [vx vy vz]; ring). cbn [vx vy vz].
    unfold cp_eq. rewrite eq_self by assumption. cbn [andb option_map]. eexists. split; [reflexivity|]. split; [reflexivity|].
    rewrite <- det3. unfold mat3_det. cbn [fwd mat3wi_rot wb m00 m01 m02 m10 m11 m12 m20 m21 m22]. ring.
  - change (vec3_len (V3 0 0 (e / 2))) with (norm (V3 0 0 (e / 2))). rewrite N by lra. rewrite eq_big by (rewrite Rabs_pos_eq; lra). cbn [negb].
    assert (U : vec3_div e (V3 0 0 (e / 2)) (e / 2) = V3 0 0 0) by (unfold vec3_div, cp_div0, cp_eq; rewrite eq_small by (rewrite Rabs_pos_eq; lra); reflexivity).
    rewrite U. unfold dim3_rot_unit_into_z, vec3_has_len0_or_1, vec3_has_len0, cp_eq. cbn [vx vy vz]. rewrite eq_self by assumption. cbn [andb orb option_map].
    eexists. split; [reflexivity|]. split; [reflexivity|]. cbn [fwd mat3wi_rot]. unfold affine, zero3. cbn [wb ww vx vy vz m00 m01 m02 m10 m11 m12 m20 m21 m22]. f_equal; ring.
Qed.

(** the check for rotations by multiples of 90 degrees: it says no for the unit matrix, and yes for the zero matrix *)
Theorem C52_rect_rot_refuted : forall e, 0 < e -> e <= 1 ->
  axis_aligned mat3_unit /\ mat3_is_rect_rot e mat3_unit = false /\ ~ axis_aligned mat3_zero /\ mat3_is_rect_rot e mat3_zero = true.
Proof.
  intros e He H1. split; [|split; [apply rect_unit; assumption|split; [|apply rect_zero; assumption]]].
  - unfold axis_aligned, mat3_unit, mat3_scale, signed. cbn [m00 m01 m02 m10 m11 m12 m20 m21 m22]. lra.
  - unfold axis_aligned, mat3_zero, signed. cbn [m00 m01 m02 m10 m11 m12 m20 m21 m22]. lra.
Qed.

(** C53: the argument of multmatrix is accepted if it is a list of 2, 3 or 4 rows of 3 or 4 numbers, whose last row is about that of the
    unit matrix; the result is that matrix, and what is missing is taken from the unit matrix.  The assertion fails only if it is no list *)
Theorem C53_multmatrix : forall e v, match get_mat3w e v with
  | Got m => exists f, matrix_arg v f /\ Rabs (f 3%nat 0%nat) < e /\ Rabs (f 3%nat 1%nat) < e /\ Rabs (f 3%nat 2%nat) < e /\ Rabs (f 3%nat 3%nat - 1) < e /\
      m = (MW (M3 (f 0 0) (f 0 1) (f 0 2) (f 1 0) (f 1 1) (f 1 2) (f 2 0) (f 2 1) (f 2 2)) (V3 (f 0 3) (f 1 3) (f 2 3)))%nat
  | Bad => ~ exists f, matrix_arg v f /\ Rabs (f 3%nat 0%nat) < e /\ Rabs (f 3%nat 1%nat) < e /\ Rabs (f 3%nat 2%nat) < e /\ Rabs (f 3%nat 3%nat - 1) < e
  | Abort => forall l, v <> Arr l
  end.
Proof. exact get_mat3w_spec. Qed.
Example C53_multmatrix_example : get_mat3w 1 (Arr [Arr [Num 1; Num 2; Num 3; Num 4]; Arr [Num 5; Num 6; Num 7]]) = Got (MW (M3 1 2 3 5 6 7 0 0 1) (V3 4 0 0)).
Proof.
  unfold get_mat3w. cbn [get_mat4 length Nat.eqb negb andb get_rows get_row get_vec get_floats app]. unfold mat3w_from_mat4, ent, unit_at. cbn [n00 n01 n02 n03 n10 n11 n12 n13 n20 n21 n22 n23 n30 n31 n32 n33 List.nth Nat.eqb].
  unfold cp_eq. rewrite !eq_self by lra. reflexivity.
Qed.
(** although the message says that 2x2 matrices are expected, they are not accepted; and where assertions are checked, a number instead
    of a matrix stops the program *)
Theorem C53_2x2_refuted : forall e, get_mat3w e (Arr [Arr [Num 1; Num 0]; Arr [Num 0; Num 1]]) = Bad /\ get_mat3w e (Num 1) = Abort.
Proof. intros e. split; reflexivity. Qed.

Print Assumptions C49_mul.
Print Assumptions C49_det.
Print Assumptions C49_inv.
Print Assumptions C49_homogeneous.
Print Assumptions C50_transform_partial.
Print Assumptions C50_zero_axis_refuted.
Print Assumptions C52_inv_in_place_partial.
Print Assumptions C52_inv_refuted.
Print Assumptions C52_into_z_partial.
Print Assumptions C52_into_z_refuted.
Print Assumptions C52_rect_rot_refuted.
Print Assumptions C53_multmatrix.
Print Assumptions C53_2x2_refuted.

(** Proofs about matrices *)
From Coq Require Import Reals Bool List Lra Nsatz.
From Verif Require Import Lin_model Lin_spec.
Import ListNotations.
Local Open Scope R_scope.

Ltac vec := unfold vec2w_xform, vec2_xform, vec3w_xform, vec3_xform, vec3_add, vec4_xform, mat2w_mul, mat2_mul, mat3w_mul, mat3_mul, mat4_mul; cbn [x2 y2 vx vy vz q0 q1 q2 q3 a00 a01 a10 a11 m00 m01 m02 m10 m11 m12 m20 m21 m22 n00 n01 n02 n03 n10 n11 n12 n13 n20 n21 n22 n23 n30 n31 n32 n33 wb ww wb2 ww2].
Lemma mul2 a b v : vec2_xform (mat2_mul a b) v = vec2_xform a (vec2_xform b v). Proof. vec. f_equal; ring. Qed.
Lemma mul2w a b v : vec2w_xform (mat2w_mul a b) v = vec2w_xform a (vec2w_xform b v). Proof. vec. f_equal; ring. Qed.
Lemma mul3 a b v : vec3_xform (mat3_mul a b) v = vec3_xform a (vec3_xform b v). Proof. vec. f_equal; ring. Qed.
Lemma mul3w a b v : vec3w_xform (mat3w_mul a b) v = vec3w_xform a (vec3w_xform b v). Proof. vec. f_equal; ring. Qed.
Lemma mul4 a b v : vec4_xform (mat4_mul a b) v = vec4_xform a (vec4_xform b v). Proof. vec. f_equal; ring. Qed.
Lemma M4_eq a a1 b b1 c c1 d d1 e e1 f f1 g g1 h h1 i i1 j j1 k k1 l l1 m m1 n n1 o o1 p p1 :
  a = a1 -> b = b1 -> c = c1 -> d = d1 -> e = e1 -> f = f1 -> g = g1 -> h = h1 -> i = i1 -> j = j1 -> k = k1 -> l = l1 -> m = m1 -> n = n1 -> o = o1 -> p = p1 ->
  M4 a b c d e f g h i j k l m n o p = M4 a1 b1 c1 d1 e1 f1 g1 h1 i1 j1 k1 l1 m1 n1 o1 p1.
Proof. intros; subst; reflexivity. Qed.
(** 3D with translation is 4D with homogeneous coordinates *)
Lemma homog m v : vec4_xform (mat4_from_mat3w m) (V4 (vx v) (vy v) (vz v) 1) = let r := vec3w_xform m v in V4 (vx r) (vy r) (vz r) 1.
Proof. unfold mat4_from_mat3w. vec. f_equal; ring. Qed.
Lemma homog_mul a b : mat4_from_mat3w (mat3w_mul a b) = mat4_mul (mat4_from_mat3w a) (mat4_from_mat3w b).
Proof. destruct a as [[] []], b as [[] []]. unfold mat4_from_mat3w. vec. apply M4_eq; ring. Qed.

(** Determinants *)
Ltac dets := unfold el2, el3, el4, rows; cbn [determinant sum List.nth Nat.ltb Nat.leb pow].
Lemma det2 m : mat2_det m = determinant 2 (el2 m). Proof. unfold mat2_det. dets. ring. Qed.
Lemma det3 m : mat3_det m = determinant 3 (el3 m). Proof. unfold mat3_det. dets. ring. Qed.
Lemma det4 m : mat4_det m = determinant 4 (el4 m). Proof. unfold mat4_det. dets. ring. Qed.
Lemma det3w m : mat3_det (wb m) = determinant 4 (el4 (mat4_from_mat3w m)).
Proof. rewrite <- det4. unfold mat3_det, mat4_det, mat4_from_mat3w. cbn [n00 n01 n02 n03 n10 n11 n12 n13 n20 n21 n22 n23 n30 n31 n32 n33]. ring. Qed.
Lemma det2_mul a b : mat2_det (mat2_mul a b) = mat2_det a * mat2_det b. Proof. unfold mat2_det. vec. ring. Qed.
Lemma det3_mul a b : mat3_det (mat3_mul a b) = mat3_det a * mat3_det b. Proof. unfold mat3_det. vec. ring. Qed.
Lemma det4_mul a b : mat4_det (mat4_mul a b) = mat4_det a * mat4_det b. Proof. unfold mat4_det. vec. ring. Qed.

(** Inverses *)
Lemma eq_false d a b : 0 < d -> cp_e_eq d a b = false -> d <= Rabs (a - b).
Proof. unfold cp_e_eq. destruct Rlt_dec; [discriminate|]. lra. Qed.
Lemma eq_true d a b : cp_e_eq d a b = true -> Rabs (a - b) < d.
Proof. unfold cp_e_eq. destruct Rlt_dec; [auto|discriminate]. Qed.
Lemma abs_neq a d : 0 < d -> d <= Rabs (a - 0) -> a <> 0.
Proof. intros H1 H2 ->. rewrite Rminus_0_r, Rabs_R0 in H2. lra. Qed.

Section Eps.
Variables e e2 : R.
Hypothesis He : 0 < e.
Hypothesis He2 : 0 < e2.

Ltac inv_case := match goal with |- context [cp_sqr_eq e2 ?d 0] => unfold cp_sqr_eq; destruct (cp_e_eq e2 d 0) eqn:E;
  [apply eq_true in E; rewrite Rminus_0_r in E | apply eq_false in E; [|exact He2]; pose proof (abs_neq _ _ He2 E); rewrite Rminus_0_r in E] end.

Lemma inv2 m : (Rabs (mat2_det m) < e2 /\ mat2_inv e2 m = (mat2_zero, 0)) \/
  (e2 <= Rabs (mat2_det m) /\ snd (mat2_inv e2 m) = mat2_det m /\ inverse_of (vec2_xform m) (vec2_xform (fst (mat2_inv e2 m)))).
Proof.
  unfold mat2_inv, mat2_det. cbv zeta. inv_case; [left; auto|right]. split; [auto|]. split; [reflexivity|].
  intros [x y]. destruct m as [a b c d]. cbn [a00 a01 a10 a11] in *. unfold inverse_of. cbn [fst]. vec. split; f_equal; field; auto.
Qed.
Lemma inv2w m : (Rabs (mat2_det (wb2 m)) < e2 /\ mat2w_inv e2 m = (MW2 mat2_zero (V2 0 0), 0)) \/
  (e2 <= Rabs (mat2_det (wb2 m)) /\ snd (mat2w_inv e2 m) = mat2_det (wb2 m) /\ inverse_of (vec2w_xform m) (vec2w_xform (fst (mat2w_inv e2 m)))).
Proof.
  unfold mat2w_inv, mat2_det. cbv zeta. inv_case; [left; auto|right]. split; [auto|]. split; [reflexivity|].
  intros [x y]. destruct m as [[a b c d] [u v]]. cbn [wb2 ww2 x2 y2 a00 a01 a10 a11] in *. cbn [fst]. vec. split; f_equal; field; auto.
Qed.
Lemma inv3 m : (Rabs (mat3_det m) < e2 /\ mat3_inv e2 m = (mat3_zero, 0)) \/
  (e2 <= Rabs (mat3_det m) /\ snd (mat3_inv e2 m) = mat3_det m /\ inverse_of (vec3_xform m) (vec3_xform (fst (mat3_inv e2 m)))).
Proof.
  unfold mat3_inv, mat3_det. cbv zeta. inv_case; [left; auto|right]. split; [auto|]. split; [reflexivity|].
  intros [x y z]. destruct m as [a b c d f g h i j]. cbn [m00 m01 m02 m10 m11 m12 m20 m21 m22] in *. cbn [fst]. vec. split; f_equal; field; auto.
Qed.
Lemma inv3w m : (Rabs (mat3_det (wb m)) < e2 /\ mat3w_inv e2 m = (MW mat3_zero zero3, 0)) \/
  (e2 <= Rabs (mat3_det (wb m)) /\ snd (mat3w_inv e2 m) = mat3_det (wb m) /\ inverse_of (vec3w_xform m) (vec3w_xform (fst (mat3w_inv e2 m)))).
Proof.
  unfold mat3w_inv, mat3_det. cbv zeta. inv_case; [left; auto|right]. split; [auto|]. split; [reflexivity|].
  intros [x y z]. destruct m as [[a b c d f g h i j] [u v w]]. cbn [wb ww vx vy vz m00 m01 m02 m10 m11 m12 m20 m21 m22] in *. cbn [fst]. vec. split; f_equal; field; auto.
Qed.
Lemma inv4 m : (Rabs (mat4_det m) < e2 /\ mat4_inv e2 m = (mat4_zero, 0)) \/
  (e2 <= Rabs (mat4_det m) /\ snd (mat4_inv e2 m) = mat4_det m /\ inverse_of (vec4_xform m) (vec4_xform (fst (mat4_inv e2 m)))).
Proof.
  unfold mat4_inv, mat4_det. cbv zeta. inv_case; [left; auto|right]. split; [auto|]. split; [reflexivity|].
  intros [x y z w]. destruct m as [a b c d f g h i j k l m n o p q]. cbn [n00 n01 n02 n03 n10 n11 n12 n13 n20 n21 n22 n23 n30 n31 n32 n33] in *. cbn [fst]. clear E.
  match goal with H : ?D <> 0 |- _ => set (D0 := D) in *; assert (K : / D0 * D0 = 1) by (apply Rinv_l; exact H); clear H end.
  unfold Rdiv. set (K0 := / D0) in *. clearbody K0. vec.
  assert (X : forall u P, P = (K0 * D0) * u -> P = u) by (intros u P ->; rewrite K; ring).
  split; f_equal; apply X; unfold D0; clear; ring.
Qed.
End Eps.

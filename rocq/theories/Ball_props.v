(** C51: slicing spheres and ellipsoids *)
From Coq Require Import Reals Bool List Lra.
From Verif Require Import Lin_model Lin_spec Lin_proofs Lin_proofs2 Ball_model Ball_spec Ball_proofs.
Import ListNotations.
Local Open Scope R_scope.

(** The ellipse in which a plane cuts the ellipsoid is found exactly: it contains exactly the points of the ellipsoid at that height.
    Nothing is added only if the plane misses the ellipsoid, shrunk by the tolerance.  Conditions: the normal of the plane, as seen from the
    unit sphere, comes out with at least the length of the tolerance, and is either vertical or clearly not. *)
Theorem C51_slice_partial : forall e e2 d z, 0 < e -> 0 < e2 -> e2 <= e -> e <= 1 -> proper d -> e <= norm (normal (bwd d)) -> decided e (normal (bwd d)) ->
  match sphere_layer e e2 z d with
  | Stop => False
  | Nothing => forall q, inner q q <= (1 - e) * (1 - e) -> vz (affine (fwd d) q) <> z
  | Circle m => forall x y, on_ellipse m x y <-> on_ellipsoid (fwd d) (V3 x y z)
  end.
Proof. intros e e2 d z H1 H2 H3 H4. apply slice; assumption. Qed.
(** the sphere of radius 10 *)
Example C51_slice_partial_example : let d := mat3wi_scale (/ 2 ^ 15) 10 10 10 in
  proper d /\ / 2 ^ 15 <= norm (normal (bwd d)) /\ decided (/ 2 ^ 15) (normal (bwd d)).
Proof.
  cbv zeta. assert (E : 0 < / 2 ^ 15 < 1/1000) by (split; [apply Rinv_0_lt_compat; lra|apply (Rmult_lt_reg_l (2 ^ 15)); [lra|]; rewrite Rinv_r; lra]).
  assert (A : / 2 ^ 15 <= Rabs 10) by (rewrite Rabs_pos_eq; lra). split; [apply (proper_scale (/ 2 ^ 15) (proj1 E) 10 10 10); assumption|].
  assert (N : normal (bwd (mat3wi_scale (/ 2 ^ 15) 10 10 10)) = V3 0 0 (1/100)).
  { unfold normal, lin, mat3wi_scale, mat3_scale, zero3, ex, ey, affine, plus, times, cross. cbn [bwd wb ww vx vy vz m00 m01 m02 m10 m11 m12 m20 m21 m22].
    rewrite div0_big by assumption. f_equal; field. }
  rewrite N. split; [|left; split; reflexivity].
  unfold norm, inner. cbn [vx vy vz]. rewrite !Rmult_0_l, !Rplus_0_l, sqrt_square; lra.
Qed.

(** Without the condition about the length of the normal, it is false: a sphere of radius 300, turned around the x axis, is cut in the middle
    as an ellipse of half the height 240, with the default tolerances.  (The angle has the sine 3/5; it could be any.) *)
Theorem C51_big_sphere_refuted : exists d m,
  csg3_run (/ 2 ^ 15) (/ 2 ^ 30) (mat3wi_unit (/ 2 ^ 15)) [RotXYZ (3/5) (4/5) 0 1 0 1; Scale (V3 300 300 300)] = Go d /\ proper d /\
  sphere_layer (/ 2 ^ 15) (/ 2 ^ 30) 0 d = Circle m /\ on_ellipse m 0 240 /\ ~ on_ellipse m 0 300 /\
  on_ellipsoid (fwd d) (V3 0 300 0) /\ ~ on_ellipsoid (fwd d) (V3 0 240 0).
Proof.
  assert (E : / 32769 < / 2 ^ 15 < / 32767) by (split; apply Rinv_lt_contravar; lra).
  assert (E2 : 0 < / 2 ^ 30 < / 1000000000) by (split; [apply Rinv_0_lt_compat; lra|apply Rinv_lt_contravar; lra]).
  set (e := / 2 ^ 15) in *. set (e2 := / 2 ^ 30) in *. clearbody e e2.
  assert (He : 0 < e) by lra. assert (H1 : e <= 1) by lra. assert (He2 : 0 < e2) by lra.
  assert (A1 : e <= Rabs 1) by (rewrite Rabs_R1; assumption). assert (A300 : e <= Rabs 300) by (rewrite Rabs_pos_eq; lra).
  assert (S1 : vec2_has_len0_or_1 e e2 0 1 = true) by (apply sc_assert; [assumption|ring]).
  assert (S2 : vec2_has_len0_or_1 e e2 (3/5) (4/5) = true) by (apply sc_assert; [assumption|field]).
  assert (G : good_scale e (V3 300 300 300) = true) by (unfold good_scale, cp_eq; cbn [vx vy vz]; rewrite eq_big by assumption; reflexivity).
  cbn [csg3_run csg3_step]. unfold mat3_rot_x, mat3_rot_y, mat3_rot_z. rewrite S1, S2, G. cbn [vx vy vz].
  set (d := mat3wi_mul _ (mat3wi_scale e 300 300 300)).
  assert (P : proper d).
  { unfold d. apply proper_mul; [|apply proper_scale; assumption]. apply proper_mul; [apply proper_unit; assumption|].
    destruct (rot_axes e e2 He2 0 1 ltac:(ring)) as (x & y & z & _ & Y & Z & _ & PY & PZ & _). destruct (rot_axes e e2 He2 (3/5) (4/5) ltac:(field)) as (x' & y' & z' & X & _ & _ & PX & _).
    unfold mat3_rot_x, mat3_rot_y, mat3_rot_z in X, Y, Z. rewrite S1 in Y, Z. rewrite S2 in X. apply some_inj in X, Y, Z. subst x' y z. repeat apply proper_mul; assumption. }
  assert (Df : forall p, affine (fwd d) p = V3 (300 * vx p) (240 * vy p - 180 * vz p) (180 * vy p + 240 * vz p)).
  { intros p. unfold d. rewrite !fwd_mul. rewrite (proj2 (proper_unit e He H1)). rewrite (proj2 (proper_scale e He 300 300 300 A300 A300 A300)).
    unfold mat3wi_rot, scale, affine, zero3. cbn [fwd wb ww vx vy vz m00 m01 m02 m10 m11 m12 m20 m21 m22]. f_equal; field. }
  assert (Db : forall p, vec3w_xform (bwd d) p = V3 (vx p / 300) (vy p / 375 + vz p / 500) (vz p / 375 - vy p / 500)).
  { intros p. destruct P as [I _]. rewrite affine_is. rewrite <- (proj1 (I (V3 (vx p / 300) (vy p / 375 + vz p / 500) (vz p / 375 - vy p / 500)))). f_equal. rewrite Df. destruct p as [a b c]. cbn [vx vy vz]. f_equal; field. }
  exists d. clearbody d.
  assert (F : vec3_right_normal3 e e2 (vec3w_xform (bwd d) (V3 1 0 0)) (vec3w_xform (bwd d) (V3 0 0 0)) (vec3w_xform (bwd d) (V3 0 1 0)) = (V3 0 0 0, true)).
  { rewrite !Db. unfold vec3_right_normal3, vec3_normal, vec3_sub. cbn [vx vy vz].
    set (c := vec3_cross _ _). assert (C : c = V3 0 (/ 150000) (/ 112500)) by (unfold c, vec3_cross; cbn [vx vy vz]; f_equal; field). clearbody c. subst c.
    unfold vec3_unit. assert (L : vec3_len (V3 0 (/ 150000) (/ 112500)) = / 90000).
    { unfold vec3_len, vec3_sqr_len, vec3_dot. cbn [vx vy vz]. replace (0 * 0 + / 150000 * / 150000 + / 112500 * / 112500) with (/ 90000 * / 90000) by field. apply sqrt_square. lra. }
    rewrite L. unfold cp_sqr_eq. rewrite eq_big by (rewrite Rabs_pos_eq; lra). cbn [negb].
    unfold vec3_div, cp_div0, cp_eq. rewrite eq_small by (rewrite Rabs_pos_eq; lra). reflexivity. }
  unfold sphere_layer. cbv zeta. rewrite F. cbn [negb].
  assert (Z : mat3wi_rot_into_z e e2 (V3 0 0 0) = Some (mat3wi_unit e, false)).
  { unfold mat3wi_rot_into_z, vec3_unit. assert (L : vec3_len (V3 0 0 0) = 0) by (unfold vec3_len, vec3_sqr_len, vec3_dot; cbn [vx vy vz]; rewrite Rmult_0_l, !Rplus_0_l; apply sqrt_0).
    rewrite L. unfold cp_sqr_eq. rewrite eq_self by assumption. reflexivity. }
  rewrite Z. rewrite (affine_is (fwd (mat3wi_unit e))), (proj2 (proper_unit e He H1)), Db. cbn [vx vy vz].
  replace (0 / 375 - 0 / 500) with 0 by field. rewrite Rabs_R0. unfold cp_ge, cp_e_le. destruct Rlt_dec as [X|_]; [lra|].
  replace (1 - 0 * 0) with 1 by ring. rewrite sqrt_1. eexists. split; [reflexivity|]. split; [exact P|]. split; [reflexivity|].
  set (q := fwd (mat3wi_mul d _)).
  assert (Q : forall p, affine q p = affine (fwd d) p).
  { intros p. unfold q. rewrite !fwd_mul. f_equal. unfold mat3wi_inv. cbn [fwd].
    destruct (proper_unit e He H1) as [[U1 _] U2]. rewrite <- (U2 (affine (bwd (mat3wi_unit e)) _)), (proj2 (U1 _)).
    rewrite (proj2 (proper_xlat _ _ _)), (proj2 (proper_scale e He 1 1 1 A1 A1 A1)). unfold translate, scale, plus. destruct p as [a b c]. cbn [vx vy vz]. f_equal; ring. }
  clearbody q.
  assert (El : forall x y, on_ellipse (mat2w_from_mat3w q) x y <-> exists c s, c * c + s * s = 1 /\ 300 * c = x /\ 240 * s = y).
  { intros x y. assert (K : forall c s, a00 (wb2 (mat2w_from_mat3w q)) * c + a01 (wb2 (mat2w_from_mat3w q)) * s + x2 (ww2 (mat2w_from_mat3w q)) = 300 * c /\
                                a10 (wb2 (mat2w_from_mat3w q)) * c + a11 (wb2 (mat2w_from_mat3w q)) * s + y2 (ww2 (mat2w_from_mat3w q)) = 240 * s).
    { intros c s. pose proof (Q (V3 c s 0)) as K. rewrite Df in K. cbn [vx vy vz] in K. unfold affine in K. cbn [vx vy vz] in K. injection K as K1 K2 K3.
      unfold mat2w_from_mat3w. cbn [wb2 ww2 a00 a01 a10 a11 x2 y2]. split; lra. }
    unfold on_ellipse. split; intros (c & s & B1 & B2 & B3); exists c, s; (split; [exact B1|]); [rewrite (proj1 (K c s)) in B2; rewrite (proj2 (K c s)) in B3; auto|rewrite (proj1 (K c s)), (proj2 (K c s)); auto]. }
  split; [|split; [|split]].
  - apply El. exists 0, 1. split; [ring|]. split; ring.
  - intros H. apply El in H. destruct H as (c & s & B1 & B2 & B3). assert (c = 0) by lra. assert (s = 5/4) by lra. subst c s. lra.
  - exists (V3 0 (4/5) (- (3/5))). split; [unfold inner; cbn [vx vy vz]; field|]. rewrite Df. cbn [vx vy vz]. f_equal; field.
  - intros (p & B1 & B2). rewrite Df in B2. injection B2 as K1 K2 K3. unfold inner in B1. assert (X : vx p = 0) by lra. assert (Y : vy p = 16/25) by lra. assert (W : vz p = -12/25) by lra. rewrite X, Y, W in B1. lra.
Qed.

Print Assumptions C51_slice_partial.
Print Assumptions C51_big_sphere_refuted.

(** Proofs about slicing an ellipsoid *)
From Coq Require Import Reals Bool List Lra Nsatz.
From Verif Require Import Lin_model Lin_spec Lin_proofs Lin_proofs2 Ball_model Ball_spec.
Local Open Scope R_scope.

Lemma norm_times k v : 0 <= k -> norm (times k v) = k * norm v.
Proof.
  intros H. unfold norm. replace (inner (times k v) (times k v)) with ((k * k) * inner v v) by (unfold inner, times; cbn [vx vy vz]; ring).
  rewrite sqrt_mult by (try apply inner_nonneg; nra). f_equal. apply sqrt_square. assumption.
Qed.
Lemma sub_lin m x y z a b c : vec3_sub (vec3w_xform m (V3 (x + a) (y + b) (z + c))) (vec3w_xform m (V3 x y z)) = lin m (V3 a b c).
Proof. unfold vec3_sub, vec3w_xform, vec3_add, vec3_xform, lin, affine, plus, times. cbn [vx vy vz]. f_equal; ring. Qed.

Section Eps.
Variables e e2 : R.
Hypothesis He : 0 < e.
Hypothesis He2 : 0 < e2.
Hypothesis Hle : e2 <= e.
Hypothesis He1 : e <= 1.

Lemma unit_flag v : e2 <= norm v -> snd (vec3_unit e e2 v) = true.
Proof. intros H. unfold vec3_unit. cbn [snd]. change (vec3_len v) with (norm v). unfold cp_sqr_eq. rewrite eq_big; [reflexivity|]. rewrite Rabs_pos_eq; [assumption|apply norm_nonneg]. Qed.

Lemma into_z_exact u : inner u u = 1 -> decided e u ->
  exists m, dim3_rot_unit_into_z e e2 u = Some m /\ ortho m /\ m20 m = vx u /\ m21 m = vy u /\ m22 m = vz u.
Proof.
  intros H D. unfold dim3_rot_unit_into_z. rewrite unit_assert by assumption. destruct u as [x y z]. unfold inner in H. cbn [vx vy vz] in *.
  assert (N : norm (V3 x y z) = 1) by (apply norm_axis; assumption).
  unfold decided in D. rewrite N, Rmult_1_r in D. cbn [vx vy] in D.
  destruct D as [[-> ->]|D].
  - unfold cp_eq. rewrite eq_self by assumption. cbn [andb]. eexists. split; [reflexivity|].
    split; [|repeat split]. unfold ortho, mat3_trans, mat3_mul, mat3_unit, mat3_scale. cbn [m00 m01 m02 m10 m11 m12 m20 m21 m22].
    split; apply M3_eq; nsatz.
  - assert (E : cp_eq e x 0 && cp_eq e y 0 = false).
    { unfold cp_eq. destruct D as [D|D]; rewrite (eq_big e _ D); [reflexivity|apply andb_false_r]. }
    rewrite E. eexists. split; [reflexivity|]. cbn [m20 m21 m22]. split; [|auto].
    assert (P : 0 < x * x + y * y).
    { pose proof (Rle_0_sqr x). pose proof (Rle_0_sqr y). unfold Rsqr in *.
      assert (x <> 0 \/ y <> 0) as [K|K] by (destruct D as [D|D]; [left|right]; intros ->; rewrite Rabs_R0 in D; lra); apply Rsqr_pos_lt in K; unfold Rsqr in K; lra. }
    pose proof (sqrt_lt_R0 _ P) as K. pose proof (sqrt_def _ (Rlt_le _ _ P)) as S. set (k := sqrt (x * x + y * y)) in *. clearbody k.
    assert (I : / k * k = 1) by (apply Rinv_l; lra). unfold Rdiv. set (i := / k) in *. clearbody i. clear N D E P K.
    assert (Z : z * z = 1 - k * k) by lra. assert (Y : y * y = k * k - x * x) by lra. clear S H.
    unfold ortho, mat3_trans, mat3_mul, mat3_unit, mat3_scale. cbn [m00 m01 m02 m10 m11 m12 m20 m21 m22].
    split; apply M3_eq; nsatz.
Qed.

Lemma decided_times k v : 0 < k -> decided e v -> decided e (times k v).
Proof.
  intros H [[A B]|D]; unfold decided; rewrite norm_times by lra; unfold times; cbn [vx vy vz].
  - left. rewrite A, B. split; ring.
  - right. rewrite !Rabs_mult, (Rabs_pos_eq k) by lra. destruct D as [D|D]; [left|right];
    (apply (Rmult_le_compat_l k) in D; [|lra]; lra).
Qed.

(** the plane *)
Lemma lin_spec m a b c : lin m (V3 a b c) = plus (plus (times a (lin m ex)) (times b (lin m ey))) (times c (lin m ez)).
Proof. unfold lin, affine, plus, times, ex, ey, ez. cbn [vx vy vz]. f_equal; ring. Qed.
Lemma affine_lin m z p : affine m p = plus (affine m (V3 0 0 z)) (lin m (V3 (vx p) (vy p) (vz p - z))).
Proof. unfold lin, affine, plus, times. cbn [vx vy vz]. f_equal; ring. Qed.
Lemma inner_plus a b c : inner a (plus b c) = inner a b + inner a c. Proof. unfold inner, plus. cbn [vx vy vz]. ring. Qed.
Lemma inner_times a k c : inner a (times k c) = k * inner a c. Proof. unfold inner, times. cbn [vx vy vz]. ring. Qed.
Lemma cross_l a b : inner (cross a b) a = 0. Proof. unfold inner, cross. cbn [vx vy vz]. ring. Qed.
Lemma cross_r a b : inner (cross a b) b = 0. Proof. unfold inner, cross. cbn [vx vy vz]. ring. Qed.
Lemma plane_dist m z p : inner (normal m) (affine m p) = inner (normal m) (affine m (V3 0 0 z)) + (vz p - z) * inner (normal m) (lin m ez).
Proof. rewrite (affine_lin m z p), inner_plus, lin_spec, !inner_plus, !inner_times. unfold normal. rewrite cross_l, cross_r. ring. Qed.
Lemma normal_ez f g : inverse_of (affine f) (affine g) -> 0 < norm (normal g) -> inner (normal g) (lin g ez) <> 0.
Proof.
  intros I N E. pose proof (norm_sqr (normal g)) as S.
  pose proof (plane_dist g 0 (affine f (plus (affine g (V3 0 0 0)) (normal g)))) as P. rewrite (proj1 (I _)), E, Rmult_0_r, Rplus_0_r, inner_plus in P.
  assert (inner (normal g) (normal g) = 0) by lra. nra.
Qed.

Lemma ortho_inner m p q : ortho m -> inner (vec3_xform m p) (vec3_xform m q) = inner p q.
Proof.
  intros [O _]. transitivity (inner p (vec3_xform (mat3_mul (mat3_trans m) m) q)).
  - rewrite mul3. unfold inner, vec3_xform, mat3_trans. cbn [vx vy vz m00 m01 m02 m10 m11 m12 m20 m21 m22]. ring.
  - rewrite O. unfold inner, vec3_xform, mat3_unit, mat3_scale. cbn [vx vy vz m00 m01 m02 m10 m11 m12 m20 m21 m22]. ring.
Qed.
Lemma unit_xform p : vec3_xform mat3_unit p = p.
Proof. destruct p as [x y z]. unfold vec3_xform, mat3_unit, mat3_scale. cbn [vx vy vz m00 m01 m02 m10 m11 m12 m20 m21 m22]. f_equal; ring. Qed.
Lemma xform0 m p : affine (MW m zero3) p = vec3_xform m p.
Proof. unfold affine, vec3_xform, zero3. cbn [wb ww vx vy vz]. f_equal; ring. Qed.
Lemma trans_trans m : mat3_trans (mat3_trans m) = m. Proof. destruct m. reflexivity. Qed.
Lemma ortho_trans m : ortho m -> ortho (mat3_trans m).
Proof. intros [A B]. split; rewrite trans_trans; assumption. Qed.

Lemma slice d z : proper d -> e <= norm (normal (bwd d)) -> decided e (normal (bwd d)) ->
  match sphere_layer e e2 z d with
  | Stop => False
  | Nothing => forall q, inner q q <= (1 - e) * (1 - e) -> vz (affine (fwd d) q) <> z
  | Circle m => forall x y, on_ellipse m x y <-> on_ellipsoid (fwd d) (V3 x y z)
  end.
Proof.
  intros [I _] Hn Hd. unfold sphere_layer. cbv zeta.
  unfold vec3_right_normal3.
  replace (vec3_sub (vec3w_xform (bwd d) (V3 1 0 z)) (vec3w_xform (bwd d) (V3 0 0 z))) with (lin (bwd d) ex) by (unfold ex; rewrite <- (sub_lin (bwd d) 0 0 z), !Rplus_0_r, !Rplus_0_l; reflexivity).
  replace (vec3_sub (vec3w_xform (bwd d) (V3 0 1 z)) (vec3w_xform (bwd d) (V3 0 0 z))) with (lin (bwd d) ey) by (unfold ey; rewrite <- (sub_lin (bwd d) 0 0 z), !Rplus_0_r, !Rplus_0_l; reflexivity).
  unfold vec3_normal. change (vec3_cross (lin (bwd d) ex) (lin (bwd d) ey)) with (normal (bwd d)).
  pose proof (unit_flag (normal (bwd d)) ltac:(lra)) as F. pose proof (unit_ok e e2 He (normal (bwd d)) Hn) as U.
  destruct (vec3_unit e e2 (normal (bwd d))) as [sn ok]. cbn [fst snd] in F, U. subst ok sn. cbn [negb].
  set (N := normal (bwd d)) in *. assert (N0 : norm N <> 0) by lra. assert (Np : 0 < / norm N) by (apply Rinv_0_lt_compat; lra).
  set (u := times (/ norm N) N) in *. pose proof (unit_len N N0) as L. cbv zeta in L. fold u in L.
  assert (Nu : norm u = 1) by (unfold norm; rewrite L; apply sqrt_1).
  unfold mat3wi_rot_into_z. pose proof (unit_flag u ltac:(lra)) as F. pose proof (unit_ok e e2 He u ltac:(lra)) as U.
  destruct (vec3_unit e e2 u) as [u' ok]. cbn [fst snd] in F, U. subst ok u'.
  replace (times (/ norm u) u) with u by (rewrite Nu, Rinv_1; unfold times; destruct u as [a b c]; cbn [vx vy vz]; f_equal; ring).
  destruct (into_z_exact u L (decided_times _ _ Np Hd)) as (m & -> & O & R0 & R1 & R2). cbn [option_map].
  set (sb := vec3w_xform (bwd d) (V3 0 0 z)).
  assert (Hu : forall q, vz (vec3_xform m q) = inner u q) by (intros q; unfold vec3_xform, inner; cbn [vz]; rewrite R0, R1, R2; reflexivity).
  assert (Hsq : vz (vec3w_xform (fwd (mat3wi_rot m)) sb) = inner u sb) by (cbn [fwd mat3wi_rot]; rewrite affine_is, xform0; apply Hu).
  rewrite Hsq. set (h := inner u sb) in *.
  assert (K : inner N (lin (bwd d) ez) <> 0) by (apply (normal_ez (fwd d)); [assumption|fold N; lra]).
  assert (Pl : forall q, inner u q = h <-> vz (affine (fwd d) q) = z).
  { intros q. pose proof (plane_dist (bwd d) z (affine (fwd d) q)) as P. rewrite (proj1 (I q)) in P. fold N in P. change (affine (bwd d) (V3 0 0 z)) with sb in P.
    unfold h, u. assert (T : forall a, inner (times (/ norm N) N) a = / norm N * inner N a) by (intros a; unfold inner, times; cbn [vx vy vz]; ring). rewrite !T.
    split; intros E.
    - apply Rmult_eq_reg_l in E; [|lra]. assert (Z : (vz (affine (fwd d) q) - z) * inner N (lin (bwd d) ez) = 0) by lra.
      apply Rmult_integral in Z. destruct Z; [lra|contradiction].
    - rewrite P, E. f_equal. ring. }
  assert (Hcs : forall q, (inner u q) * (inner u q) <= inner q q).
  { intros q. rewrite <- (ortho_inner m q q O), <- Hu. unfold inner. pose proof (Rle_0_sqr (vx (vec3_xform m q))). pose proof (Rle_0_sqr (vy (vec3_xform m q))). unfold Rsqr in *. lra. }
  unfold cp_ge, cp_e_le. destruct (Rlt_dec (1 - Rabs h) e) as [G|G].
  - intros q Hq Hz. apply Pl in Hz. specialize (Hcs q). rewrite Hz in Hcs. pose proof (Rabs_pos h).
    assert (A : h * h = Rabs h * Rabs h) by (rewrite <- Rabs_mult; symmetry; apply Rabs_pos_eq, Rle_0_sqr). nra.
  - assert (A : Rabs h * Rabs h = h * h) by (rewrite <- Rabs_mult; apply Rabs_pos_eq, Rle_0_sqr).
    pose proof (Rabs_pos h) as B. rewrite A. assert (D : 0 < 1 - h * h) by (rewrite <- A; nra).
    pose proof (sqrt_lt_R0 _ D) as Rp. pose proof (sqrt_def _ (Rlt_le _ _ D)) as Rs. set (rad := sqrt (1 - h * h)) in *. clearbody rad.
    cbn [fwd bwd mat3wi_inv mat3wi_rot mat3w_trans wb].
    assert (Pt : forall x y, on_ellipse (mat2w_from_mat3w (fwd (mat3wi_mul d (mat3wi_mul (mat3wi_inv e None (mat3wi_rot m)) (mat3wi_mul (mat3wi_xlat 0 0 h) (mat3wi_scale e rad rad 1)))))) x y <->
       exists c s, c * c + s * s = 1 /\ vx (affine (fwd d) (vec3_xform (mat3_trans m) (V3 (rad * c) (rad * s) h))) = x /\ vy (affine (fwd d) (vec3_xform (mat3_trans m) (V3 (rad * c) (rad * s) h))) = y).
    { intros x y. unfold on_ellipse.
      assert (X : forall q c s, a00 (wb2 (mat2w_from_mat3w q)) * c + a01 (wb2 (mat2w_from_mat3w q)) * s + x2 (ww2 (mat2w_from_mat3w q)) = vx (affine q (V3 c s 0)) /\
                                a10 (wb2 (mat2w_from_mat3w q)) * c + a11 (wb2 (mat2w_from_mat3w q)) * s + y2 (ww2 (mat2w_from_mat3w q)) = vy (affine q (V3 c s 0))).
      { intros q c s. unfold mat2w_from_mat3w, affine. cbn [wb2 ww2 a00 a01 a10 a11 x2 y2 vx vy vz]. split; ring. }
      assert (Y : forall c s, affine (fwd (mat3wi_mul d (mat3wi_mul (mat3wi_inv e None (mat3wi_rot m)) (mat3wi_mul (mat3wi_xlat 0 0 h) (mat3wi_scale e rad rad 1))))) (V3 c s 0) =
                   affine (fwd d) (vec3_xform (mat3_trans m) (V3 (rad * c) (rad * s) h))).
      { intros c s. rewrite !fwd_mul. f_equal. change (fwd (mat3wi_inv e None (mat3wi_rot m))) with (MW (mat3_trans m) zero3). rewrite xform0. f_equal.
        unfold mat3wi_xlat, mat3w_xlat, mat3_unit, mat3wi_scale, mat3_scale, affine, zero3. cbn [fwd wb ww vx vy vz m00 m01 m02 m10 m11 m12 m20 m21 m22]. f_equal; ring. }
      split; intros (c & s & H1 & H2 & H3); exists c, s; (split; [exact H1|]).
      - rewrite (proj1 (X _ _ _)) in H2. rewrite (proj2 (X _ _ _)) in H3. rewrite Y in H2, H3. split; assumption.
      - rewrite (proj1 (X _ _ _)), (proj2 (X _ _ _)), Y. split; assumption. }
    intros x y. split; intros H.
    + apply Pt in H. destruct H as (c & s & H1 & H2 & H3). set (q := vec3_xform (mat3_trans m) (V3 (rad * c) (rad * s) h)) in *.
      exists q. split.
      * unfold q. rewrite ortho_inner by (apply ortho_trans; assumption). unfold inner. cbn [vx vy vz].
        transitivity (rad * rad * (c * c + s * s) + h * h); [ring|]. rewrite H1, Rs. ring.
      * assert (Z : vz (affine (fwd d) q) = z).
        { apply Pl. rewrite <- Hu. unfold q. rewrite <- mul3, (proj2 O), unit_xform. reflexivity. }
        destruct (affine (fwd d) q) as [px py pz]. cbn [vx vy vz] in *. subst. reflexivity.
    + destruct H as (q & H1 & H2). apply Pt. pose proof (proj2 (Pl q)) as E. rewrite H2 in E. specialize (E eq_refl).
      set (w := vec3_xform m q). assert (W : vz w = h) by (unfold w; rewrite Hu; assumption).
      assert (WW : inner w w = 1) by (unfold w; rewrite ortho_inner by assumption; assumption).
      assert (Q : vec3_xform (mat3_trans m) w = q) by (unfold w; rewrite <- mul3, (proj1 O); apply unit_xform).
      exists (vx w / rad), (vy w / rad). split.
      * unfold inner in WW. rewrite W in WW. apply (Rmult_eq_reg_r (rad * rad)); [|nra]. transitivity (vx w * vx w + vy w * vy w); [field; lra|lra].
      * replace (V3 (rad * (vx w / rad)) (rad * (vy w / rad)) h) with w; [rewrite Q, H2; split; reflexivity|].
        destruct w as [a b c]. cbn [vx vy vz] in *. subst c. f_equal; field; lra.
Qed.
End Eps.

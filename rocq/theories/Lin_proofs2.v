(** Proofs about transformations *)
From Coq Require Import Reals Bool List Lra Nsatz.
From Verif Require Import Lin_model Lin_spec Lin_proofs.
Import ListNotations.
Local Open Scope R_scope.

Lemma affine_is m p : vec3w_xform m p = affine m p. Proof. reflexivity. Qed.
Lemma inner_nonneg a : 0 <= inner a a. Proof. unfold inner. pose proof (Rle_0_sqr (vx a)). pose proof (Rle_0_sqr (vy a)). pose proof (Rle_0_sqr (vz a)). unfold Rsqr in *. lra. Qed.
Lemma norm_sqr a : norm a * norm a = inner a a. Proof. apply sqrt_def, inner_nonneg. Qed.
Lemma norm_nonneg a : 0 <= norm a. Proof. apply sqrt_pos. Qed.
Lemma abs_le_norm a : Rabs (vx a) <= norm a /\ Rabs (vy a) <= norm a /\ Rabs (vz a) <= norm a.
Proof.
  pose proof (Rle_0_sqr (vx a)). pose proof (Rle_0_sqr (vy a)). pose proof (Rle_0_sqr (vz a)). unfold Rsqr in *.
  unfold norm, inner. rewrite <- !sqrt_Rsqr_abs. unfold Rsqr. split; [|split]; apply sqrt_le_1_alt; lra.
Qed.
Lemma div_eq a l : l <> 0 -> a / l = / l * a. Proof. intros. field. auto. Qed.
Lemma some_inj {A} (a b : A) : Some a = Some b -> a = b. Proof. congruence. Qed.

Section Eps.
Variables e e2 : R.
Hypothesis He : 0 < e.
Hypothesis He2 : 0 < e2.

Lemma eq_self d a : 0 < d -> cp_e_eq d a a = true.
Proof. intros. unfold cp_e_eq. rewrite Rminus_diag_eq, Rabs_R0 by reflexivity. destruct Rlt_dec; [reflexivity|contradiction]. Qed.
Lemma eq_big d a : d <= Rabs a -> cp_e_eq d a 0 = false.
Proof. intros. unfold cp_e_eq. rewrite Rminus_0_r. destruct Rlt_dec; [lra|reflexivity]. Qed.
Lemma eq_small d a : Rabs a < d -> cp_e_eq d a 0 = true.
Proof. intros. unfold cp_e_eq. rewrite Rminus_0_r. destruct Rlt_dec; [reflexivity|lra]. Qed.
Lemma div0_big a l : e <= Rabs l -> cp_div0 e a l = a / l.
Proof. intros. unfold cp_div0, cp_eq. rewrite eq_big by assumption. reflexivity. Qed.
Lemma abs_nz l : e <= Rabs l -> l <> 0.
Proof. intros H ->. rewrite Rabs_R0 in H. lra. Qed.
Lemma unit_ok v : e <= norm v -> fst (vec3_unit e e2 v) = times (/ norm v) v.
Proof.
  intros H. unfold vec3_unit, vec3_div. change (vec3_len v) with (norm v).
  assert (K : e <= Rabs (norm v)) by (rewrite Rabs_pos_eq; [assumption|apply norm_nonneg]).
  cbn [fst]. rewrite !div0_big by assumption. unfold times. apply abs_nz in K. f_equal; apply div_eq; assumption.
Qed.
Lemma unit_len v : norm v <> 0 -> let u := times (/ norm v) v in inner u u = 1.
Proof.
  intros H. pose proof (norm_sqr v). unfold times, inner in *. cbn [vx vy vz] in *.
  transitivity ((vx v * vx v + vy v * vy v + vz v * vz v) * (/ norm v * / norm v)); [ring|]. rewrite <- H0. field. assumption.
Qed.
Lemma unit_assert u : inner u u = 1 -> vec3_has_len0_or_1 e e2 u = true.
Proof. intros H. unfold vec3_has_len0_or_1. change (vec3_sqr_len u) with (inner u u). rewrite H. unfold cp_sqr_eq. rewrite eq_self by assumption. apply orb_true_r. Qed.
Lemma sc_assert s c : s * s + c * c = 1 -> vec2_has_len0_or_1 e e2 s c = true.
Proof. intros H. unfold vec2_has_len0_or_1. rewrite H. unfold cp_sqr_eq. rewrite eq_self by assumption. apply orb_true_r. Qed.
Lemma len0_false v : vec3_has_len0 e v = false -> e <= norm v /\ ~ near e v (V3 0 0 0).
Proof.
  unfold vec3_has_len0, cp_eq. intros H. pose proof (abs_le_norm v) as (A & B & C).
  assert (K : e <= Rabs (vx v) \/ e <= Rabs (vy v) \/ e <= Rabs (vz v)).
  { apply andb_false_iff in H. destruct H as [H|H]; [apply andb_false_iff in H; destruct H as [H|H]|]; apply eq_false in H; try assumption; rewrite Rminus_0_r in H; auto. }
  split; [lra|]. intros (D & E & F). cbn [vx vy vz] in *. rewrite Rminus_0_r in *. lra.
Qed.
Lemma len0_true v : vec3_has_len0 e v = true -> near e v (V3 0 0 0).
Proof. unfold vec3_has_len0, cp_eq. intros H. apply andb_true_iff in H. destruct H as [H C]. apply andb_true_iff in H. destruct H as [A B]. apply eq_true in A, B, C. split; [|split]; assumption. Qed.

(** products *)
Lemma proper_mul a b : proper a -> proper b -> proper (mat3wi_mul a b).
Proof.
  intros [A1 A2] [B1 B2]. split.
  - intros p. unfold mat3wi_mul. cbn [fwd bwd]. rewrite <- !affine_is, !mul3w, !affine_is. split.
    + rewrite (proj1 (A1 _)). apply B1.
    + rewrite (proj2 (B1 _)). apply A1.
  - unfold mat3wi_mul. cbn [fwd idet]. rewrite A2, B2, <- !det3. cbn [wb mat3w_mul]. symmetry. apply det3_mul.
Qed.
Lemma fwd_mul a b p : affine (fwd (mat3wi_mul a b)) p = affine (fwd a) (affine (fwd b) p).
Proof. cbn [fwd mat3wi_mul]. rewrite <- !affine_is. apply mul3w. Qed.

Ltac aff := unfold affine, plus, times, inner, cross; cbn [vx vy vz wb ww m00 m01 m02 m10 m11 m12 m20 m21 m22 fwd bwd idet].
Lemma proper_xlat x y z : proper (mat3wi_xlat x y z) /\ forall p, affine (fwd (mat3wi_xlat x y z)) p = translate (V3 x y z) p.
Proof.
  unfold mat3wi_xlat, mat3w_xlat, mat3_unit, mat3_scale, translate. split; [split|].
  - intros [a b c]. aff. split; f_equal; ring.
  - rewrite <- det3. unfold mat3_det. aff. ring.
  - intros [a b c]. aff. f_equal; ring.
Qed.
Lemma proper_scale x y z : e <= Rabs x -> e <= Rabs y -> e <= Rabs z ->
  proper (mat3wi_scale e x y z) /\ forall p, affine (fwd (mat3wi_scale e x y z)) p = scale (V3 x y z) p.
Proof.
  intros Hx Hy Hz. unfold mat3wi_scale, mat3_scale, scale. rewrite !div0_big by assumption. apply abs_nz in Hx, Hy, Hz. split; [split|].
  - intros [a b c]. aff. unfold zero3. cbn [vx vy vz]. split; f_equal; field; auto.
  - rewrite <- det3. unfold mat3_det. aff. ring.
  - intros [a b c]. aff. unfold zero3. cbn [vx vy vz]. f_equal; ring.
Qed.
Lemma proper_unit : e <= 1 -> proper (mat3wi_unit e) /\ forall p, affine (fwd (mat3wi_unit e)) p = p.
Proof.
  intros H. destruct (proper_scale 1 1 1) as [A B]; [rewrite Rabs_R1; assumption..|]. split; [exact A|].
  intros [x y z]. etransitivity; [apply B|]. unfold scale. cbn [vx vy vz]. f_equal; ring.
Qed.
(** orthogonal matrices *)
Definition ortho (m : mat3) : Prop := mat3_mul (mat3_trans m) m = mat3_unit /\ mat3_mul m (mat3_trans m) = mat3_unit.
Lemma proper_rot m : ortho m -> mat3_det m = 1 -> proper (mat3wi_rot m).
Proof.
  intros [O1 O2] D. split.
  - intros p. unfold mat3wi_rot, mat3w_trans. cbn [fwd bwd wb]. rewrite <- !affine_is.
    assert (K : forall a q, vec3w_xform (MW a zero3) q = vec3_xform a q) by (intros a [x y z]; unfold vec3w_xform, vec3_add, zero3; cbn [wb ww vx vy vz]; destruct (vec3_xform a (V3 x y z)) as [xx yy zz]; cbn [vx vy vz]; f_equal; ring).
    rewrite !K, <- !mul3, O1, O2. destruct p as [x y z]. unfold vec3_xform, mat3_unit, mat3_scale. aff. split; f_equal; ring.
  - cbn [idet mat3wi_rot fwd wb]. rewrite <- det3. auto.
Qed.
Lemma M3_eq a a1 b b1 c c1 d d1 f f1 g g1 h h1 i i1 j j1 : a = a1 -> b = b1 -> c = c1 -> d = d1 -> f = f1 -> g = g1 -> h = h1 -> i = i1 -> j = j1 ->
  M3 a b c d f g h i j = M3 a1 b1 c1 d1 f1 g1 h1 i1 j1.
Proof. intros; subst; reflexivity. Qed.
Lemma rot_unit u s c : inner u u = 1 -> s * s + c * c = 1 ->
  exists m, dim3_rot_unit e e2 u s c = Some m /\ ortho m /\ mat3_det m = 1 /\
    forall p, affine (MW m zero3) p = plus (plus (times c p) (times s (cross u p))) (times ((1 - c) * inner u p) u).
Proof.
  intros Hu Hs. unfold dim3_rot_unit. rewrite sc_assert, unit_assert by assumption. cbn [andb]. destruct u as [x y z]. unfold inner in Hu. cbn [vx vy vz] in *.
  eexists. split; [reflexivity|].
  assert (S : s * s = 1 - c * c) by lra. assert (Z : z * z = 1 - x * x - y * y) by lra. clear Hu Hs.
  split; [|split].
  - unfold ortho, mat3_trans, mat3_mul, mat3_unit, mat3_scale. aff. split; apply M3_eq; nsatz.
  - unfold mat3_det. aff. nsatz.
  - intros [a b d]. aff. unfold zero3. cbn [vx vy vz]. f_equal; ring.
Qed.
Lemma rot_about n s c : e <= norm n -> s * s + c * c = 1 ->
  exists m, mat3wi_rot_v e e2 n s c = Some m /\ proper m /\ forall p, affine (fwd m) p = rotate_about n s c p.
Proof.
  intros Hn Hs. unfold mat3wi_rot_v. rewrite unit_ok by assumption.
  destruct (rot_unit (times (/ norm n) n) s c) as (m & E & O & D & A); [apply unit_len; lra|assumption|].
  rewrite E. cbn [option_map]. eexists. split; [reflexivity|]. split; [apply proper_rot; assumption|]. intros p. cbn [fwd mat3wi_rot]. rewrite A. reflexivity.
Qed.
Lemma norm_axis a b c : a * a + b * b + c * c = 1 -> norm (V3 a b c) = 1.
Proof. intros H. unfold norm, inner. cbn [vx vy vz]. rewrite H. apply sqrt_1. Qed.
Lemma rot_axes s c : s * s + c * c = 1 -> exists x y z, mat3_rot_x e e2 s c = Some x /\ mat3_rot_y e e2 s c = Some y /\ mat3_rot_z e e2 s c = Some z /\
  proper (mat3wi_rot x) /\ proper (mat3wi_rot y) /\ proper (mat3wi_rot z) /\
  forall p, affine (fwd (mat3wi_rot x)) p = rotate_about ex s c p /\ affine (fwd (mat3wi_rot y)) p = rotate_about ey s c p /\ affine (fwd (mat3wi_rot z)) p = rotate_about ez s c p.
Proof.
  intros H. unfold mat3_rot_x, mat3_rot_y, mat3_rot_z. rewrite sc_assert by assumption. do 3 eexists. do 3 (split; [reflexivity|]).
  assert (S : s * s = 1 - c * c) by lra.
  assert (P : forall m, ortho m /\ mat3_det m = 1 -> proper (mat3wi_rot m)) by (intros m [? ?]; apply proper_rot; assumption).
  do 3 (split; [apply P; unfold ortho, mat3_trans, mat3_mul, mat3_unit, mat3_scale, mat3_det; aff; split; [split; apply M3_eq; nsatz|nsatz]|]).
  intros [a b d]. unfold mat3wi_rot, rotate_about, ex, ey, ez. rewrite !norm_axis by ring. rewrite Rinv_1. aff. unfold zero3. cbn [vx vy vz].
  split; [|split]; f_equal; ring.
Qed.
Lemma mirror_ok v : e <= norm v -> exists m, mat3wi_mirror_v e e2 v = Some m /\ proper m /\ forall p, affine (fwd m) p = reflect v p.
Proof.
  intros H. unfold mat3wi_mirror_v. rewrite unit_ok by assumption. assert (N : norm v <> 0) by lra. pose proof (unit_len v N) as L. cbv zeta in L.
  unfold dim3_mirror_unit. rewrite unit_assert by assumption. cbn [option_map]. eexists. split; [reflexivity|].
  assert (R : forall u p, affine (MW (M3 (1 + -2 * vx u * vx u) (-2 * vx u * vy u) (-2 * vx u * vz u) (-2 * vx u * vy u) (1 + -2 * vy u * vy u)
       (-2 * vy u * vz u) (-2 * vx u * vz u) (-2 * vy u * vz u) (1 + -2 * vz u * vz u)) zero3) p = plus p (times (-2 * inner u p) u)).
  { intros u [a b c]. aff. unfold zero3. cbn [vx vy vz]. f_equal; ring. }
  split; [split|].
  - intros p. cbn [fwd bwd]. rewrite !R. clear R. revert L. generalize (times (/ norm v) v). intros [x y z] L. destruct p as [a b c]. revert L. aff. intros L.
    assert (Z : z * z = 1 - x * x - y * y) by lra. split; f_equal; nsatz.
  - cbn [idet fwd wb]. rewrite <- det3. revert L. generalize (times (/ norm v) v). intros [x y z]. unfold mat3_det. aff. intros L.
    assert (Z : z * z = 1 - x * x - y * y) by lra. nsatz.
  - intros p. cbn [fwd]. rewrite R. unfold reflect. f_equal. rewrite <- (norm_sqr v). unfold times, inner. cbn [vx vy vz]. f_equal; field; assumption.
Qed.
Lemma mult_ok q : (Rabs (determinant 3 (el3 (wb q))) < e2 /\ snd (mat3wi_from_mat3w e2 q) = false) \/
  (~ Rabs (determinant 3 (el3 (wb q))) < e2 /\ snd (mat3wi_from_mat3w e2 q) = true /\ proper (fst (mat3wi_from_mat3w e2 q)) /\ fwd (fst (mat3wi_from_mat3w e2 q)) = q).
Proof.
  unfold mat3wi_from_mat3w. rewrite <- det3. destruct (inv3w e2 He2 q) as [[A B]|(A & B & C)].
  - left. split; [assumption|]. rewrite B. cbn [snd]. unfold cp_sqr_eq. rewrite eq_self by assumption. reflexivity.
  - right. destruct (mat3w_inv e2 q) as [i d]. cbn [fst snd] in *. subst d. split; [lra|]. split; [|split; [split|reflexivity]].
    + unfold cp_sqr_eq. rewrite eq_big by assumption. reflexivity.
    + exact C.
    + apply det3.
Qed.

Lemma step_ok mo t : fine e t ->
  match csg3_step e e2 mo t with
  | Go m => ~ refused e e2 t /\ (proper mo -> proper m) /\ exists f, meaning e t f /\ forall p, affine (fwd m) p = affine (fwd mo) (f p)
  | Msg => refused e e2 t
  | Crash => False
  end.
Proof.
  intros F. destruct t as [v|v|v|q|n s c|sx cx sy cy sz cz]; cbn [csg3_step refused meaning fine] in *.
  - destruct (vec3_has_len0 e v) eqn:E.
    + split; [tauto|]. split; [tauto|]. exists (fun p => p). split; [|reflexivity]. exists (V3 0 0 0). apply len0_true in E. split.
      * destruct E as (A & B & C). cbn [vx vy vz] in *. unfold near. cbn [vx vy vz]. rewrite (Rabs_minus_sym 0), (Rabs_minus_sym 0 (vy v)), (Rabs_minus_sym 0 (vz v)). auto.
      * intros [x y z]. unfold translate, plus. cbn [vx vy vz]. f_equal; ring.
    + destruct (proper_xlat (vx v) (vy v) (vz v)) as [P Q]. split; [tauto|]. split; [intros; apply proper_mul; assumption|].
      exists (translate v). split.
      * exists v. split; [|reflexivity]. unfold near. rewrite !Rminus_diag_eq, Rabs_R0 by reflexivity. auto.
      * intros p. rewrite fwd_mul, Q. destruct v. reflexivity.
  - destruct (vec3_has_len0 e v) eqn:E.
    + apply len0_true in E. assumption.
    + apply len0_false in E. destruct E as [E E']. destruct (mirror_ok v E) as (m & M & P & Q). rewrite M. cbn [of_opt].
      split; [assumption|]. split; [intros; apply proper_mul; assumption|]. exists (affine (fwd m)). split; [assumption|]. intros p. apply fwd_mul.
  - unfold good_scale, cp_eq. destruct (cp_e_eq e (vx v) 0) eqn:X; [apply eq_true in X; rewrite Rminus_0_r in X; cbn; auto|].
    destruct (cp_e_eq e (vy v) 0) eqn:Y; [apply eq_true in Y; rewrite Rminus_0_r in Y; cbn; auto|].
    destruct (cp_e_eq e (vz v) 0) eqn:Z; [apply eq_true in Z; rewrite Rminus_0_r in Z; cbn; auto|].
    cbn [negb andb]. apply eq_false in X, Y, Z; try assumption. rewrite Rminus_0_r in X, Y, Z.
    destruct (proper_scale (vx v) (vy v) (vz v)) as [P Q]; try assumption.
    split; [lra|]. split; [intros; apply proper_mul; assumption|]. exists (scale v). split; [reflexivity|]. intros p. rewrite fwd_mul, Q. destruct v. reflexivity.
  - pose proof (mult_ok q) as M. destruct (mat3wi_from_mat3w e2 q) as [m ok]. cbn [fst snd] in M. destruct M as [[A ->]|(A & -> & B & <-)]; [assumption|].
    split; [assumption|]. split; [intros; apply proper_mul; assumption|]. exists (affine (fwd m)). split; [reflexivity|]. intros p. apply fwd_mul.
  - destruct F as [F1 F2]. destruct (rot_about n s c F1 F2) as (m & M & P & Q). rewrite M. cbn [of_opt].
    split; [tauto|]. split; [intros; apply proper_mul; assumption|]. exists (affine (fwd m)). split; [assumption|]. intros p. apply fwd_mul.
  - destruct F as (F1 & F2 & F3). destruct (rot_axes _ _ F1) as (x & x' & x'' & -> & _ & _ & Px & _ & _ & Qx).
    destruct (rot_axes _ _ F2) as (y' & y & y'' & _ & -> & _ & _ & Py & _ & Qy). destruct (rot_axes _ _ F3) as (z' & z'' & z & _ & _ & -> & _ & _ & Pz & Qz).
    split; [tauto|]. split; [intros; repeat apply proper_mul; assumption|]. eexists. split; [intros p; reflexivity|]. intros p. rewrite !fwd_mul.
    rewrite (proj1 (Qx _)), (proj1 (proj2 (Qy _))), (proj2 (proj2 (Qz _))). reflexivity.
Qed.

Lemma run_ok l : forall mo, proper mo -> Forall (fine e) l ->
  match csg3_run e e2 mo l with
  | Go m => Forall (fun t => ~ refused e e2 t) l /\ proper m /\ exists g, nest e l g /\ forall p, affine (fwd m) p = affine (fwd mo) (g p)
  | Msg => Exists (refused e e2) l
  | Crash => False
  end.
Proof.
  induction l as [|t l IH]; intros mo P F; cbn [csg3_run].
  - split; [constructor|]. split; [assumption|]. exists (fun p => p). split; [constructor; reflexivity|reflexivity].
  - inversion F as [|? ? F1 F2]; subst. pose proof (step_ok mo t F1) as S. destruct (csg3_step e e2 mo t) as [m| |].
    + destruct S as (R & Q & f & M & A). specialize (IH m (Q P) F2). destruct (csg3_run e e2 m l) as [k| |].
      * destruct IH as (R2 & Q2 & g & M2 & A2). split; [constructor; assumption|]. split; [assumption|].
        exists (fun p => f (g p)). split; [eapply nest_cons; eauto|]. intros p. rewrite A2, A. reflexivity.
      * apply Exists_cons_tl. assumption.
      * assumption.
    + apply Exists_cons_hd. assumption.
    + assumption.
Qed.
End Eps.

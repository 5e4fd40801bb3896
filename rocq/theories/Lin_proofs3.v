(** Proofs about single functions of the matrix library, and about the argument of multmatrix *)
From Coq Require Import Reals Bool List Arith Lia Lra Nsatz.
From Verif Require Import Lin_model Lin_spec Lin_proofs Lin_proofs2 Ball_spec Ball_proofs.
Import ListNotations.
Local Open Scope R_scope.

Lemma identity_unit m : (forall p, affine m p = p) -> wb m = mat3_unit.
Proof.
  intros H. pose proof (H (V3 0 0 0)) as A. pose proof (H (V3 1 0 0)) as B. pose proof (H (V3 0 1 0)) as C. pose proof (H (V3 0 0 1)) as D.
  destruct m as [[a b c d f g h i j] [u v w]]. unfold affine in *. cbn [wb ww vx vy vz m00 m01 m02 m10 m11 m12 m20 m21 m22] in *.
  injection A as A1 A2 A3. injection B as B1 B2 B3. injection C as C1 C2 C3. injection D as D1 D2 D3.
  unfold mat3_unit, mat3_scale. apply M3_eq; lra.
Qed.
Lemma inverse_det f g : inverse_of (affine f) (affine g) -> mat3_det (wb f) * mat3_det (wb g) = 1.
Proof.
  intros I. rewrite <- det3_mul. change (mat3_mul (wb f) (wb g)) with (wb (mat3w_mul f g)). rewrite identity_unit.
  - unfold mat3_det, mat3_unit, mat3_scale. cbn [m00 m01 m02 m10 m11 m12 m20 m21 m22]. ring.
  - intros p. rewrite <- affine_is, mul3w. apply (proj2 (I p)).
Qed.

Section Eps.
Variables e e2 : R.
Hypothesis He : 0 < e.
Hypothesis He2 : 0 < e2.

Lemma inv_in_place a : proper a -> e <= Rabs (idet a) -> proper (mat3wi_inv e None a).
Proof.
  intros [I D] H. split; cbn [mat3wi_inv fwd bwd idet].
  - intros p. split; apply I.
  - rewrite div0_big by assumption. pose proof (inverse_det _ _ I) as K. rewrite <- det3 in *. rewrite D in *.
    assert (mat3_det (wb (fwd a)) <> 0) by (intros Z; rewrite Z in K; lra). apply (Rmult_eq_reg_l (mat3_det (wb (fwd a)))); [|assumption]. rewrite K. field. assumption.
Qed.

Lemma into_z_ok v : e2 <= e -> e <= norm v -> decided e v ->
  exists m, mat3wi_rot_into_z e e2 v = Some (m, true) /\ affine (fwd m) v = V3 0 0 (norm v) /\ isometry (affine (fwd m)) /\
    inverse_of (affine (fwd m)) (affine (bwd m)) /\ (~ (vx v = 0 /\ vy v = 0 /\ vz v < 0) -> proper m).
Proof.
  intros Hle Hn Hd. unfold mat3wi_rot_into_z.
  pose proof (unit_flag e e2 v ltac:(lra)) as F. pose proof (unit_ok e e2 He v Hn) as U.
  destruct (vec3_unit e e2 v) as [u ok]. cbn [fst snd] in F, U. subst ok.
  assert (N0 : norm v <> 0) by lra. assert (Np : 0 < / norm v) by (apply Rinv_0_lt_compat; lra).
  pose proof (unit_len v N0) as L. cbv zeta in L.
  pose proof (decided_times e _ _ Np Hd) as Du. rewrite <- U in *.
  destruct (into_z_exact e e2 He He2 u L Du) as (m & E & O & R0 & R1 & R2). rewrite E. cbn [option_map]. eexists. split; [reflexivity|].
  assert (X : forall a b c, norm (V3 a b c) * norm (V3 a b c) = a * a + b * b + c * c) by (intros; rewrite norm_sqr; reflexivity).
  assert (Iv : forall p, vec3_xform (mat3_trans m) (vec3_xform m p) = p /\ vec3_xform m (vec3_xform (mat3_trans m) p) = p).
  { intros p. rewrite <- !mul3, (proj1 O), (proj2 O). split; apply unit_xform. }
  change (fwd (mat3wi_rot m)) with (MW m zero3). change (bwd (mat3wi_rot m)) with (MW (mat3_trans m) zero3).
  split; [|split; [|split]].
  - rewrite xform0.
    assert (T : v = times (norm v) u) by (rewrite U; unfold times; destruct v as [a b c]; cbn [vx vy vz]; f_equal; field; assumption).
    assert (W : vec3_xform (mat3_trans m) (V3 0 0 1) = u).
    { unfold vec3_xform, mat3_trans. cbn [vx vy vz m00 m01 m02 m10 m11 m12 m20 m21 m22]. rewrite R0, R1, R2. destruct u as [a b c]. cbn [vx vy vz]. f_equal; ring. }
    assert (G : vec3_xform m u = V3 0 0 1) by (rewrite <- W; apply Iv).
    transitivity (times (norm v) (vec3_xform m u)).
    + rewrite T at 1. unfold vec3_xform, times. cbn [vx vy vz]. f_equal; ring.
    + rewrite G. unfold times. cbn [vx vy vz]. f_equal; ring.
  - intros p q. rewrite !xform0. apply ortho_inner. assumption.
  - intros p. rewrite !xform0. apply Iv.
  - intros H. apply proper_rot; [assumption|]. unfold dim3_rot_unit_into_z in E. rewrite unit_assert in E by assumption. cbv zeta in E.
    assert (Hx : vx v = norm v * vx u /\ vy v = norm v * vy u /\ vz v = norm v * vz u) by (rewrite U; unfold times; cbn [vx vy vz]; repeat split; field; assumption).
    destruct Hx as (V1 & V2 & V3'). destruct u as [x y z]. unfold inner in L. cbn [vx vy vz] in *.
    destruct Du as [[D1 D2]|D].
    + cbn [vx vy] in D1, D2. subst x y. unfold cp_eq in E. rewrite eq_self in E by assumption. cbn [andb] in E. apply some_inj in E. subst m.
      unfold mat3_det. cbn [m00 m01 m02 m10 m11 m12 m20 m21 m22]. assert (z = 1); [|subst; ring].
      assert (Q : z = 1 \/ z = -1) by (assert (Q : (z - 1) * (z + 1) = 0) by lra; apply Rmult_integral in Q; destruct Q; [left|right]; lra).
      destruct Q as [Q|Q]; [assumption|]. exfalso. apply H. rewrite V1, V2, V3', Q. split; [ring|]. split; [ring|]. lra.
    + assert (N1 : norm (V3 x y z) = 1) by (apply norm_axis; assumption). rewrite N1, Rmult_1_r in D. cbn [vx vy] in D.
      assert (E' : cp_eq e x 0 && cp_eq e y 0 = false) by (unfold cp_eq; destruct D as [D|D]; rewrite (eq_big e _ D); [reflexivity|apply andb_false_r]).
      rewrite E' in E. apply some_inj in E. subst m.
      assert (P : 0 < x * x + y * y).
      { pose proof (Rle_0_sqr x). pose proof (Rle_0_sqr y). unfold Rsqr in *.
        assert (x <> 0 \/ y <> 0) as [K|K] by (destruct D as [D|D]; [left|right]; intros ->; rewrite Rabs_R0 in D; lra); apply Rsqr_pos_lt in K; unfold Rsqr in K; lra. }
      pose proof (sqrt_lt_R0 _ P) as K. pose proof (sqrt_def _ (Rlt_le _ _ P)) as S. set (k := sqrt (x * x + y * y)) in *. clearbody k.
      unfold mat3_det. cbn [m00 m01 m02 m10 m11 m12 m20 m21 m22].
      assert (I : / k * k = 1) by (apply Rinv_l; lra). unfold Rdiv. set (i := / k) in *. clearbody i.
      assert (Z : z * z = 1 - k * k) by lra. assert (Y : y * y = k * k - x * x) by lra. clear - I Z Y. nsatz.
Qed.

(** mat3_is_rect_rot *)
Lemma is0_1 : e <= 1 -> is0 e 1 = false. Proof. intros. apply eq_big. rewrite Rabs_R1. assumption. Qed.
Lemma is0_0 : is0 e 0 = true. Proof. apply eq_self. assumption. Qed.
Lemma rect_unit : e <= 1 -> mat3_is_rect_rot e mat3_unit = false.
Proof. intros. unfold mat3_is_rect_rot, mat3_unit, mat3_scale. cbn [m00 m01 m02 m10 m11 m12 m20 m21 m22]. rewrite is0_1, is0_0 by assumption. reflexivity. Qed.
Lemma rect_zero : mat3_is_rect_rot e mat3_zero = true.
Proof. unfold mat3_is_rect_rot, mat3_zero. cbn [m00 m01 m02 m10 m11 m12 m20 m21 m22]. rewrite is0_0. reflexivity. Qed.
End Eps.

(** multmatrix *)
Lemma get_floats_spec l : forall r, get_floats l = Some r <-> l = map Num r.
Proof.
  induction l as [|[x|l'|] l IH]; intros r; cbn [get_floats].
  - split; [intros [= <-]; reflexivity|destruct r; [reflexivity|discriminate]].
  - destruct (get_floats l) as [s|]; split.
    + intros [= <-]. cbn [map]. f_equal. apply IH. reflexivity.
    + destruct r as [|y r]; [discriminate|]. cbn [map]. intros [= -> H]. apply IH in H. congruence.
    + discriminate.
    + destruct r as [|y r]; [discriminate|]. cbn [map]. intros [= -> H]. apply IH in H. discriminate.
  - split; [discriminate|destruct r; discriminate].
  - split; [discriminate|destruct r; discriminate].
Qed.
Lemma get_vec_spec n v r : get_vec n v = Some r <-> v = Arr (map Num r) /\ length r = n.
Proof.
  unfold get_vec. destruct v as [x|l|]; [split; [discriminate|intros [? _]; discriminate]| |split; [discriminate|intros [? _]; discriminate]].
  destruct (Nat.eqb_spec (length l) n) as [E|E].
  - rewrite get_floats_spec. split; [intros ->; rewrite map_length in E; auto|intros [[= ->] _]; reflexivity].
  - split; [discriminate|]. intros [[= ->] H]. rewrite map_length in E. contradiction.
Qed.
Lemma get_row_spec y v r : get_row y v = Some r <-> exists l, v = Arr (map Num l) /\ ((length l = 4%nat /\ r = l) \/ (length l = 3%nat /\ r = l ++ [identity y 3])).
Proof.
  unfold get_row. change unit_at with identity.
  assert (A : forall w, get_vec 4 w = Some r <-> exists l, w = Arr (map Num l) /\ length l = 4%nat /\ r = l).
  { intros w. rewrite get_vec_spec. split; [intros [-> H]; exists r; auto|intros (l & -> & H & ->); auto]. }
  assert (N : forall w, (forall l, w <> Arr l) -> get_vec 4 w = Some r <-> exists l, w = Arr (map Num l) /\ ((length l = 4%nat /\ r = l) \/ (length l = 3%nat /\ r = l ++ [identity y 3]))).
  { intros w H. rewrite A. split; intros (l & -> & _); exfalso; eapply H; reflexivity. }
  destruct v as [x|l|]; [apply N; discriminate| |apply N; discriminate].
  destruct (Nat.eqb_spec (length l) 3) as [E|E].
  - destruct (get_vec 3 (Arr l)) as [s|] eqn:G.
    + apply get_vec_spec in G. destruct G as [[= ->] Hs]. split.
      * intros [= <-]. exists s. auto.
      * intros (k & [= K] & [[H _]|[_ ->]]); [rewrite map_length in E; apply (f_equal (@length val)) in K; rewrite !map_length in K; lia|].
        apply get_floats_spec in K. assert (Some s = Some k) as [= ->] by (rewrite <- K; symmetry; apply get_floats_spec; reflexivity). reflexivity.
    + split; [discriminate|]. intros (k & [= ->] & _). rewrite map_length in E. assert (get_vec 3 (Arr (map Num k)) = Some k) by (apply get_vec_spec; auto). congruence.
  - rewrite A. split; intros (k & [= ->] & H); exists k; rewrite map_length in E; (split; [reflexivity|]); intuition lia.
Qed.
Definition widen (y : nat) (l : list R) : list R := if Nat.eqb (length l) 3 then l ++ [identity y 3] else l.
Fixpoint widens (y : nat) (r : list (list R)) : list (list R) := match r with [] => [] | l :: r => widen y l :: widens (S y) r end.
Lemma get_rows_spec l : forall y rs, get_rows y l = Some rs <->
  exists r, l = map (fun l => Arr (map Num l)) r /\ Forall (fun l => length l = 3%nat \/ length l = 4%nat) r /\ rs = widens y r.
Proof.
  induction l as [|v l IH]; intros y rs; cbn [get_rows].
  - split; [intros [= <-]; exists []; auto|]. intros (r & H & _ & ->). destruct r; [reflexivity|discriminate].
  - split.
    + destruct (get_row y v) as [a|] eqn:G; [|discriminate]. destruct (get_rows (S y) l) as [b|] eqn:K; [|discriminate]. intros [= <-].
      apply get_row_spec in G. destruct G as (k & -> & G). apply IH in K. destruct K as (r & -> & F & ->).
      exists (k :: r). split; [reflexivity|]. split; [constructor; [tauto|assumption]|]. cbn [widens]. f_equal. unfold widen.
      destruct G as [[G ->]|[G ->]]; rewrite G; reflexivity.
    + intros ([|k r] & E & F & ->); [discriminate|]. cbn [map] in E. injection E as -> ->. inversion F as [|? ? F1 F2]; subst.
      assert (G : get_row y (Arr (map Num k)) = Some (widen y k)).
      { apply get_row_spec. exists k. split; [reflexivity|]. unfold widen. destruct F1 as [F1|F1]; rewrite F1; auto. }
      rewrite G. assert (K : get_rows (S y) (map (fun l => Arr (map Num l)) r) = Some (widens (S y) r)) by (apply IH; exists r; auto). rewrite K. reflexivity.
Qed.
Lemma nth_widens r : forall y k x, Forall (fun l => length l = 3%nat \/ length l = 4%nat) r -> (x < 4)%nat ->
  List.nth x (List.nth k (widens y r) []) (identity (y + k) x) = List.nth x (List.nth k r []) (identity (y + k) x).
Proof.
  induction r as [|l r IH]; intros y [|k] x F Hx; cbn [widens]; try reflexivity; inversion F as [|? ? F1 F2]; subst; cbn [List.nth].
  - unfold widen. destruct F1 as [F1|F1]; rewrite F1; cbn [Nat.eqb]; [|reflexivity].
    destruct (Nat.lt_ge_cases x 3) as [H|H]; [apply app_nth1; lia|]. assert (x = 3%nat) by lia. subst x. rewrite app_nth2, F1, Nat.add_0_r by lia. cbn [List.nth Nat.sub]. symmetry. apply nth_overflow. lia.
  - replace (y + S k)%nat with (S y + k)%nat by lia. apply IH; assumption.
Qed.
Lemma get_mat4_spec v : match get_mat4 v with
  | Got m => exists f, matrix_arg v f /\ m = (M4 (f 0 0) (f 0 1) (f 0 2) (f 0 3) (f 1 0) (f 1 1) (f 1 2) (f 1 3) (f 2 0) (f 2 1) (f 2 2) (f 2 3) (f 3 0) (f 3 1) (f 3 2) (f 3 3))%nat
  | Bad => ~ exists f, matrix_arg v f
  | Abort => forall l, v <> Arr l
  end.
Proof.
  destruct v as [x|l|]; cbn [get_mat4]; [discriminate| |discriminate].
  destruct (Nat.eqb (length l) 2) eqn:E2; [|destruct (Nat.eqb (length l) 3) eqn:E3; [|destruct (Nat.eqb (length l) 4) eqn:E4]]; cbn [negb andb]; cycle 3.
  { intros (f & r & [= ->] & H & _). rewrite map_length in *. apply Nat.eqb_neq in E2, E3, E4. lia. }
  all: assert (L : (2 <= length l <= 4)%nat) by (rewrite ?Nat.eqb_eq in *; lia); clear E2; try clear E3; try clear E4.
  all: destruct (get_rows 0 l) as [rs|] eqn:G.
  all: try (intros (f & r & [= ->] & H & F & _); assert (get_rows 0 (map (fun l => Arr (map Num l)) r) = Some (widens 0 r)) by (apply get_rows_spec; exists r; auto); congruence).
  all: apply get_rows_spec in G; destruct G as (r & -> & F & ->); exists (fun y x => List.nth x (List.nth y r []) (identity y x)).
  all: split; [exists r; split; [reflexivity|]; rewrite map_length in L; auto|].
  all: unfold ent; change unit_at with identity; apply M4_eq; apply (nth_widens r 0); auto; lia.
Qed.
Lemma get_mat3w_spec e v : match get_mat3w e v with
  | Got m => exists f, matrix_arg v f /\ Rabs (f 3%nat 0%nat) < e /\ Rabs (f 3%nat 1%nat) < e /\ Rabs (f 3%nat 2%nat) < e /\ Rabs (f 3%nat 3%nat - 1) < e /\
      m = (MW (M3 (f 0 0) (f 0 1) (f 0 2) (f 1 0) (f 1 1) (f 1 2) (f 2 0) (f 2 1) (f 2 2)) (V3 (f 0 3) (f 1 3) (f 2 3)))%nat
  | Bad => ~ exists f, matrix_arg v f /\ Rabs (f 3%nat 0%nat) < e /\ Rabs (f 3%nat 1%nat) < e /\ Rabs (f 3%nat 2%nat) < e /\ Rabs (f 3%nat 3%nat - 1) < e
  | Abort => forall l, v <> Arr l
  end.
Proof.
  unfold get_mat3w. pose proof (get_mat4_spec v) as H. destruct (get_mat4 v) as [q| |].
  - destruct H as (f & A & ->). unfold mat3w_from_mat4. cbn [n00 n01 n02 n03 n10 n11 n12 n13 n20 n21 n22 n23 n30 n31 n32 n33]. unfold cp_eq, cp_e_eq. rewrite !Rminus_0_r.
    assert (U : forall g, matrix_arg v g -> forall y x, (y < 4)%nat -> (x < 4)%nat -> g y x = f y x).
    { intros g (r & E & _ & _ & G) y x Hy Hx. destruct A as (r' & E' & _ & _ & G'). rewrite G, G' by assumption.
      assert (r = r'); [|subst; reflexivity]. rewrite E in E'. injection E' as E'. clear - E'. revert r' E'.
      induction r as [|a r IH]; intros [|b r'] E; try discriminate; [reflexivity|]. cbn [map] in E. injection E as E1 E2. f_equal; [|auto].
      clear - E1. revert b E1. induction a as [|x a IH]; intros [|y b] E; try discriminate; [reflexivity|]. cbn [map] in E. injection E as -> E2. f_equal. auto. }
    destruct Rlt_dec as [H0|H0]; cbn [andb]; [destruct Rlt_dec as [H1|H1]; cbn [andb]; [destruct Rlt_dec as [H2|H2]; cbn [andb]; [destruct Rlt_dec as [H3|H3]|]|]|].
    { exists f. auto 10. }
    all: intros (g & G & K0 & K1 & K2 & K3); rewrite (U g G) in K0, K1, K2, K3 by lia; contradiction.
  - intros (f & A & _). apply H. exists f. assumption.
  - assumption.
Qed.

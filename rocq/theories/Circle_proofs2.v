(** C48: the exact sines are those of the real function *)
From Coq Require Import ZArith Bool List Lia Reals Lra ZifyBool.
From Verif Require Import Circle_model Circle_spec Circle_proofs.
Local Open Scope R_scope.

Definition rad (a : Z) : R := IZR a * PI / 180.
Lemma sin_360 a k : sin (rad (a + 360 * k)) = sin (rad a).
Proof.
  assert (P : forall n : nat, sin (rad (a + 360 * Z.of_nat n)) = sin (rad a)).
  { intros n. rewrite <- (sin_period (rad a) n). f_equal. unfold rad. rewrite plus_IZR, mult_IZR, <- INR_IZR_INZ. field. }
  assert (M : forall n : nat, sin (rad (a - 360 * Z.of_nat n)) = sin (rad a)).
  { intros n. rewrite <- (sin_period (rad (a - 360 * Z.of_nat n)) n). f_equal. unfold rad. rewrite minus_IZR, mult_IZR, <- INR_IZR_INZ. field. }
  destruct (Z.le_ge_cases 0 k).
  - rewrite <- (P (Z.to_nat k)). now rewrite Z2Nat.id by lia.
  - rewrite <- (M (Z.to_nat (- k))). replace (a - 360 * Z.of_nat (Z.to_nat (- k)))%Z with (a + 360 * k)%Z by lia. reflexivity.
Qed.
Lemma sin_180 a : sin (rad (a + 180)) = - sin (rad a).
Proof. rewrite <- neg_sin. f_equal. unfold rad. rewrite plus_IZR. field. Qed.
Lemma sin_mirror a : sin (rad (180 - a)) = sin (rad a).
Proof. rewrite <- (sin_PI_x (rad a)). f_equal. unfold rad. rewrite minus_IZR. field. Qed.
Lemma sin0 : sin (rad 0) = 0.
Proof. unfold rad. replace (0 * PI / 180) with 0 by field. apply sin_0. Qed.
Lemma sin30 : sin (rad 30) = 1 / 2.
Proof. unfold rad. replace (30 * PI / 180) with (PI / 6) by field. apply sin_PI6. Qed.
Lemma sin90 : sin (rad 90) = 1.
Proof. unfold rad. replace (90 * PI / 180) with (PI / 2) by field. apply sin_PI2. Qed.
Definition norm (ai : Z) : Z := let a := Z.rem ai 360 in if (a <? 0)%Z then (a + 360)%Z else a.
Lemma norm_mod ai : norm ai = (ai mod 360)%Z.
Proof.
  unfold norm. cbv zeta. pose proof (Z.rem_bound_abs ai 360 ltac:(lia)). pose proof (Z.quot_rem' ai 360) as Q. destruct (_ <? 0)%Z eqn:E.
  - apply (Z.mod_unique _ _ (Z.quot ai 360 - 1)); lia.
  - apply (Z.mod_unique _ _ (Z.quot ai 360)); lia.
Qed.
Lemma sin_norm ai : sin (rad (norm ai)) = sin (rad ai).
Proof. rewrite norm_mod. rewrite (Z.div_mod ai 360) at 2 by lia. rewrite Z.add_comm. now rewrite sin_360. Qed.
Lemma exact_unfold ai : exact_sin2 ai = let a := norm ai in
  if (a =? 0)%Z || (a =? 180)%Z then Some 0%Z else if (a =? 90)%Z then Some 2%Z else if (a =? 270)%Z then Some (-2)%Z
  else if (a =? 30)%Z || (a =? 150)%Z then Some 1%Z else if (a =? 210)%Z || (a =? 330)%Z then Some (-1)%Z else None.
Proof. reflexivity. Qed.
Lemma exact_sound ai r : exact_sin2 ai = Some r -> 2 * sin (rad ai) = IZR r.
Proof.
  rewrite exact_unfold, <- sin_norm. cbv zeta. generalize (norm ai). intros a.
  destruct (_ || _) eqn:E; [intros [= <-]|].
  { apply orb_prop in E as [E|E]; apply Z.eqb_eq in E; subst a; [rewrite sin0; ring|]. change 180%Z with (0 + 180)%Z. rewrite sin_180, sin0. ring. }
  clear E. destruct (a =? 90)%Z eqn:E; [intros [= <-]; apply Z.eqb_eq in E; subst a; rewrite sin90; ring|]. clear E.
  destruct (a =? 270)%Z eqn:E; [intros [= <-]; apply Z.eqb_eq in E; subst a; change 270%Z with (90 + 180)%Z; rewrite sin_180, sin90; ring|]. clear E.
  destruct (_ || _) eqn:E; [intros [= <-]|].
  { apply orb_prop in E as [E|E]; apply Z.eqb_eq in E; subst a; [rewrite sin30; field|]. change 150%Z with (180 - 30)%Z. rewrite sin_mirror, sin30. field. }
  clear E. destruct (_ || _) eqn:E; [intros [= <-]|discriminate].
  apply orb_prop in E as [E|E]; apply Z.eqb_eq in E; subst a; [change 210%Z with (30 + 180)%Z; rewrite sin_180, sin30; field|].
  change 330%Z with (180 - 30 + 180)%Z. rewrite sin_180, sin_mirror, sin30. field.
Qed.
Lemma sin_incr a b : (-90 <= a)%Z -> (a < b)%Z -> (b <= 90)%Z -> sin (rad a) < sin (rad b).
Proof.
  intros A L B. pose proof PI_RGT_0. apply IZR_le in A, B. apply IZR_lt in L. apply sin_increasing_1; unfold rad; try nra.
Qed.
(** Between two consecutive values, twice the sine is no integer *)
Lemma quarter a z : (0 <= a <= 90)%Z -> 2 * sin (rad a) = IZR z -> (a = 0 \/ a = 30 \/ a = 90)%Z.
Proof.
  intros A H. destruct (Z.eq_dec a 0), (Z.eq_dec a 30), (Z.eq_dec a 90); auto. exfalso. destruct (Z.lt_ge_cases a 30).
  - pose proof (sin_incr 0 a ltac:(lia) ltac:(lia) ltac:(lia)) as L. pose proof (sin_incr a 30 ltac:(lia) ltac:(lia) ltac:(lia)) as U. rewrite sin0 in L. rewrite sin30 in U.
    assert (0 < IZR z) by lra. assert (IZR z < 1) by lra. apply (lt_IZR 0) in H1. apply (lt_IZR z 1) in H2. lia.
  - pose proof (sin_incr 30 a ltac:(lia) ltac:(lia) ltac:(lia)) as L. pose proof (sin_incr a 90 ltac:(lia) ltac:(lia) ltac:(lia)) as U. rewrite sin30 in L. rewrite sin90 in U.
    assert (1 < IZR z) by lra. assert (IZR z < 2) by lra. apply (lt_IZR 1) in H1. apply (lt_IZR z 2) in H2. lia.
Qed.
Lemma half a z : (0 <= a <= 180)%Z -> 2 * sin (rad a) = IZR z -> (a = 0 \/ a = 30 \/ a = 90 \/ a = 150 \/ a = 180)%Z.
Proof.
  intros A H. destruct (Z.le_gt_cases a 90); [apply quarter in H; lia|]. rewrite <- sin_mirror in H. apply quarter in H; lia.
Qed.
Lemma full a z : (0 <= a < 360)%Z -> 2 * sin (rad a) = IZR z -> (a = 0 \/ a = 30 \/ a = 90 \/ a = 150 \/ a = 180 \/ a = 210 \/ a = 270 \/ a = 330)%Z.
Proof.
  intros A H. destruct (Z.le_gt_cases a 180); [apply half in H; lia|]. replace a with (a - 180 + 180)%Z in H by lia. rewrite sin_180 in H.
  assert (H' : 2 * sin (rad (a - 180)) = IZR (- z)) by (rewrite opp_IZR; lra). apply half in H'; lia.
Qed.
Lemma exact_complete ai z : 2 * sin (rad ai) = IZR z -> exact_sin2 ai = Some z.
Proof.
  intros H. destruct (exact_sin2 ai) as [r|] eqn:E.
  - apply exact_sound in E. f_equal. apply eq_IZR. lra.
  - exfalso. rewrite <- sin_norm in H. assert (B : (0 <= norm ai < 360)%Z) by (rewrite norm_mod; apply Z.mod_pos_bound; lia). apply (full _ _ B) in H. rewrite exact_unfold in E. cbv zeta in E.
    repeat (destruct H as [H|H]; [rewrite H in E; discriminate E|]). rewrite H in E. discriminate E.
Qed.

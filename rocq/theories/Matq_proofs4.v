From Coq Require Import ZArith QArith Bool Lia Lqa ZifyBool.
From Verif Require Import Matq_model Matq_spec Matq_proofs Matq_proofs2 Matq_proofs3.
Local Open Scope Z_scope.

(** ** Outcomes: [rng] excludes failure *)
Definition sat {A} (r : res A) (rng : Prop) (Q : A -> Prop) : Prop :=
  match r with Ok a => Q a | Fail => ~ rng | UB => False end.

Lemma sat_bind A B (x : res A) (f : A -> res B) (rng : Prop) Q :
  sat x rng (fun a => sat (f a) rng Q) -> sat (bind x f) rng Q.
Proof. destruct x; cbn; auto. Qed.

Lemma sat_ck32 x (rng : Prop) (Q : Z -> Prop) : (rng -> is_int x) -> (is_int x -> Q x) -> sat (ck32 x) rng Q.
Proof.
  intros R H. unfold ck32. destruct (fits32 x) eqn:E; cbn.
  - apply H. now apply fits32_int.
  - intros G. apply R in G. apply fits32_int in G. congruence.
Qed.
Lemma sat_ck64 x (rng : Prop) (Q : Z -> Prop) : (rng -> is_llong x) -> (is_llong x -> Q x) -> sat (ck64 x) rng Q.
Proof.
  intros R H. unfold ck64. destruct (fits64 x) eqn:E; cbn.
  - apply H. now apply fits64_int.
  - intros G. apply R in G. apply fits64_int in G. congruence.
Qed.

Lemma mulb a b M : Z.abs a <= M -> Z.abs b <= M -> Z.abs (a * b) <= M * M.
Proof. intros. rewrite Z.abs_mul. apply Z.mul_le_mono_nonneg; lia. Qed.

(** cross product of two differences: *)
Lemma cross_z_sat a b c d (rng : Prop) (Q : Z -> Prop) :
  (rng -> Z.abs a <= 2147483646 /\ Z.abs b <= 2147483646 /\ Z.abs c <= 2147483646 /\ Z.abs d <= 2147483646) ->
  (is_llong (a * d - b * c) -> Q (a * d - b * c)) -> sat (cross_z a b c d) rng Q.
Proof.
  intros R H. unfold cross_z, dim_mul, dimw_sub.
  assert (B : rng -> Z.abs (a * d) <= 4611686009837453316 /\ Z.abs (b * c) <= 4611686009837453316).
  { intros G. apply R in G. split; change 4611686009837453316 with (2147483646 * 2147483646); apply mulb; lia. }
  apply sat_bind, sat_ck64; [intros G; apply B in G; unfold is_llong; lia|intros _].
  apply sat_bind, sat_ck64; [intros G; apply B in G; unfold is_llong; lia|intros _].
  apply sat_ck64; [intros G; apply B in G; unfold is_llong; lia|exact H].
Qed.

(** ** rational geometry *)
Notation iZ := inject_Z.

Lemma iZ_sub a b : (iZ (a - b) == iZ a - iZ b)%Q.
Proof. unfold Z.sub. rewrite inject_Z_plus, inject_Z_opp. reflexivity. Qed.
Lemma iZ_pos d : 0 < d -> (0 < iZ d)%Q.
Proof. intros. change 0%Q with (iZ 0). rewrite <- Zlt_Qlt. assumption. Qed.
Lemma iZ_nz d : d <> 0 -> ~ (iZ d == 0)%Q.
Proof. intros N E. apply N. change 0%Q with (iZ 0) in E. now apply inject_Z_injective. Qed.

Lemma frac_point a x t d : d <> 0 -> (iZ a + iZ t / iZ d * iZ x == iZ (a * d + t * x) / iZ d)%Q.
Proof. intros D. apply iZ_nz in D. rewrite inject_Z_plus, !inject_Z_mult. field. assumption. Qed.

Lemma frac_eq2 a b d : d <> 0 -> (iZ a / iZ d == iZ b / iZ d)%Q -> a = b.
Proof.
  intros D E. apply inject_Z_injective. apply iZ_nz in D.
  rewrite <- (Qmult_div_r (iZ a) (iZ d)), <- (Qmult_div_r (iZ b) (iZ d)) by assumption. now rewrite E.
Qed.

Lemma value_frac i n d : d <> 0 -> (value (mk_dimif i n d) == iZ (i * d + n) / iZ d)%Q.
Proof. intros D. unfold value. cbn. apply iZ_nz in D. rewrite inject_Z_plus, inject_Z_mult. field. assumption. Qed.

Lemma Qeq_eq (a b : Q) : a = b -> (a == b)%Q.
Proof. intros ->. reflexivity. Qed.

Lemma Qcross (x1 y1 X Y x3 y3 X' Y' t u : Q) :
  (x1 + t * X == x3 + u * X')%Q -> (y1 + t * Y == y3 + u * Y')%Q ->
  (t * (X * Y' - Y * X') == (x3 - x1) * Y' - (y3 - y1) * X')%Q /\
  (u * (X * Y' - Y * X') == (x3 - x1) * Y - (y3 - y1) * X)%Q.
Proof.
  intros E1 E2.
  assert (A : (x3 == x1 + t * X - u * X')%Q) by (rewrite E1; ring).
  assert (B : (y3 == y1 + t * Y - u * Y')%Q) by (rewrite E2; ring).
  rewrite A, B. split; ring.
Qed.

Section Seg.
Variables p1 p2 p3 p4 : vec2.
Definition SX := fst p2 - fst p1.
Definition SY := snd p2 - snd p1.
Definition TX := fst p4 - fst p3.
Definition TY := snd p4 - snd p3.
Definition DD := SX * TY - SY * TX.
Definition TT := (fst p3 - fst p1) * TY - (snd p3 - snd p1) * TX.
Definition UU := (fst p3 - fst p1) * SY - (snd p3 - snd p1) * SX.

(** parameters of a common point *)
Lemma common_params (x y t u : Q) :
  (x == iZ (fst p1) + t * (iZ (fst p2) - iZ (fst p1)))%Q ->
  (y == iZ (snd p1) + t * (iZ (snd p2) - iZ (snd p1)))%Q ->
  (x == iZ (fst p3) + u * (iZ (fst p4) - iZ (fst p3)))%Q ->
  (y == iZ (snd p3) + u * (iZ (snd p4) - iZ (snd p3)))%Q ->
  (t * iZ DD == iZ TT)%Q /\ (u * iZ DD == iZ UU)%Q.
Proof.
  intros A B C D. rewrite A in C. rewrite B in D.
  destruct (Qcross _ _ _ _ _ _ _ _ _ _ C D) as [E F].
  unfold DD, TT, UU, SX, SY, TX, TY.
  rewrite !iZ_sub, !inject_Z_mult, !iZ_sub. split; [exact E|exact F].
Qed.

Variables tau ups d : Z.
Hypothesis Dpos : 0 < d.
Hypothesis Sgn : (d = DD /\ tau = TT /\ ups = UU) \/ (d = - DD /\ tau = - TT /\ ups = - UU).

Lemma params_eq t u : (t * iZ DD == iZ TT)%Q -> (u * iZ DD == iZ UU)%Q ->
  (t == iZ tau / iZ d)%Q /\ (u == iZ ups / iZ d)%Q.
Proof.
  intros A B. pose proof (iZ_nz d ltac:(lia)) as N.
  destruct Sgn as [(E1 & E2 & E3)|(E1 & E2 & E3)]; rewrite E1, E2, E3 in *; clear Sgn.
  - rewrite <- A, <- B. split; field; assumption.
  - rewrite !inject_Z_opp in *. rewrite <- A, <- B.
    assert (~ (iZ DD == 0)%Q) by (intros Z; apply N; rewrite Z; reflexivity).
    split; field; assumption.
Qed.

Definition px := (iZ (fst p1) + iZ tau / iZ d * (iZ (fst p2) - iZ (fst p1)))%Q.
Definition py := (iZ (snd p1) + iZ tau / iZ d * (iZ (snd p2) - iZ (snd p1)))%Q.

(** the identities behind the exactness check *)
Lemma id_x : fst p1 * d + tau * SX = fst p3 * d + ups * TX.
Proof. destruct Sgn as [(-> & -> & ->)|(-> & -> & ->)]; unfold DD, TT, UU, SX, SY, TX, TY; ring. Qed.
Lemma id_y : snd p1 * d + tau * SY = snd p3 * d + ups * TY.
Proof. destruct Sgn as [(-> & -> & ->)|(-> & -> & ->)]; unfold DD, TT, UU, SX, SY, TX, TY; ring. Qed.

Lemma px_frac : (px == iZ (fst p1 * d + tau * SX) / iZ d)%Q.
Proof. unfold px. rewrite <- iZ_sub. apply frac_point. lia. Qed.
Lemma py_frac : (py == iZ (snd p1 * d + tau * SY) / iZ d)%Q.
Proof. unfold py. rewrite <- iZ_sub. apply frac_point. lia. Qed.

Lemma px3 : (px == iZ (fst p3) + iZ ups / iZ d * (iZ (fst p4) - iZ (fst p3)))%Q.
Proof. rewrite px_frac, id_x, <- iZ_sub. symmetry. apply frac_point. lia. Qed.
Lemma py3 : (py == iZ (snd p3) + iZ ups / iZ d * (iZ (snd p4) - iZ (snd p3)))%Q.
Proof. rewrite py_frac, id_y, <- iZ_sub. symmetry. apply frac_point. lia. Qed.

Lemma frac01 t : 0 <= t <= d <-> (0 <= iZ t / iZ d <= 1)%Q.
Proof.
  pose proof (iZ_pos d Dpos) as P. split.
  - intros [A B]. split.
    + apply Qle_shift_div_l; [assumption|]. rewrite Qmult_0_l. change 0%Q with (iZ 0). now rewrite <- Zle_Qle.
    + apply Qle_shift_div_r; [assumption|]. rewrite Qmult_1_l. now rewrite <- Zle_Qle.
  - intros [A B].
    assert (E : (iZ t == iZ t / iZ d * iZ d)%Q) by (field; apply iZ_nz; lia).
    split; rewrite Zle_Qle; rewrite E.
    + change (iZ 0) with 0%Q. apply Qmult_le_0_compat; [assumption|now apply Qlt_le_weak].
    + apply (Qle_trans _ (1 * iZ d)); [|rewrite Qmult_1_l; apply Qle_refl].
      apply Qmult_le_compat_r; [assumption|now apply Qlt_le_weak].
Qed.

Lemma on_both : 0 <= tau <= d -> 0 <= ups <= d -> on_segment px py p1 p2 /\ on_segment px py p3 p4.
Proof.
  intros A B. split.
  - exists (iZ tau / iZ d)%Q. split; [now apply frac01|]. split; reflexivity.
  - exists (iZ ups / iZ d)%Q. split; [now apply frac01|]. split; [apply px3|apply py3].
Qed.

Lemma both_params x y : on_segment x y p1 p2 -> on_segment x y p3 p4 ->
  0 <= tau <= d /\ 0 <= ups <= d /\ (x == px)%Q /\ (y == py)%Q.
Proof.
  intros (t & T & X1 & Y1) (u & U & X2 & Y2).
  destruct (common_params x y t u X1 Y1 X2 Y2) as [A B].
  destruct (params_eq t u A B) as [A' B'].
  rewrite A' in T. rewrite B' in U. split; [now apply frac01|]. split; [now apply frac01|].
  split; [rewrite X1, A'|rewrite Y1, A']; reflexivity.
Qed.

Lemma dd_nz : DD <> 0.
Proof. destruct Sgn as [(E & _)|(E & _)]; lia. Qed.

(** when it is an end point *)
Lemma is_p1 : point_is p1 px py <-> tau = 0.
Proof.
  unfold point_is. rewrite px_frac, py_frac.
  assert (E : forall a, (iZ a == iZ (a * d) / iZ d)%Q).
  { intros a. rewrite inject_Z_mult. field. apply iZ_nz. lia. }
  rewrite (E (fst p1)), (E (snd p1)). split.
  - intros [A B]. apply frac_eq2 in A; [|lia]. apply frac_eq2 in B; [|lia].
    pose proof dd_nz as N. unfold DD in N.
    assert (tau * SX = 0) as A' by lia. assert (tau * SY = 0) as B' by lia.
    apply Z.mul_eq_0 in A'. apply Z.mul_eq_0 in B'.
    destruct A' as [|A']; [assumption|]. destruct B' as [|B']; [assumption|].
    rewrite A', B' in N. lia.
  - intros ->. rewrite !Z.mul_0_l, !Z.add_0_r. split; reflexivity.
Qed.
Lemma is_p2 : point_is p2 px py <-> tau = d.
Proof.
  unfold point_is. rewrite px_frac, py_frac.
  assert (E : forall a, (iZ a == iZ (a * d) / iZ d)%Q).
  { intros a. rewrite inject_Z_mult. field. apply iZ_nz. lia. }
  rewrite (E (fst p2)), (E (snd p2)). split.
  - intros [A B]. apply frac_eq2 in A; [|lia]. apply frac_eq2 in B; [|lia].
    pose proof dd_nz as N. unfold DD in N.
    assert ((tau - d) * SX = 0) as A' by (unfold SX in *; lia).
    assert ((tau - d) * SY = 0) as B' by (unfold SY in *; lia).
    apply Z.mul_eq_0 in A'. apply Z.mul_eq_0 in B'.
    destruct A' as [|A']; [lia|]. destruct B' as [|B']; [lia|].
    rewrite A', B' in N. lia.
  - intros ->. unfold SX, SY. split; apply Qeq_eq; f_equal; f_equal; ring.
Qed.
Lemma is_p3 : point_is p3 px py <-> ups = 0.
Proof.
  unfold point_is. rewrite px_frac, py_frac, id_x, id_y.
  assert (E : forall a, (iZ a == iZ (a * d) / iZ d)%Q).
  { intros a. rewrite inject_Z_mult. field. apply iZ_nz. lia. }
  rewrite (E (fst p3)), (E (snd p3)). split.
  - intros [A B]. apply frac_eq2 in A; [|lia]. apply frac_eq2 in B; [|lia].
    pose proof dd_nz as N. unfold DD in N.
    assert (ups * TX = 0) as A' by lia. assert (ups * TY = 0) as B' by lia.
    apply Z.mul_eq_0 in A'. apply Z.mul_eq_0 in B'.
    destruct A' as [|A']; [assumption|]. destruct B' as [|B']; [assumption|].
    rewrite A', B' in N. lia.
  - intros ->. rewrite !Z.mul_0_l, !Z.add_0_r. split; reflexivity.
Qed.
Lemma is_p4 : point_is p4 px py <-> ups = d.
Proof.
  unfold point_is. rewrite px_frac, py_frac, id_x, id_y.
  assert (E : forall a, (iZ a == iZ (a * d) / iZ d)%Q).
  { intros a. rewrite inject_Z_mult. field. apply iZ_nz. lia. }
  rewrite (E (fst p4)), (E (snd p4)). split.
  - intros [A B]. apply frac_eq2 in A; [|lia]. apply frac_eq2 in B; [|lia].
    pose proof dd_nz as N. unfold DD in N.
    assert ((ups - d) * TX = 0) as A' by (unfold TX in *; lia).
    assert ((ups - d) * TY = 0) as B' by (unfold TY in *; lia).
    apply Z.mul_eq_0 in A'. apply Z.mul_eq_0 in B'.
    destruct A' as [|A']; [lia|]. destruct B' as [|B']; [lia|].
    rewrite A', B' in N. lia.
  - intros ->. unfold TX, TY. split; apply Qeq_eq; f_equal; f_equal; ring.
Qed.

(** the whole specification from the parameters and what was returned *)
Lemma spec_zero : ~ (0 <= tau <= d) \/ ~ (0 <= ups <= d) -> intersect_spec p1 p2 p3 p4 0 None.
Proof.
  intros N. split; [|split].
  - intros P. exfalso. apply dd_nz. unfold parallel in P. unfold DD, SX, SY, TX, TY. lia.
  - intros _ _. auto.
  - intros _ x y A B. exfalso. destruct (both_params x y A B) as (? & ? & _). tauto.
Qed.

Lemma spec_pos r vx vy : 0 <= tau <= d -> 0 <= ups <= d ->
  valid vx -> valid vy -> (value vx == px)%Q -> (value vy == py)%Q ->
  0 < r < 32 -> Z.testbit r 0 = true ->
  (Z.testbit r 1 = true <-> tau = 0) -> (Z.testbit r 2 = true <-> tau = d) ->
  (Z.testbit r 3 = true <-> ups = 0) -> (Z.testbit r 4 = true <-> ups = d) ->
  intersect_spec p1 p2 p3 p4 r (Some (vx, vy)).
Proof.
  intros T U V1 V2 X Y R B0 B1 B2 B3 B4. split; [|split].
  - intros P. exfalso. apply dd_nz. unfold parallel in P. unfold DD, SX, SY, TX, TY. lia.
  - intros _ N. exfalso. destruct (on_both T U) as [A B]. exact (N _ _ A B).
  - intros _ x y A B. destruct (both_params x y A B) as (_ & _ & EX & EY).
    assert (PI : forall v, point_is v x y <-> point_is v px py).
    { intros v. unfold point_is. now rewrite EX, EY. }
    exists vx, vy. split; [reflexivity|]. split; [assumption|]. split; [assumption|].
    split; [now rewrite EX|]. split; [now rewrite EY|]. split; [assumption|]. split; [assumption|].
    rewrite !PI, is_p1, is_p2, is_p3, is_p4. auto.
Qed.

Lemma value_int a : (value (mk_dimif a 0 1) == iZ a)%Q.
Proof. rewrite value_frac by lia. rewrite Z.mul_1_r, Z.add_0_r. field. Qed.

End Seg.

Lemma valid_int a : is_int a -> valid (mk_dimif a 0 1).
Proof. intros. unfold valid, is_ullong. cbn. auto with zarith. Qed.

Lemma pos_on_seg_ok d_neg d t (rng : Prop) (Q : option Z -> Prop) : 0 < d -> is_llong t ->
  (rng -> t <> -9223372036854775808) ->
  let t' := if (d_neg : bool) then - t else t in
  (~ (0 <= t' <= d) -> Q None) -> (0 <= t' <= d -> Q (Some t')) ->
  sat (pos_on_seg d_neg d t) rng Q.
Proof.
  intros D T R t' N S. unfold pos_on_seg.
  destruct (Z.eqb_spec t 0) as [->|NZ].
  { cbn. subst t'. assert (E : (if d_neg then - 0 else 0) = 0) by (destruct d_neg; reflexivity). rewrite E in S.
    apply S. lia. }
  destruct (Z.ltb_spec t 0).
  - apply sat_bind. unfold dimw_neg, dimw_sub. apply sat_bind. apply sat_ck64.
    { intros G. apply R in G. unfold is_llong in *. lia. }
    intros F. cbn [sat]. subst t'. destruct d_neg; cbn [negb orb].
    + destruct (Z.ltb_spec d (0 - t)); cbn.
      * apply N. lia.
      * replace (0 - t) with (- t) in * by lia. apply S. lia.
    + cbn. apply N. lia.
  - cbn [bind]. subst t'. destruct d_neg; cbn [negb orb].
    + cbn. apply N. lia.
    + destruct (Z.ltb_spec d t); cbn; [apply N|apply S]; lia.
Qed.

Lemma mul_div_min sm sd : mul_div_nww (-2147483648) sm sd = Fail.
Proof. unfold mul_div_nww, check. destruct (negb (sm =? sd)); reflexivity. Qed.

(** one coordinate of the non-trivial intersection *)
Lemma coord_sat a b X t d (rng : Prop) (Q : dimif -> Prop) :
  is_int a -> is_int b -> X = b - a -> is_int X -> (rng -> X <> -2147483648) ->
  0 < t < d -> is_llong d ->
  (forall i n, a * d + t * X = (a + i) * d + n -> 0 <= n < d -> is_int (a + i) ->
     Q (mk_dimif i n d)) ->
  sat (mul_div_nww X t d) rng Q.
Proof.
  intros A B EX IX R T D H.
  destruct (Z.eq_dec X (-2147483648)) as [->|NM].
  { rewrite mul_div_min. cbn. intros G. now apply R in G. }
  destruct (mul_div_nww_ok X t d) as (r & -> & RD & V & E & _); auto.
  { unfold is_llong in *. lia. } { unfold is_llong in *. lia. } { lia. }
  cbn [sat]. destruct r as [i n d']. cbn [dif_i dif_n dif_d] in *.
  rewrite Z.sgn_pos in E by lia. rewrite Z.abs_eq in * by lia. subst d'.
  destruct V as (VI & VN & VD). cbn [dif_i dif_n dif_d] in *.
  apply H; [lia|assumption|].
  assert (X >= 0 -> 0 <= i <= X).
  { intros P. split; [|]. - assert (i * d > - d) by nia. nia. - assert (i * d <= X * d) by nia. nia. }
  assert (X < 0 -> X <= i <= 0).
  { intros P. assert (X * t > X * d) by nia. split.
    - assert (i * d > (X - 1) * d) by nia. nia.
    - assert (i * d < 1 * d) by nia. nia. }
  unfold is_int in *. lia.
Qed.

Lemma mixed_unique i n j m d : 0 <= n < d -> 0 <= m < d -> i * d + n = j * d + m -> i = j /\ n = m.
Proof.
  intros N M E.
  assert (i = j). { assert (i * d < (j + 1) * d) by lia. assert (j * d < (i + 1) * d) by lia. nia. }
  subst. lia.
Qed.

Lemma intersect_sat p1 p2 p3 p4 : vec_int p1 -> vec_int p2 -> vec_int p3 -> vec_int p4 ->
  sat (vec2if_intersect p1 p2 p3 p4) (vec_range p1 /\ vec_range p2 /\ vec_range p3 /\ vec_range p4)
      (fun ri => intersect_spec p1 p2 p3 p4 (fst ri) (snd ri)).
Proof.
  intros I1 I2 I3 I4. set (rng := _ /\ _).
  assert (RB : rng -> forall v, v = p1 \/ v = p2 \/ v = p3 \/ v = p4 ->
                  Z.abs (fst v) <= 1073741823 /\ Z.abs (snd v) <= 1073741823).
  { unfold rng, vec_range, in_range. change (2 ^ 30) with 1073741824. intros G v V.
    destruct V as [ -> | [ -> | [ -> | -> ]]]; lia. }
  assert (RD : rng -> forall v w, (v = p1 \/ v = p2 \/ v = p3 \/ v = p4) -> (w = p1 \/ w = p2 \/ w = p3 \/ w = p4) ->
                  Z.abs (fst v - fst w) <= 2147483646 /\ Z.abs (snd v - snd w) <= 2147483646).
  { intros G v w V W'. pose proof (RB G v V). pose proof (RB G w W'). lia. }
  assert (RI : rng -> forall v w, (v = p1 \/ v = p2 \/ v = p3 \/ v = p4) -> (w = p1 \/ w = p2 \/ w = p3 \/ w = p4) ->
                  is_int (fst v - fst w) /\ is_int (snd v - snd w)).
  { intros G v w V W'. pose proof (RD G v w V W'). unfold is_int. lia. }
  unfold vec2if_intersect, dim_sub.
  apply sat_bind, sat_ck32; [intros G; apply (RI G p2 p1); auto|intros IX].
  apply sat_bind, sat_ck32; [intros G; apply (RI G p2 p1); auto|intros IY].
  apply sat_bind, sat_ck32; [intros G; apply (RI G p4 p3); auto|intros JX].
  apply sat_bind, sat_ck32; [intros G; apply (RI G p4 p3); auto|intros JY].
  apply sat_bind, cross_z_sat.
  { intros G. pose proof (RD G p2 p1 ltac:(auto) ltac:(auto)). pose proof (RD G p4 p3 ltac:(auto 6) ltac:(auto)). tauto. }
  intros ID. fold (SX p1 p2) (SY p1 p2) (TX p3 p4) (TY p3 p4) in *.
  fold (DD p1 p2 p3 p4) in *.
  destruct (Z.eqb_spec (DD p1 p2 p3 p4) 0) as [D0|DN].
  { cbn. split; [auto|]. assert (P : parallel p1 p2 p3 p4).
    { unfold parallel. unfold DD, SX, SY, TX, TY in D0. lia. }
    split; intros NP; now elim NP. }
  apply sat_bind, sat_ck32; [intros G; apply (RI G p3 p1); auto|intros KX].
  apply sat_bind, sat_ck32; [intros G; apply (RI G p3 p1); auto|intros KY].
  apply sat_bind, cross_z_sat.
  { intros G. pose proof (RD G p3 p1 ltac:(auto) ltac:(auto)). pose proof (RD G p4 p3 ltac:(auto 6) ltac:(auto)). tauto. }
  intros IT.
  apply sat_bind, cross_z_sat.
  { intros G. pose proof (RD G p3 p1 ltac:(auto) ltac:(auto)). pose proof (RD G p2 p1 ltac:(auto 6) ltac:(auto)). tauto. }
  intros IU.
  fold (TT p1 p3 p4) (UU p1 p2 p3) in *.
  assert (CB : rng -> DD p1 p2 p3 p4 <> -9223372036854775808 /\ TT p1 p3 p4 <> -9223372036854775808 /\ UU p1 p2 p3 <> -9223372036854775808).
  { intros G.
    pose proof (RD G p3 p1 ltac:(auto) ltac:(auto)) as [A1 A2].
    pose proof (RD G p4 p3 ltac:(auto 6) ltac:(auto)) as [A3 A4].
    pose proof (RD G p2 p1 ltac:(auto) ltac:(auto)) as [A5 A6].
    fold (SX p1 p2) (SY p1 p2) (TX p3 p4) (TY p3 p4) in *.
    unfold DD, TT, UU.
    pose proof (mulb _ _ _ A5 A4). pose proof (mulb _ _ _ A6 A3).
    pose proof (mulb _ _ _ A1 A4). pose proof (mulb _ _ _ A2 A3).
    pose proof (mulb _ _ _ A1 A6). pose proof (mulb _ _ _ A2 A5).
    change (2147483646 * 2147483646) with 4611686009837453316 in *.
    assert (AD : forall a b, Z.abs a <= 4611686009837453316 -> Z.abs b <= 4611686009837453316 -> a - b <> -9223372036854775808) by (clear; lia).
    split; [|split]; apply AD; assumption. }
  apply sat_bind.
  set (dn := DD p1 p2 p3 p4 <? 0).
  assert (SD : sat (if dn then dimw_neg (DD p1 p2 p3 p4) else Ok (DD p1 p2 p3 p4)) rng
                 (fun d => d = Z.abs (DD p1 p2 p3 p4) /\ is_llong d /\ 0 < d)).
  { subst dn. destruct (Z.ltb_spec (DD p1 p2 p3 p4) 0).
    - unfold dimw_neg, dimw_sub. apply sat_ck64; unfold is_llong in *.
      + intros G. apply CB in G. lia.
      + lia.
    - cbn. unfold is_llong in *. lia. }
  destruct (if dn then _ else _) as [d| |]; [|exact SD|exact SD].
  cbn [sat] in SD |- *. destruct SD as (ED & LD & PD).
  apply sat_bind, pos_on_seg_ok; [assumption|assumption|intros G; now apply CB| |].
  all: assert (SG : forall tau ups, tau = (if dn then - TT p1 p3 p4 else TT p1 p3 p4) ->
          ups = (if dn then - UU p1 p2 p3 else UU p1 p2 p3) ->
          (d = DD p1 p2 p3 p4 /\ tau = TT p1 p3 p4 /\ ups = UU p1 p2 p3) \/
          (d = - DD p1 p2 p3 p4 /\ tau = - TT p1 p3 p4 /\ ups = - UU p1 p2 p3));
    [intros tau ups -> ->; subst dn; destruct (Z.ltb_spec (DD p1 p2 p3 p4) 0); [right|left]; lia|].
  { intros N. cbn. eapply spec_zero; [exact PD|apply SG; reflexivity|]. left. exact N. }
  intros TB.
  apply sat_bind, pos_on_seg_ok; [assumption|assumption|intros G; now apply CB| |].
  { intros N. cbn. eapply spec_zero; [exact PD|apply SG; reflexivity|]. right. exact N. }
  intros UB'.
  set (tau := if dn then - TT p1 p3 p4 else TT p1 p3 p4) in *.
  set (ups := if dn then - UU p1 p2 p3 else UU p1 p2 p3) in *.
  specialize (SG tau ups eq_refl eq_refl).
  cbv zeta.
  assert (SP : forall r vx vy, valid vx -> valid vy ->
     (value vx == px p1 p2 tau d)%Q -> (value vy == py p1 p2 tau d)%Q ->
     0 < r < 32 -> Z.testbit r 0 = true ->
     (Z.testbit r 1 = true <-> tau = 0) -> (Z.testbit r 2 = true <-> tau = d) ->
     (Z.testbit r 3 = true <-> ups = 0) -> (Z.testbit r 4 = true <-> ups = d) ->
     intersect_spec p1 p2 p3 p4 r (Some (vx, vy))).
  { intros. eapply spec_pos; eauto. }
  clearbody tau ups dn.
  assert (PI : forall v, vec_int v -> point_is v (px p1 p2 tau d) (py p1 p2 tau d) ->
            valid (fst (vec2ifi v)) /\ valid (snd (vec2ifi v)) /\
            (value (fst (vec2ifi v)) == px p1 p2 tau d)%Q /\ (value (snd (vec2ifi v)) == py p1 p2 tau d)%Q).
  { intros v [V1 V2] [P1 P2]. cbn [vec2ifi fst snd]. split; [now apply valid_int|]. split; [now apply valid_int|].
    rewrite !value_int. split; now symmetry. }
  assert (C1 : tau = 0 -> point_is p1 (px p1 p2 tau d) (py p1 p2 tau d)) by (intros E; eapply is_p1; eauto).
  assert (C2 : tau = d -> point_is p2 (px p1 p2 tau d) (py p1 p2 tau d)) by (intros E; eapply is_p2; eauto).
  assert (C3 : ups = 0 -> point_is p3 (px p1 p2 tau d) (py p1 p2 tau d)) by (intros E; eapply is_p3; eauto).
  assert (C4 : ups = d -> point_is p4 (px p1 p2 tau d) (py p1 p2 tau d)) by (intros E; eapply is_p4; eauto).
  destruct (Z.eqb_spec tau 0) as [T0|TN].
  { cbn [sat fst snd]. destruct (PI p1 I1 (C1 T0)) as (? & ? & ? & ?).
    apply SP; auto; destruct (Z.eqb_spec ups 0), (Z.eqb_spec ups d); try (cbn; lia); cbn; split; intros; try lia; try discriminate; auto. }
  destruct (Z.eqb_spec tau d) as [TD|TZ].
  { cbn [sat fst snd]. destruct (PI p2 I2 (C2 TD)) as (? & ? & ? & ?).
    apply SP; auto; destruct (Z.eqb_spec ups 0), (Z.eqb_spec ups d); try (cbn; lia); cbn; split; intros; try lia; try discriminate; auto. }
  destruct (Z.eqb_spec ups 0) as [U0|UZ].
  { cbn [sat fst snd]. destruct (PI p3 I3 (C3 U0)) as (? & ? & ? & ?).
    apply SP; auto; try (cbn; lia); cbn; split; intros; try lia; try discriminate; auto. }
  destruct (Z.eqb_spec ups d) as [UD|UZ2].
  { cbn [sat fst snd]. destruct (PI p4 I4 (C4 UD)) as (? & ? & ? & ?).
    apply SP; auto; try (cbn; lia); cbn; split; intros; try lia; try discriminate; auto. }
  destruct I1 as [I1x I1y], I2 as [I2x I2y], I3 as [I3x I3y], I4 as [I4x I4y].
  apply sat_bind, (coord_sat (fst p1) (fst p2)); auto; [intros G; pose proof (RD G p2 p1 ltac:(auto) ltac:(auto)); unfold SX; lia|lia|].
  intros ix nx EX NX FX.
  apply sat_bind, (coord_sat (snd p1) (snd p2)); auto; [intros G; pose proof (RD G p2 p1 ltac:(auto) ltac:(auto)); unfold SY; lia|lia|].
  intros iy ny EY NY FY. cbn [dif_i dif_n dif_d].
  unfold dim_add. apply sat_bind, sat_ck32; [auto|intros _]. apply sat_bind, sat_ck32; [auto|intros _].
  apply sat_bind, (coord_sat (fst p3) (fst p4)); auto; [intros G; pose proof (RD G p4 p3 ltac:(auto 6) ltac:(auto)); unfold TX; lia|lia|].
  intros jx mx EX' NX' FX'.
  apply sat_bind, (coord_sat (snd p3) (snd p4)); auto; [intros G; pose proof (RD G p4 p3 ltac:(auto 6) ltac:(auto)); unfold TY; lia|lia|].
  intros jy my EY' NY' FY'. cbn [dif_i dif_n dif_d].
  apply sat_bind, sat_ck32; [auto|intros _]. apply sat_bind, sat_ck32; [auto|intros _].
  pose proof (id_x p1 p2 p3 p4 tau ups d PD SG) as IDX. pose proof (id_y p1 p2 p3 p4 tau ups d PD SG) as IDY.
  destruct (mixed_unique (fst p1 + ix) nx (fst p3 + jx) mx d NX NX') as [QX RX]; [lia|].
  destruct (mixed_unique (snd p1 + iy) ny (snd p3 + jy) my d NY NY') as [QY RY]; [lia|].
  rewrite !check_true by lia. cbn [bind]. cbn [sat fst snd].
  assert (LU : is_ullong d) by (unfold is_llong, is_ullong in *; change (2 ^ 64) with 18446744073709551616; lia).
  apply SP; try (cbn; lia).
  - unfold valid. cbn. auto.
  - unfold valid. cbn. auto.
  - rewrite value_frac by lia. rewrite px_frac by assumption. now rewrite <- EX.
  - rewrite value_frac by lia. rewrite py_frac by assumption. now rewrite <- EY.
Qed.

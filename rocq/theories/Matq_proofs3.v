From Coq Require Import ZArith QArith Bool Lia Lqa ZifyBool.
From Verif Require Import Matq_model Matq_spec Matq_proofs Matq_proofs2.
Local Open Scope Z_scope.

(** ** values as rational numbers *)
Lemma value_make x : 0 < dif_d x -> (value x == Qmake (dif_i x * dif_d x + dif_n x) (Z.to_pos (dif_d x)))%Q.
Proof.
  intros D. destruct x as [i n d]. unfold value, Qeq. cbn [dif_i dif_n dif_d] in *.
  destruct d as [|d|d]; try lia. cbn [Z.to_pos].
  unfold Qdiv, Qinv, inject_Z, Qplus, Qmult, Qnum, Qden. nia.
Qed.

Lemma value_cmp a b : 0 < dif_d a -> 0 < dif_d b ->
  Qcompare (value a) (value b) =
  Z.compare ((dif_i a * dif_d a + dif_n a) * dif_d b) ((dif_i b * dif_d b + dif_n b) * dif_d a).
Proof.
  intros A B. rewrite (value_make a A), (value_make b B). unfold Qcompare, Qnum, Qden.
  rewrite !Z2Pos.id by assumption. reflexivity.
Qed.

Lemma cp_cmp_sign a b : cp_cmp a b = sign_of (Z.compare a b).
Proof. unfold cp_cmp. destruct (Z.compare_spec a b), (Z.ltb_spec a b), (Z.ltb_spec b a); try lia; reflexivity. Qed.

Lemma frac_eq a b : 0 < dif_d a -> 0 < dif_d b -> dif_i a = dif_i b ->
  Qcompare (value a) (value b) = Z.compare (dif_n a * dif_d b) (dif_d a * dif_n b).
Proof.
  intros A B E. rewrite value_cmp by assumption. rewrite E.
  rewrite <- (Zcompare_plus_compat (dif_n a * dif_d b) (dif_d a * dif_n b) (dif_i b * dif_d a * dif_d b)).
  f_equal; ring.
Qed.

Lemma u128 a b : is_ullong a -> is_ullong b -> (a * b) mod (WW * WW) = a * b.
Proof. intros A B. apply Z.mod_small. unfold is_ullong in *. change (2 ^ 64) with WW in *. nia. Qed.

Lemma cmp_frac_ok nat a b : valid a -> valid b -> dif_i a = dif_i b ->
  cmp_frac nat a b = Ok (sign_of (Qcompare (value a) (value b))).
Proof.
  intros (_ & A1 & A2) (_ & B1 & B2) E. rewrite frac_eq by (auto; lia).
  assert (NA : is_ullong (dif_n a)) by (unfold is_ullong in *; lia).
  assert (NB : is_ullong (dif_n b)) by (unfold is_ullong in *; lia).
  destruct nat; cbn [cmp_frac].
  - unfold cmp_frac_native. rewrite !u128 by assumption. now rewrite cp_cmp_sign.
  - unfold cmp_frac_aux.
    destruct (Z.eqb_spec (Z.lor (dif_n a) (dif_n b)) 0) as [L|L].
    { apply Z.lor_eq_0_iff in L as [-> ->]. now rewrite Z.mul_0_r. }
    assert (NZ : dif_n a <> 0 \/ dif_n b <> 0).
    { destruct (Z.eq_dec (dif_n a) 0) as [Ea|]; [|auto]. right. intros Eb. apply L. now rewrite Ea, Eb. }
    destruct (Z.eqb_spec (dif_n a) (dif_n b)) as [En|En], (Z.eqb_spec (dif_d a) (dif_d b)) as [Ed|Ed]; cbn [andb].
    { rewrite En, Ed, Z.mul_comm, Z.compare_refl. reflexivity. }
    all: destruct (Z.leb_spec (dif_n b) (dif_n a)), (Z.leb_spec (dif_d a) (dif_d b)); cbn [andb];
      try (rewrite (proj2 (Z.compare_gt_iff _ _)) by nia; reflexivity).
    all: destruct (Z.leb_spec (dif_n a) (dif_n b)), (Z.leb_spec (dif_d b) (dif_d a)); cbn [andb];
      try (rewrite (proj2 (Z.compare_lt_iff _ _)) by nia; reflexivity); try lia.
    all: destruct (udimw_mul_aux_ok (dif_n a) (dif_d b) NA B2) as (h1 & l1 & -> & HH1 & LL1 & E1);
      destruct (udimw_mul_aux_ok (dif_d a) (dif_n b) A2 NB) as (h2 & l2 & -> & HH2 & LL2 & E2);
      cbn [bind]; f_equal; unfold udimq_cmp; cbn [fst snd]; rewrite !cp_cmp_sign;
      unfold is_ullong in *; rewrite <- E1, <- E2; clear E1 E2;
      destruct (Z.compare_spec h1 h2); cbn [sign_of];
      [subst; cbn [Z.eqb negb]; f_equal; rewrite Zcompare_plus_compat; reflexivity
      |cbn [Z.eqb negb]; rewrite (proj2 (Z.compare_lt_iff _ _)) by lia; reflexivity
      |cbn [Z.eqb negb]; rewrite (proj2 (Z.compare_gt_iff _ _)) by lia; reflexivity].
Qed.

Lemma mixed_lt ia na da ib nb db : 0 <= na < da -> 0 <= nb < db -> ia < ib ->
  (ia * da + na) * db < (ib * db + nb) * da.
Proof.
  intros A B L. assert (0 < da * db) by nia. assert (0 <= nb * da) by nia.
  assert (na * db < da * db) by nia. assert (0 <= (ib - ia - 1) * (da * db)) by nia. lia.
Qed.

Lemma dimif_cmp_ok nat a b : valid a -> valid b ->
  dimif_cmp nat a b = Ok (sign_of (Qcompare (value a) (value b))).
Proof.
  intros A B. unfold dimif_cmp. rewrite cp_cmp_sign.
  destruct (Z.compare_spec (dif_i a) (dif_i b)) as [E|L|G]; cbn [sign_of Z.eqb negb].
  - now apply cmp_frac_ok.
  - destruct A as (_ & A1 & A2), B as (_ & B1 & B2). rewrite value_cmp by lia.
    rewrite (proj2 (Z.compare_lt_iff _ _)); [reflexivity|]. now apply mixed_lt.
  - destruct A as (_ & A1 & A2), B as (_ & B1 & B2). rewrite value_cmp by lia.
    rewrite (proj2 (Z.compare_gt_iff _ _)); [reflexivity|]. now apply mixed_lt.
Qed.

Lemma vec2if_cmp_ok nat a b : valid (fst a) -> valid (snd a) -> valid (fst b) -> valid (snd b) ->
  vec2if_cmp nat a b =
  Ok (sign_of (match Qcompare (value (fst a)) (value (fst b)) with
               | Eq => Qcompare (value (snd a)) (value (snd b))
               | c => c
               end)).
Proof.
  intros A1 A2 B1 B2. unfold vec2if_cmp. rewrite dimif_cmp_ok by assumption. cbn [bind].
  destruct (Qcompare (value (fst a)) (value (fst b))); cbn [sign_of Z.eqb negb]; try reflexivity.
  now apply dimif_cmp_ok.
Qed.

Lemma vec2if_eq_ok nat a b : valid (fst a) -> valid (snd a) -> valid (fst b) -> valid (snd b) ->
  exists r, vec2if_eq nat a b = Ok r /\
    (r = true <-> (value (fst a) == value (fst b))%Q /\ (value (snd a) == value (snd b))%Q).
Proof.
  intros A1 A2 B1 B2. unfold vec2if_eq, dimif_eq. rewrite !dimif_cmp_ok by assumption. cbn [bind].
  assert (QA : forall x y, (x == y)%Q <-> Qcompare x y = Eq) by (intros; apply Qeq_alt).
  setoid_rewrite QA. clear QA.
  destruct (Qcompare (value (fst a)) (value (fst b))); cbn [sign_of Z.eqb]; cbn [bind];
    try (eexists; split; [reflexivity|]; split; [discriminate|intros [? _]; discriminate]).
  eexists; split; [reflexivity|].
  destruct (Qcompare (value (snd a)) (value (snd b))); cbn [sign_of Z.eqb]; split;
    try discriminate; try (intros [_ ?]; discriminate); auto.
Qed.

Lemma dim_dimif_cmp_ok a b : valid b ->
  dim_dimif_cmp a b = sign_of (Qcompare (inject_Z a) (value b)).
Proof.
  intros (_ & B1 & B2). rewrite (value_make b) by lia. unfold Qcompare, inject_Z, Qnum, Qden.
  rewrite Z2Pos.id by lia. rewrite Z.mul_1_r. unfold dim_dimif_cmp. clear B2.
  destruct (Z.ltb_spec a (dif_i b)).
  { rewrite (proj2 (Z.compare_lt_iff _ _)); [reflexivity|nia]. }
  destruct (Z.ltb_spec (dif_i b) a).
  { rewrite (proj2 (Z.compare_gt_iff _ _)); [reflexivity|nia]. }
  destruct (Z.ltb_spec 0 (dif_n b)).
  { rewrite (proj2 (Z.compare_lt_iff _ _)); [reflexivity|nia]. }
  rewrite (proj2 (Z.compare_eq_iff _ _)); [reflexivity|]. assert (a = dif_i b) by lia. nia.
Qed.

Lemma vec2_vec2if_cmp_ok a b : valid (fst b) -> valid (snd b) ->
  vec2_vec2if_cmp a b =
  sign_of (match Qcompare (inject_Z (fst a)) (value (fst b)) with
           | Eq => Qcompare (inject_Z (snd a)) (value (snd b))
           | c => c
           end).
Proof.
  intros B1 B2. pose proof (dim_dimif_cmp_ok (fst a) (fst b) B1) as X.
  pose proof (dim_dimif_cmp_ok (snd a) (snd b) B2) as Y.
  unfold vec2_vec2if_cmp, dim_dimif_cmp in *.
  destruct (fst a <? dif_i (fst b)), (dif_i (fst b) <? fst a), (0 <? dif_n (fst b));
    destruct (Qcompare (inject_Z (fst a)) (value (fst b))); cbn [sign_of] in *;
    try discriminate; auto.
Qed.

(** rounding *)
Lemma round_ok x : valid x -> dif_i x < 2147483647 ->
  exists q, round x = Ok q /\ (inject_Z q - (1 # 2) <= value x /\ value x < inject_Z q + (1 # 2))%Q.
Proof.
  intros (I & N & D) L. unfold round.
  assert (H2 : u64 (dif_d x / 2 + Z.land (dif_d x) 1) = Z.quot (dif_d x) 2 + Z.land (dif_d x) 1).
  { rewrite Z.quot_div_nonneg by lia. rewrite u64_id; [reflexivity|].
    change 1 with (Z.ones 1). rewrite Z.land_ones by lia. change (2 ^ 1) with 2.
    pose proof (Z.div_mod (dif_d x) 2 ltac:(lia)). pose proof (Z.mod_pos_bound (dif_d x) 2 ltac:(lia)).
    unfold is_ullong in *. lia. }
  rewrite H2. clear H2. pose proof (half_up (dif_d x) ltac:(lia) (dif_n x)) as H.
  assert (P : forall q, dif_d x * (2 * q - 1) <= 2 * (dif_i x * dif_d x + dif_n x) < dif_d x * (2 * q + 1) ->
          (inject_Z q - (1 # 2) <= value x /\ value x < inject_Z q + (1 # 2))%Q).
  { intros q Hq. rewrite (value_make x) by lia. unfold Qle, Qlt, Qminus, Qplus, Qopp, inject_Z, Qnum, Qden.
    rewrite !Pos2Z.inj_mul, !Z2Pos.id by lia. lia. }
  destruct (Z.leb_spec (Z.quot (dif_d x) 2 + Z.land (dif_d x) 1) (dif_n x)) as [A|A].
  - apply H in A. unfold dim_add, ck32. replace (fits32 (dif_i x + 1)) with true by (unf; lia).
    eexists. split; [reflexivity|]. apply P. nia.
  - assert (~ dif_d x <= 2 * dif_n x) by (rewrite <- H; lia).
    eexists. split; [reflexivity|]. apply P. nia.
Qed.

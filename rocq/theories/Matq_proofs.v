From Coq Require Import ZArith QArith Bool Lia Lqa ZifyBool.
From Verif Require Import Matq_model Matq_spec.
Local Open Scope Z_scope.

Ltac unf := unfold is_int, is_llong, is_uint, is_ullong, in_range, fits32, fits64, fitsu32, fitsu64 in *.
Ltac Zify.zify_post_hook ::= idtac.

Lemma WE : W = 2 ^ 32. Proof. reflexivity. Qed.
Lemma WWE : WW = 2 ^ 64. Proof. reflexivity. Qed.
Lemma WW2 : WW = W * W. Proof. reflexivity. Qed.

Lemma fits32_int x : fits32 x = true <-> is_int x. Proof. unf. lia. Qed.
Lemma fits64_int x : fits64 x = true <-> is_llong x. Proof. unf. lia. Qed.
Lemma fitsu64_int x : fitsu64 x = true <-> is_ullong x. Proof. unf. change (2 ^ 64) with 18446744073709551616. lia. Qed.
Lemma fitsu32_int x : fitsu32 x = true <-> is_uint x. Proof. unf. change (2 ^ 32) with 4294967296. lia. Qed.

Lemma u32_id x : is_uint x -> u32 x = x.
Proof. intros H. unfold u32. apply Z.mod_small. exact H. Qed.
Lemma u64_id x : is_ullong x -> u64 x = x.
Proof. intros H. unfold u64. apply Z.mod_small. exact H. Qed.
Lemma s32_id x : is_int x -> s32 x = x.
Proof. intros H. unfold s32. rewrite Z.mod_small; unf; unfold W; lia. Qed.
Lemma u32_range x : is_uint (u32 x).
Proof. unfold u32, is_uint. apply Z.mod_pos_bound. reflexivity. Qed.
Lemma u64_range x : is_ullong (u64 x).
Proof. unfold u64, is_ullong. apply Z.mod_pos_bound. reflexivity. Qed.

(** ** division *)
Lemma quot_bound x d : d <> 0 -> Z.abs (Z.quot x d) <= Z.abs x.
Proof.
  intros H. rewrite <- Z.quot_abs by exact H.
  destruct (Z.eq_dec (Z.abs d) 1) as [E|E].
  - rewrite E, Z.quot_1_r. lia.
  - apply Z.quot_le_upper_bound; nia.
Qed.

(** Euclidean division *)
Lemma euclid_fix_ok ub fits d x : d <> 0 ->
  (forall y, fits y = true -> ub y = Ok y) ->
  (forall y, Z.abs y <= Z.abs d - 1 -> fits y = true) ->
  (Z.abs d >= 2 -> forall y, Z.abs y <= Z.abs (Z.quot x d) + 1 -> fits y = true) ->
  exists q m, euclid_fix ub d (Z.quot x d) (Z.rem x d) = Ok (q, m) /\
    x = d * q + m /\ 0 <= m < Z.abs d.
Proof.
  intros D U F G. unfold euclid_fix.
  pose proof (Z.quot_rem' x d) as E. pose proof (Z.rem_bound_abs x d D) as B.
  destruct (Z.leb_spec 0 (Z.rem x d)).
  - eexists _, _. split; [reflexivity|]. lia.
  - assert (Z.abs d >= 2) by lia.
    destruct (Z.leb_spec 0 d).
    + rewrite (U (Z.quot x d - 1)) by (apply G; lia). cbn [bind].
      rewrite (U (Z.rem x d + d)) by (apply F; lia). cbn [bind].
      eexists _, _. split; [reflexivity|]. lia.
    + rewrite (U (Z.quot x d + 1)) by (apply G; lia). cbn [bind].
      rewrite (U (Z.rem x d - d)) by (apply F; lia). cbn [bind].
      eexists _, _. split; [reflexivity|]. lia.
Qed.

Lemma quot_half x d : Z.abs d >= 2 -> 2 * Z.abs (Z.quot x d) <= Z.abs x.
Proof.
  intros H. rewrite <- Z.quot_abs by lia. rewrite Z.quot_div_nonneg by lia.
  pose proof (Z.mul_div_le (Z.abs x) (Z.abs d) ltac:(lia)).
  pose proof (Z.div_pos (Z.abs x) (Z.abs d) ltac:(lia) ltac:(lia)). nia.
Qed.

Lemma c_div_ok fits x d : d <> 0 -> fits (Z.quot x d) = true -> c_div fits x d = Ok (Z.quot x d).
Proof. intros D F. unfold c_div. rewrite F. destruct (Z.eqb_spec d 0); [lia|reflexivity]. Qed.
Lemma c_rem_ok fits x d : d <> 0 -> fits (Z.quot x d) = true -> c_rem fits x d = Ok (Z.rem x d).
Proof. intros D F. unfold c_rem. rewrite F. destruct (Z.eqb_spec d 0); [lia|reflexivity]. Qed.

Lemma quot_small32 x d : is_int x -> d <> 0 -> (x <> -2147483648 \/ d <> -1) -> is_int (Z.quot x d).
Proof.
  intros X D N. destruct (Z.eq_dec d (-1)) as [->|].
  - change (-1) with (- (1)). rewrite Z.quot_opp_r, Z.quot_1_r by lia. unf. lia.
  - destruct (Z.eq_dec d 1) as [->|]; [rewrite Z.quot_1_r; exact X|].
    pose proof (quot_half x d ltac:(lia)). unf. lia.
Qed.
Lemma quot_small64 x d : is_llong x -> d <> 0 -> (x <> -9223372036854775808 \/ d <> -1) -> is_llong (Z.quot x d).
Proof.
  intros X D N. destruct (Z.eq_dec d (-1)) as [->|].
  - change (-1) with (- (1)). rewrite Z.quot_opp_r, Z.quot_1_r by lia. unf. lia.
  - destruct (Z.eq_dec d 1) as [->|]; [rewrite Z.quot_1_r; exact X|].
    pose proof (quot_half x d ltac:(lia)). unf. lia.
Qed.

Lemma divmod_ok x d : is_int x -> is_int d -> d <> 0 -> (x <> -2147483648 \/ d <> -1) ->
  exists q m, divmod x d = Ok (q, m) /\ x = d * q + m /\ 0 <= m < Z.abs d.
Proof.
  intros X D N M. pose proof (quot_small32 x d X N M) as Q.
  unfold divmod. rewrite c_div_ok by (auto; now apply fits32_int). cbn [bind].
  rewrite c_rem_ok by (auto; now apply fits32_int). cbn [bind].
  apply euclid_fix_ok with fits32; auto.
  - intros y Y. unfold ub32. now rewrite Y.
  - intros y Y. unf. lia.
  - intros A y Y. pose proof (quot_half x d A). unf. lia.
Qed.

Lemma divmodw_ok x d : is_llong x -> is_llong d -> d <> 0 -> (x <> -9223372036854775808 \/ d <> -1) ->
  exists q m, divmodw x d = Ok (q, m) /\ x = d * q + m /\ 0 <= m < Z.abs d.
Proof.
  intros X D N M. pose proof (quot_small64 x d X N M) as Q.
  unfold divmodw. rewrite c_div_ok by (auto; now apply fits64_int). cbn [bind].
  rewrite c_rem_ok by (auto; now apply fits64_int). cbn [bind].
  apply euclid_fix_ok with fits64; auto.
  - intros y Y. unfold ub64. now rewrite Y.
  - intros y Y. unf. lia.
  - intros A y Y. pose proof (quot_half x d A). unf. lia.
Qed.

Lemma divmodx_ok x d : is_int x -> is_int d -> d <> 0 -> (x <> -2147483648 \/ d <> -1) ->
  exists q m, divmodx x d = Ok (q, m) /\ x = d * q + m /\ 0 <= m < Z.abs d.
Proof.
  intros X D N M. pose proof (quot_small32 x d X N M) as Q.
  assert (Q' : fits64 (Z.quot x d) = true) by (unf; lia).
  unfold divmodx. rewrite c_div_ok, c_rem_ok by auto. cbn [bind].
  pose proof (Z.quot_rem' x d) as E. pose proof (Z.rem_bound_abs x d N) as B.
  assert (RS : Z.abs (Z.rem x d) <= Z.abs x).
  { rewrite <- Z.rem_abs by auto. rewrite Z.rem_mod_nonneg by lia. apply Z.mod_le; lia. }
  assert (SG : 0 <= x * Z.rem x d) by (rewrite Z.mul_comm; apply Z.rem_sign_mul; auto).
  assert (R : is_int (Z.rem x d)) by (unf; lia).
  rewrite !s32_id by assumption.
  assert (P : is_int (Z.quot x d * d)).
  { assert (Z.quot x d * d = x - Z.rem x d) as -> by lia. unf. nia. }
  unfold ub32 at 1. rewrite (proj2 (fits32_int _) P). cbn [bind].
  unfold ub32 at 1. replace (Z.rem x d + Z.quot x d * d) with x by lia.
  rewrite (proj2 (fits32_int _) X). cbn [bind]. unfold check. rewrite Z.eqb_refl. cbn [bind].
  apply euclid_fix_ok with fits32; auto.
  - intros y Y. unfold ub32. now rewrite Y.
  - intros y Y. unf. lia.
  - intros A y Y. pose proof (quot_half x d A). unf. lia.
Qed.

(** rounding *)
Lemma half_up d : 0 < d -> forall m, Z.quot d 2 + Z.land d 1 <= m <-> d <= 2 * m.
Proof.
  intros D m. rewrite Z.quot_div_nonneg by lia.
  change 1 with (Z.ones 1). rewrite Z.land_ones by lia. change (2 ^ 1) with 2.
  pose proof (Z.div_mod d 2 ltac:(lia)). pose proof (Z.mod_pos_bound d 2 ltac:(lia)). lia.
Qed.

Lemma divw_rnd_ok x d : is_llong x -> is_llong d -> 0 < d ->
  exists q, divw_rnd x d = Ok q /\ 2 * x - d < 2 * d * q <= 2 * x + d.
Proof.
  intros X D P. unfold divw_rnd.
  destruct (divmodw_ok x d X D ltac:(lia) ltac:(lia)) as (q & m & -> & E & M). cbn [bind].
  rewrite c_div_ok; [|lia|].
  2:{ apply fits64_int, quot_small64; auto; lia. }
  cbn [bind]. pose proof (half_up d P m) as H.
  destruct (Z.leb_spec (Z.quot d 2 + Z.land d 1) m) as [L|L].
  - apply H in L. assert (F : fits64 (q + 1) = true).
    { assert (d <> 1) by lia.  unf. 
      assert (d >= 2) by lia. nia. }
    unfold ub64. rewrite F. eexists. split; [reflexivity|]. nia.
  - assert (~ d <= 2 * m) by (rewrite <- H; lia). eexists. split; [reflexivity|]. nia.
Qed.

(** ** wide arithmetic *)
Lemma lor_add a b n : 0 <= n -> 0 <= b < 2 ^ n -> Z.lor (a * 2 ^ n) b = a * 2 ^ n + b.
Proof.
  intros N B. assert (L : Z.land (a * 2 ^ n) b = 0); [|now rewrite Z.add_nocarry_lxor, Z.lxor_lor].
  apply Z.bits_inj'. intros k K.
  rewrite Z.land_spec, Z.bits_0.
  destruct (Z.ltb_spec k n).
  - rewrite Z.mul_pow2_bits_low by lia. reflexivity.
  - destruct (Z.eq_dec b 0) as [->|]; [rewrite Z.bits_0; apply andb_false_r|].
    rewrite (Z.bits_above_log2 b k), andb_false_r; [reflexivity|lia|].
    apply Z.log2_lt_pow2; [lia|]. apply Z.lt_le_trans with (2 ^ n); [lia|].
    apply Z.pow_le_mono_r; lia.
Qed.

Definition uval (e : udime) : Z := e_hi e * W + e_lo e.
Definition uok (e : udime) : Prop := is_ullong (e_hi e) /\ is_uint (e_lo e).

Lemma WP : 0 < W. Proof. reflexivity. Qed.

Lemma divmodW x : is_ullong x -> x = (x / W) * W + u32 x /\ is_uint (x / W) /\ is_uint (u32 x).
Proof.
  intros X. pose proof (Z.div_mod x W ltac:(discriminate)) as E. unfold u32.
  pose proof (Z.mod_pos_bound x W WP) as B. split; [lia|]. split.
  - split; [apply Z.div_pos; [apply X|reflexivity]|].
    apply Z.div_lt_upper_bound; [reflexivity|]. destruct X as [_ X]. exact X.
  - exact B.
Qed.

Lemma shiftr32 x : Z.shiftr x 32 = x / W.
Proof. rewrite Z.shiftr_div_pow2 by lia. reflexivity. Qed.
Lemma shiftl32 x : Z.shiftl x 32 = x * W.
Proof. rewrite Z.shiftl_mul_pow2 by lia. reflexivity. Qed.

Lemma umul a b : is_uint a -> is_uint b -> is_ullong (a * b) /\ a * b <= (W - 1) * (W - 1).
Proof.
  unfold is_uint, is_ullong. change (2 ^ 32) with W. change (2 ^ 64) with (W * W).
  intros A B. pose proof WP. split; [nia|]. nia.
Qed.

Lemma udime_mul_wn_ok a b : is_ullong a -> is_uint b ->
  uok (udime_mul_wn a b) /\ uval (udime_mul_wn a b) = a * b.
Proof.
  intros A B. unfold udime_mul_wn, uok, uval. cbn [e_hi e_lo].
  destruct (divmodW a A) as (Ea & Ah & Al). rewrite !shiftr32.
  rewrite (u32_id (a / W)) by assumption.
  destruct (umul _ _ Al B) as [L1 L2]. destruct (umul _ _ Ah B) as [H1 H2].
  rewrite (u64_id (u32 a * b)), (u64_id (a / W * b)) by assumption.
  destruct (divmodW _ L1) as (El & Lh & Ll).
  rewrite (u32_id (u32 a * b / W)) by assumption.
  assert (S : is_ullong (a / W * b + u32 a * b / W)).
  { clear El Ea. unfold is_uint, is_ullong in *. change (2 ^ 32) with W in *. change (2 ^ 64) with (W * W) in *.
    pose proof WP. nia. }
  rewrite (u64_id _ S). split; [split; assumption|].
  transitivity ((a / W * W + u32 a) * b); [|now rewrite <- Ea].
  rewrite !Z.mul_add_distr_r. rewrite El at 3. ring.
Qed.

Lemma udime_add_ok a b : uok a -> uok b -> uval a + uval b < W * WW ->
  exists c, udime_add a b = Ok c /\ uok c /\ uval c = uval a + uval b.
Proof.
  intros [A1 A2] [B1 B2] L. unfold udime_add, uval, uok in *.
  unfold is_uint, is_ullong in *. change (2 ^ 32) with W in *. change (2 ^ 64) with WW in *. rewrite WW2 in *.
  pose proof WP.
  unfold udimw_add at 1, cku64. replace (fitsu64 (e_hi a + e_hi b)) with true.
  2:{ symmetry. apply fitsu64_int. unfold is_ullong. change (2 ^ 64) with (W * W). nia. }
  cbn [bind]. destruct (fitsu32 (e_lo a + e_lo b)) eqn:F; cbn [negb].
  - apply fitsu32_int in F. eexists. split; [reflexivity|]. cbn [e_hi e_lo]. rewrite u32_id by assumption.
    unfold is_uint in F. change (2 ^ 32) with W in F. nia.
  - assert (O : W <= e_lo a + e_lo b).
    { destruct (Z.le_gt_cases W (e_lo a + e_lo b)); [assumption|].
      exfalso. rewrite (proj2 (fitsu32_int _)) in F; [discriminate|]. unfold is_uint. change (2 ^ 32) with W. lia. }
    unfold udimw_add, cku64. replace (fitsu64 _) with true.
    2:{ symmetry. apply fitsu64_int. unfold is_ullong. change (2 ^ 64) with (W * W). nia. }
    cbn [bind]. eexists. split; [reflexivity|]. cbn [e_hi e_lo].
    assert (U : u32 (e_lo a + e_lo b) = e_lo a + e_lo b - W).
    { unfold u32. symmetry. apply Z.mod_unique with 1; lia. }
    rewrite U. nia.
Qed.

Lemma udime_sub_ok a b : uok a -> uok b -> uval b <= uval a ->
  exists c, udime_sub a b = Ok c /\ uok c /\ uval c = uval a - uval b.
Proof.
  intros [A1 A2] [B1 B2] L. unfold udime_sub, uval, uok in *.
  unfold is_uint, is_ullong in *. change (2 ^ 32) with W in *. change (2 ^ 64) with WW in *. rewrite WW2 in *.
  pose proof WP.
  unfold udimw_sub at 1, cku64. replace (fitsu64 (e_hi a - e_hi b)) with true.
  2:{ symmetry. apply fitsu64_int. unfold is_ullong. change (2 ^ 64) with (W * W). nia. }
  cbn [bind]. destruct (fitsu32 (e_lo a - e_lo b)) eqn:F; cbn [negb].
  - apply fitsu32_int in F. eexists. split; [reflexivity|]. cbn [e_hi e_lo]. rewrite u32_id by assumption.
    unfold is_uint in F. change (2 ^ 32) with W in F. nia.
  - assert (O : e_lo a - e_lo b < 0).
    { destruct (Z.le_gt_cases 0 (e_lo a - e_lo b)); [|assumption].
      exfalso. rewrite (proj2 (fitsu32_int _)) in F; [discriminate|]. unfold is_uint. change (2 ^ 32) with W. lia. }
    unfold udimw_sub, cku64. replace (fitsu64 _) with true.
    2:{ symmetry. apply fitsu64_int. unfold is_ullong. change (2 ^ 64) with (W * W). nia. }
    cbn [bind]. eexists. split; [reflexivity|]. cbn [e_hi e_lo].
    assert (U : u32 (e_lo a - e_lo b) = e_lo a - e_lo b + W).
    { unfold u32. symmetry. apply Z.mod_unique with (-1); lia. }
    rewrite U. nia.
Qed.

(** the 96 by 64 bit division *)
Lemma div_loop_ok u0 v1 v0 : 0 <= u0 < W -> 0 <= v0 < W -> W <= 2 * v1 -> v1 < W -> 
  forall k q r Q,
    0 <= r < W -> 0 <= Q < W ->
    Q * (v1 * W + v0) <= (q * v1 + r) * W + u0 < (Q + 1) * (v1 * W + v0) ->
    Q <= q <= Q + Z.of_nat k -> q < WW ->
    div_loop (S k) u0 v1 v0 q r = Ok Q.
Proof.
  intros U0 V0 V1 V1'. induction k as [|k IH]; intros q r Q R QB E B QQ.
  - assert (q = Q) by lia. subst q. cbn [div_loop].
    destruct (Z.leb_spec W Q) as [|_]; [lia|]. cbn [orb].
    rewrite (u64_id (r * W)), (u64_id (r * W + u0)), (u64_id (Q * v0));
      try (unfold is_ullong; change (2 ^ 64) with (W * W); nia).
    destruct (Z.ltb_spec (r * W + u0) (Q * v0)); [nia|].
    rewrite u32_id; [reflexivity|]. unfold is_uint. change (2 ^ 32) with W. lia.
  - remember (S k) as k1. cbn [div_loop]. subst k1.
    destruct ((W <=? q) || (u64 (u64 (r * W) + u0) <? u64 (q * v0))) eqn:T.
    + assert (q > Q).
      { apply orb_true_iff in T as [T|T]; [lia|].
        destruct (Z.le_gt_cases q Q) as [L|]; [|lia]. assert (q = Q) by lia. subst q.
        apply Z.ltb_lt in T.
        rewrite (u64_id (r * W)), (u64_id (r * W + u0)), (u64_id (Q * v0)) in T;
          try (unfold is_ullong; change (2 ^ 64) with (W * W); nia). }
      rewrite (u64_id (q - 1)) by (unfold is_ullong; change (2 ^ 64) with WW; lia).
      rewrite (u64_id (r + v1)) by (unfold is_ullong; change (2 ^ 64) with (W * W); pose proof WP; nia).
      destruct (Z.ltb_spec (r + v1) W).
      * apply IH; try lia.
      * (* r has become large: q - 1 = Q *)
        assert (q - 1 <= Q).
        { destruct (Z.le_gt_cases (q - 1) Q) as [|L]; [assumption|exfalso].
          assert ((Q + 1) * v0 < W * W) by nia.
          assert (0 <= (q - 1 - (Q + 1)) * v1) by (apply Z.mul_nonneg_nonneg; lia).
          assert (0 <= (q - 1 - (Q + 1)) * v1 * W) by (pose proof WP; nia).
          assert (W * W <= (r + v1) * W) by (pose proof WP; nia).
          assert ((q * v1 + r) * W = (q - 1 - (Q + 1)) * v1 * W + (Q + 1) * (v1 * W) + (r + v1) * W) by ring.
          assert ((Q + 1) * (v1 * W + v0) = (Q + 1) * (v1 * W) + (Q + 1) * v0) by ring.
          lia. }
        assert (q - 1 = Q) by lia. subst Q.
        rewrite u32_id; [reflexivity|]. unfold is_uint. change (2 ^ 32) with W. lia.
    + apply orb_false_iff in T as [T1 T2]. apply Z.leb_gt in T1. apply Z.ltb_ge in T2.
      rewrite (u64_id (r * W)), (u64_id (r * W + u0)), (u64_id (q * v0)) in T2;
        try (unfold is_ullong; change (2 ^ 64) with (W * W); nia).
      assert (q = Q).
      { assert (q * (v1 * W + v0) <= (q * v1 + r) * W + u0) by nia.
        assert (q < Q + 1) by nia. lia. }
      subst q. rewrite u32_id; [reflexivity|]. unfold is_uint. change (2 ^ 32) with W. lia.
Qed.

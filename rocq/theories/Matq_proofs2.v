From Coq Require Import ZArith QArith Bool Lia Lqa ZifyBool.
From Verif Require Import Matq_model Matq_spec Matq_proofs.
Local Open Scope Z_scope.

Ltac rng := unfold is_uint, is_ullong in *; change (2 ^ 32) with W in *; change (2 ^ 64) with (W * W) in *.

(** compute part of the division for a normalised divisor *)
Lemma div_core u1 u0 v : 0 <= u1 < v -> 0 <= u0 < W -> W * W <= 2 * v -> v < W * W ->
  let v1 := u32 (Z.shiftr v 32) in let v0 := u32 v in
  let q := u1 / v1 in let r := u64 (u1 - u64 (q * v1)) in
  div_loop 4 u0 v1 v0 q r = Ok ((u1 * W + u0) / v).
Proof.
  intros U1 U0 N V. cbv zeta. pose proof WP as WP.
  assert (VL : is_ullong v) by (rng; lia).
  destruct (divmodW v VL) as (Ev & Vh & Vl). rewrite shiftr32, (u32_id (v / W)) by assumption.
  set (v1 := v / W) in *. set (v0 := u32 v) in *.
  assert (V1 : W <= 2 * v1).
  { assert (W < 2 * v1 + 2) by (rng; nia). unfold W in *. lia. }
  assert (V1p : 0 < v1) by lia.
  pose proof (Z.div_mod u1 v1 ltac:(lia)) as Eq. pose proof (Z.mod_pos_bound u1 v1 V1p) as Rm.
  set (q := u1 / v1) in *. set (rr := u1 mod v1) in *.
  assert (Q0 : 0 <= q) by (apply Z.div_pos; lia).
  assert (q * v1 <= u1) by lia.
  rewrite (u64_id (q * v1)) by (rng; nia).
  assert (RE : u1 - q * v1 = rr) by lia. rewrite RE.
  rewrite (u64_id rr) by (rng; nia).
  set (Q := (u1 * W + u0) / v).
  pose proof (Z.div_mod (u1 * W + u0) v ltac:(lia)) as EQ.
  pose proof (Z.mod_pos_bound (u1 * W + u0) v ltac:(lia)) as RQ. fold Q in EQ.
  assert (QB : 0 <= Q < W).
  { split; [apply Z.div_pos; nia|]. apply Z.div_lt_upper_bound; nia. }
  apply div_loop_ok with (k := 3%nat); rng; try lia.
  - split.
    + assert (Q < q + 1); [|lia]. apply Z.div_lt_upper_bound; [lia|].
      rewrite Ev. assert (u1 <= q * v1 + v1 - 1) by lia. nia.
    + (* q <= Q + 3 *)
      assert (B1 : q <= W + 1).
      { assert (q < W + 2); [|lia]. apply Z.div_lt_upper_bound; [lia|]. nia. }
      assert (B2 : q * v0 < W * W) by nia.
      assert (q * v <= u1 * W + q * v0) by (rewrite Ev at 1; nia).
      assert ((q - 2) * v < u1 * W + u0 + v - v + 1) by nia.
      assert (q - 2 <= Q); [|lia].
      apply Z.div_le_lower_bound; lia.
  - rewrite WW2. nia.
Qed.

Lemma div_ew_ok u v : uok u -> is_ullong v -> e_hi u < v -> div_ew u v = Ok (uval u / v).
Proof.
  intros [H L] V B. unfold div_ew, uval. pose proof WP as WP.
  destruct (Z.eqb_spec v 0) as [|NZ]; [rng; lia|].
  destruct (Z.leb_spec v (e_hi u)) as [|_]; [lia|].
  set (nrm := if v <=? 4294967295 then _ else _).
  assert (A : exists v' u1 u0 s, nrm = (v', u1, u0) /\ 0 < s /\ v' = v * s /\ u1 * W + u0 = (e_hi u * W + e_lo u) * s /\
            0 <= u1 < v' /\ 0 <= u0 < W /\ W <= v' < W * W).
  { subst nrm. destruct (Z.leb_spec v 4294967295) as [S|S].
    - exists (v * W), (e_hi u * W + e_lo u), 0, W.
      rewrite !shiftl32, u64_id by (rng; unfold W in *; nia).
      rewrite (u64_id (e_hi u * W)) by (rng; unfold W in *; nia).
      change W with (2 ^ 32) at 2 3. rewrite (lor_add (e_hi u) (e_lo u) 32) by (rng; lia). change (2 ^ 32) with W.
      split; [reflexivity|]. rng. unfold W in *. nia.
    - exists v, (e_hi u), (e_lo u), 1. split; [reflexivity|]. rng. unfold W in *. lia. }
  destruct A as (v' & u1 & u0 & s & -> & S0 & -> & E & U1 & U0 & VB).
  set (w := v * s) in *.
  assert (L2 : 32 <= Z.log2 w <= 63).
  { split; [apply Z.log2_le_pow2; [lia|apply VB]|].
    assert (Z.log2 w < 64); [|lia]. apply Z.log2_lt_pow2; [lia|apply VB]. }
  pose proof (Z.log2_spec w ltac:(lia)) as LS.
  set (su := 63 - Z.log2 w).
  replace ((0 <? su) && (31 <? su)) with false by (subst su; lia). cbn [bind].
  assert (P : 2 ^ su * 2 ^ Z.log2 w = 2 ^ 63).
  { rewrite <- Z.pow_add_r by (subst su; lia). f_equal. subst su. lia. }
  assert (SU : 0 < 2 ^ su) by (apply Z.pow_pos_nonneg; subst su; lia).
  set (nrm := if su =? 0 then _ else _).
  assert (A : exists u1' u0', nrm = (w * 2 ^ su, u1', u0') /\ 
            u1' * W + u0' = (u1 * W + u0) * 2 ^ su /\ 0 <= u1' < w * 2 ^ su /\ 0 <= u0' < W).
  { subst nrm. destruct (Z.eqb_spec su 0) as [Z0|N0].
    - exists u1, u0. rewrite Z0. change (2 ^ 0) with 1. rewrite Z.mul_1_r. split; [reflexivity|]. lia.
    - assert (SR : 1 <= su <= 31) by (subst su; lia).
      assert (W1 : w * 2 ^ su < W * W).
      { change (W * W) with (2 * 2 ^ 63). rewrite <- P. rewrite Z.pow_succ_r in LS by lia. nia. }
      assert (PW : 2 ^ su * 2 ^ (32 - su) = W).
      { rewrite <- Z.pow_add_r by lia. replace (su + (32 - su)) with 32 by lia. reflexivity. }
      assert (P2 : 0 < 2 ^ (32 - su)) by (apply Z.pow_pos_nonneg; lia).
      rewrite !Z.shiftl_mul_pow2, Z.shiftr_div_pow2 by lia.
      rewrite (u64_id (w * 2 ^ su)) by (rng; nia).
      rewrite (u64_id (u1 * 2 ^ su)) by (rng; nia).
      assert (DH : 0 <= u0 / 2 ^ (32 - su) < 2 ^ su).
      { split; [apply Z.div_pos; lia|]. apply Z.div_lt_upper_bound; lia. }
      rewrite lor_add by lia.
      assert (UL : u32 (u0 * 2 ^ su) = u0 * 2 ^ su - (u0 / 2 ^ (32 - su)) * W).
      { unfold u32. rewrite Z.mod_eq by lia. f_equal. rewrite Z.mul_comm. f_equal.
        rewrite <- PW at 1. rewrite (Z.mul_comm (2 ^ su) (2 ^ (32 - su))).
        rewrite Z.div_mul_cancel_r by lia. reflexivity. }
      eexists _, _. split; [reflexivity|]. rewrite UL. split; [ring|]. split.
      + split; [nia|]. nia.
      + rewrite <- UL. apply u32_range. }
  destruct A as (u1' & u0' & -> & E2 & U1' & U0').
  assert (N : W * W <= 2 * (w * 2 ^ su)).
  { change (W * W) with (2 * 2 ^ 63). rewrite <- P. nia. }
  rewrite (div_core u1' u0' (w * 2 ^ su)); [|assumption|assumption|assumption|].
  2:{ change (W * W) with (2 * 2 ^ 63). rewrite <- P. rewrite Z.pow_succ_r in LS by lia. nia. }
  f_equal. rewrite E2, E. subst w.
  rewrite (Z.div_mul_cancel_r _ (v * s) (2 ^ su)) by lia.
  rewrite Z.div_mul_cancel_r by lia. reflexivity.
Qed.

Lemma udim_abs_ok x : is_int x -> x <> -2147483648 -> udim_abs x = Ok (Z.abs x).
Proof.
  intros X N. unfold udim_abs, dim_neg, dim_sub, ck32. destruct (Z.ltb_spec x 0).
  - replace (fits32 (0 - x)) with true by (unf; lia). cbn [bind].
    rewrite u32_id by (unf; change (2 ^ 32) with 4294967296; lia). f_equal. lia.
  - cbn [bind]. rewrite u32_id by (unf; change (2 ^ 32) with 4294967296; lia). f_equal. lia.
Qed.

Lemma udimw_abs_ok x : is_llong x -> x <> -9223372036854775808 -> udimw_abs x = Ok (Z.abs x).
Proof.
  intros X N. unfold udimw_abs, dimw_neg, dimw_sub, ck64. destruct (Z.ltb_spec x 0).
  - replace (fits64 (0 - x)) with true by (unf; lia). cbn [bind].
    rewrite u64_id by (unf; change (2 ^ 64) with 18446744073709551616; lia). f_equal. lia.
  - cbn [bind]. rewrite u64_id by (unf; change (2 ^ 64) with 18446744073709551616; lia). f_equal. lia.
Qed.

Lemma check_true b : b = true -> check b = Ok tt.
Proof. now intros ->. Qed.

Lemma mul_div_nww_ok sx sm sd :
  is_int sx -> sx <> -2147483648 -> is_llong sm -> is_llong sd -> sd <> -9223372036854775808 ->
  0 < Z.abs sm < Z.abs sd ->
  exists r, mul_div_nww sx sm sd = Ok r /\ dif_d r = Z.abs sd /\ valid r /\
    (dif_i r * Z.abs sd + dif_n r) * Z.sgn sd = sx * sm /\
    - Z.abs sx <= dif_i r <= Z.abs sx.
Proof.
  intros X XN M D DN B. unfold mul_div_nww. pose proof WP as WP.
  rewrite check_true by lia. cbn [bind].
  rewrite udim_abs_ok by assumption. cbn [bind].
  rewrite udimw_abs_ok by (try assumption; unf; lia). cbn [bind].
  rewrite udimw_abs_ok by assumption. cbn [bind].
  rewrite !check_true by lia. cbn [bind].
  set (neg := xorb _ _).
  set (x := Z.abs sx) in *. set (m := Z.abs sm) in *. set (d := Z.abs sd) in *.
  assert (UM : is_ullong m) by (unf; change (2 ^ 64) with 18446744073709551616; lia).
  assert (UD : is_ullong d) by (unf; change (2 ^ 64) with 18446744073709551616; lia).
  assert (UX : is_uint x) by (unf; change (2 ^ 32) with 4294967296; lia).
  destruct (udime_mul_wn_ok m x UM UX) as [WO WV].
  set (w := udime_mul_wn m x) in *.
  assert (XB : 0 <= x <= 2147483647) by (unf; lia).
  assert (HB : e_hi w < d).
  { destruct WO as [H L]. unfold uval in WV. rng. unfold W in *. nia. }
  rewrite check_true by lia. cbn [bind].
  rewrite (div_ew_ok w d WO UD HB). cbn [bind]. rewrite WV.
  pose proof (Z.div_mod (m * x) d ltac:(lia)) as E. pose proof (Z.mod_pos_bound (m * x) d ltac:(lia)) as RB.
  set (q := m * x / d) in *. set (rr := (m * x) mod d) in *.
  assert (QB : 0 <= q /\ (q < x \/ (q = 0 /\ x = 0))).
  { split; [apply Z.div_pos; nia|]. destruct (Z.eq_dec x 0) as [X0|].
    - right. split; [|assumption]. subst q. rewrite X0, Z.mul_0_r. reflexivity.
    - left. apply Z.div_lt_upper_bound; nia. }
  assert (UQ : is_uint q) by (unf; change (2 ^ 32) with 4294967296; lia).
  destruct (udime_mul_wn_ok d q UD UQ) as [PO PV].
  destruct (udime_sub_ok w (udime_mul_wn d q) WO PO) as (re & -> & RO & RV); [rewrite WV, PV; lia|].
  cbn [bind]. rewrite WV, PV in RV. replace (m * x - d * q) with rr in RV by lia.
  unfold uval in RV. destruct RO as [RH RL].
  assert (DB : d < W * W) by (rng; lia).
  assert (RHB : e_hi re < W).
  { clear - RV RB DB RL. unfold is_uint in RL. unfold W in *. lia. }
  rewrite check_true by lia. cbn [bind].
  assert (RHW : e_hi re * W + e_lo re < 2 ^ 64) by (clear - RV RB DB; change (2 ^ 64) with (W * W); lia).
  rewrite (u64_id (e_hi re * W)) by (clear - RHW RH RL; unfold is_uint, is_ullong, W in *; lia).
  rewrite (u64_id (e_lo re + e_hi re * W)) by (clear - RHW RH RL; unfold is_uint, is_ullong, W in *; lia).
  replace (e_lo re + e_hi re * W) with rr by lia.
  rewrite check_true by lia. cbn [bind].
  rewrite (s32_id q) by (unf; lia).
  rewrite check_true by lia. cbn [bind].
  assert (SG : sx * sm * Z.sgn sd = (if neg then -1 else 1) * (m * x)).
  { subst neg m x. destruct (Z.ltb_spec sx 0), (Z.ltb_spec sm 0), (Z.ltb_spec sd 0); cbn [xorb];
      first [rewrite (Z.sgn_neg sd) by lia|rewrite (Z.sgn_pos sd) by lia]; nia. }
  assert (SGN : Z.sgn sd * Z.sgn sd = 1) by lia.
  assert (FIN : forall i n, i * d + n = (if neg then -1 else 1) * (m * x) -> (i * d + n) * Z.sgn sd = sx * sm).
  { intros i n EI. rewrite EI, <- SG. rewrite <- (Z.mul_assoc (sx * sm)), SGN. ring. }
  destruct neg.
  - unfold ub32. replace (fits32 (- q)) with true by (unf; lia). cbn [bind].
    destruct (Z.eqb_spec rr 0) as [R0|RN]; cbn [negb].
    + cbn [bind]. rewrite check_true by lia. cbn [bind].
      eexists. split; [reflexivity|]. unfold valid. cbn [dif_i dif_n dif_d].
      split; [reflexivity|]. split; [|split; [apply FIN; lia|lia]].
      repeat split; try assumption; unf; lia.
    + replace (fits32 (- q - 1)) with true by (unf; lia). cbn [bind].
      rewrite (u64_id (d - rr)) by (rng; lia).
      rewrite check_true by lia. cbn [bind].
      eexists. split; [reflexivity|]. unfold valid. cbn [dif_i dif_n dif_d].
      split; [reflexivity|]. split; [|split; [apply FIN; lia|]].
      { repeat split; try assumption; unf; lia. }
      { assert (x <> 0). { intros X0. apply RN. subst rr. rewrite X0, Z.mul_0_r. reflexivity. }
        lia. }
  - cbn [bind]. rewrite check_true by lia. cbn [bind].
    eexists. split; [reflexivity|]. unfold valid. cbn [dif_i dif_n dif_d].
    split; [reflexivity|]. split; [|split; [apply FIN; lia|lia]].
    repeat split; try assumption; unf; lia.
Qed.

(** 64 by 64 bit multiplication *)
Lemma cku64_ok x : is_ullong x -> cku64 x = Ok x.
Proof. intros H. unfold cku64. now rewrite (proj2 (fitsu64_int x) H). Qed.

Lemma udimw_mul_aux_ok a b : is_ullong a -> is_ullong b ->
  exists h l, udimw_mul_aux a b = Ok (h, l) /\ is_ullong h /\ is_ullong l /\ h * 2 ^ 64 + l = a * b.
Proof.
  intros A B. unfold udimw_mul_aux, udim_mul, udimw_add, udimw_hi, udimw_lo, udimw_mk. pose proof WP as WP.
  rewrite !shiftr32.
  destruct (divmodW a A) as (Ea & Ah & Al). destruct (divmodW b B) as (Eb & Bh & Bl).
  rewrite (u32_id (a / W)), (u32_id (b / W)) by assumption.
  set (ah := a / W) in *. set (al := u32 a) in *. set (bh := b / W) in *. set (bl := u32 b) in *.
  destruct (umul al bh Al Bh) as [LH LHb]. destruct (umul ah bl Ah Bl) as [HL HLb].
  destruct (umul al bl Al Bl) as [LL LLb]. destruct (umul ah bh Ah Bh) as [HH HHb].
  rewrite (cku64_ok (al * bh)) by assumption. cbn [bind].
  rewrite (cku64_ok (ah * bl)) by assumption. cbn [bind].
  rewrite (cku64_ok (al * bl)) by assumption. cbn [bind].
  rewrite (cku64_ok (ah * bh)) by assumption. cbn [bind].
  rewrite !shiftr32.
  assert (EP : a * b = ah * bh * (W * W) + (al * bh + ah * bl) * W + al * bl) by (rewrite Ea at 1; rewrite Eb at 1; ring).
  clearbody ah al bh bl.
  set (lh := al * bh) in *. set (hl := ah * bl) in *. set (ll := al * bl) in *. set (hh := ah * bh) in *.
  clearbody lh hl ll hh.
  destruct (divmodW lh LH) as (Elh & LHh & LHl). destruct (divmodW hl HL) as (Ehl & HLh & HLl).
  destruct (divmodW ll LL) as (Ell & LLh & LLl).
  rewrite (u32_id (ll / W)), (u32_id (hl / W)), (u32_id (lh / W)) by assumption.
  set (lhh := lh / W) in *. set (lhl := u32 lh) in *. set (hlh := hl / W) in *. set (hll := u32 hl) in *.
  set (llh := ll / W) in *. set (lll := u32 ll) in *.
  clearbody lhh lhl hlh hll llh lll.
  rewrite (cku64_ok (0 + llh)) by (rng; unfold W in *; lia). cbn [bind].
  rewrite (cku64_ok (0 + llh + hll)) by (rng; unfold W in *; lia). cbn [bind].
  rewrite (cku64_ok (0 + llh + hll + lhl)) by (rng; unfold W in *; lia). cbn [bind].
  set (rm := 0 + llh + hll + lhl).
  assert (RM : is_ullong rm) by (rng; subst rm; unfold W in *; lia).
  destruct (divmodW rm RM) as (Erm & RMh & RMl).
  rewrite shiftr32, (u32_id (rm / W)) by assumption.
  set (rmh := rm / W) in *. set (rml := u32 rm) in *. clearbody rmh rml.
  assert (SUM : hh + hlh + lhh + rmh < W * W).
  { clear EP A B Ea Eb. subst rm. rng. unfold W in *. lia. }
  rewrite (cku64_ok (hh + hlh)) by (rng; lia). cbn [bind].
  rewrite (cku64_ok (hh + hlh + lhh)) by (rng; lia). cbn [bind].
  rewrite (cku64_ok (hh + hlh + lhh + rmh)) by (rng; lia). cbn [bind].
  rewrite shiftl32. rewrite (u64_id (rml * W)) by (rng; unfold W in *; lia).
  change W with (2 ^ 32) at 1. rewrite (lor_add rml lll 32) by (rng; lia). change (2 ^ 32) with W.
  eexists _, _. split; [reflexivity|]. split; [rng; lia|]. split; [rng; unfold W in *; lia|].
  change (2 ^ 64) with (W * W). rewrite EP, Elh, Ehl, Ell. subst rm.
  assert (R : (rmh * W + rml) * W = (0 + llh + hll + lhl) * W) by (f_equal; lia). lia.
Qed.

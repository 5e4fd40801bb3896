From Coq Require Import ZArith Bool List Lia ZifyBool.
From Verif Require Import Utf8_model Utf8_spec.
Import ListNotations.
Local Open Scope Z_scope.

(** *** bits *)
Lemma lor_add n h l : 0 <= n -> 0 <= l < 2 ^ n -> Z.lor (Z.shiftl h n) l = h * 2 ^ n + l.
Proof.
  intros N L. rewrite <- Z.shiftl_mul_pow2 by exact N.
  assert (A : Z.land (Z.shiftl h n) l = 0).
  { apply Z.bits_inj'. intros k K. rewrite Z.land_spec, Z.bits_0.
    destruct (Z.lt_ge_cases k n).
    - rewrite Z.shiftl_spec_low by lia. reflexivity.
    - destruct (Z.eq_dec l 0) as [ -> |]; [rewrite Z.bits_0; apply andb_false_r|].
      rewrite (Z.bits_above_log2 l k), andb_false_r; [reflexivity|lia|].
      apply Z.log2_lt_pow2; [lia|]. apply Z.lt_le_trans with (2 ^ n); [lia|]. apply Z.pow_le_mono_r; lia. }
  rewrite Z.add_nocarry_lxor by exact A. symmetry. apply Z.lxor_lor, A.
Qed.
Lemma land_ones_mod a n m : 0 <= n -> m = 2 ^ n - 1 -> Z.land a m = a mod 2 ^ n.
Proof. intros N ->. rewrite <- (Z.land_ones a n N). f_equal. rewrite Z.ones_equiv. lia. Qed.
Lemma lor_lo n h l k : 0 <= n -> k = h * 2 ^ n -> 0 <= l < 2 ^ n -> Z.lor k l = k + l.
Proof. intros N -> L. rewrite <- Z.shiftl_mul_pow2 at 1 by exact N. apply lor_add; assumption. Qed.

(** *** encoding *)
Lemma encode_ok n c : scalar c -> encode n c = UOk (if Nat.leb (length (utf8 c)) n then utf8 c else []).
Proof.
  intros [C1 C2]. unfold encode, utf8, utf8_ok.
  rewrite !Z.shiftr_div_pow2 by lia.
  rewrite (land_ones_mod c 7 127), (land_ones_mod c 6 63), (land_ones_mod (c / 2 ^ 6) 5 31),
    (land_ones_mod (c / 2 ^ 6) 6 63), (land_ones_mod (c / 2 ^ 12) 4 15), (land_ones_mod (c / 2 ^ 12) 6 63),
    (land_ones_mod (c / 2 ^ 18) 3 7) by (try lia; reflexivity).
  change (2 ^ 6) with 64. change (2 ^ 12) with 4096. change (2 ^ 18) with 262144.
  change (2 ^ 7) with 128. change (2 ^ 5) with 32. change (2 ^ 4) with 16. change (2 ^ 3) with 8.
  rewrite !(lor_lo 6 2 _ 128), (lor_lo 5 6 _ 192), (lor_lo 4 14 _ 224), (lor_lo 3 30 _ 240)
    by (try reflexivity; try apply Z.mod_pos_bound; lia).
  replace (negb (negb _)) with false by lia.
  destruct (Z.ltb_spec c 128).
  { replace (c <=? 127) with true by lia. cbn [length]. rewrite Z.mod_small by lia.
    destruct n as [|n]; reflexivity. }
  replace (c <=? 127) with false by lia.
  destruct (Z.ltb_spec c 2048).
  { replace (c <=? 2047) with true by lia. cbn [length].
    rewrite (Z.mod_small (c / 64) 32) by (split; [apply Z.div_pos; lia|apply Z.div_lt_upper_bound; lia]).
    destruct n as [|[|n]]; reflexivity. }
  replace (c <=? 2047) with false by lia.
  destruct (Z.ltb_spec c 65536).
  { replace (c <=? 65535) with true by lia. cbn [length].
    rewrite (Z.mod_small (c / 4096) 16) by (split; [apply Z.div_pos; lia|apply Z.div_lt_upper_bound; lia]).
    destruct n as [|[|[|n]]]; reflexivity. }
  replace (c <=? 65535) with false by lia. cbn [length].
  rewrite (Z.mod_small (c / 262144) 8) by (split; [apply Z.div_pos; lia|apply Z.div_lt_upper_bound; lia]).
  destruct n as [|[|[|[|n]]]]; reflexivity.
Qed.

(** *** decoding *)

(** what decoding computes *)
Definition raw (l : list Z) : Z :=
  match l with
  | [a] => a
  | [a; b] => Z.lor (Z.shiftl (a - 192) 6) b
  | [a; b; c] => Z.lor (Z.lor (Z.shiftl (a - 224) 12) (Z.shiftl b 6)) c
  | [a; b; c; d] => Z.lor (Z.lor (Z.lor (Z.shiftl (a - 240) 18) (Z.shiftl b 12)) (Z.shiftl c 6)) d
  | _ => 0
  end.

Lemma has_cons mem p a l : has mem p (a :: l) <-> nth_error mem p = Some a /\ has mem (p + 1) l.
Proof.
  unfold has. cbn [length firstn]. revert p. induction mem as [|x mem IH]; intros p.
  - rewrite !skipn_nil. destruct p; cbn; split; try discriminate; intros [? _]; discriminate.
  - destruct p as [|p]; cbn [skipn nth_error Nat.add].
    + change (firstn (S (length l)) (x :: mem)) with (x :: firstn (length l) mem).
      split; [intros [= -> E]; auto|intros [[= ->] E]; f_equal; exact E].
    + exact (IH p).
Qed.

Lemma get_eq mem p sz e c : nth_error mem p = Some c -> (0 < sz)%nat -> iter_get mem (mk_iter p sz e) = UOk c.
Proof. intros N S. unfold iter_get. cbn [pos size]. destruct (Nat.eqb_spec sz 0); [lia|]. rewrite N. reflexivity. Qed.
Lemma advance_eq mem p sz e c : nth_error mem p = Some c -> (0 < sz)%nat -> c <> 0 ->
  iter_advance mem (mk_iter p sz e) = UOk (mk_iter (p + 1) (sz - 1) e).
Proof.
  intros N S C. unfold iter_advance. cbn [pos size error]. rewrite N.
  destruct (Nat.eqb_spec sz 0); [lia|]. replace (c =? 0) with false by lia. reflexivity.
Qed.
Lemma cont_eq mem start p sz e c : nth_error mem p = Some c -> (0 < sz)%nat -> cont c ->
  get_cont mem start (mk_iter p sz e) = UOk (Some c, mk_iter (p + 1) (sz - 1) e).
Proof.
  intros N S C. unfold cont in C. unfold get_cont. rewrite (get_eq _ _ _ _ c) by assumption. cbn [ubind].
  replace (negb _) with false by lia. rewrite (advance_eq _ _ _ _ c) by (assumption || lia). reflexivity.
Qed.

Lemma testbit_false_lt k n a : 0 <= n <= k -> 0 <= a < 2 ^ n -> Z.testbit a k = false.
Proof.
  intros N A. destruct (Z.eq_dec a 0) as [ -> |]; [apply Z.bits_0|].
  apply Z.bits_above_log2; [lia|]. apply Z.log2_lt_pow2; [lia|].
  apply Z.lt_le_trans with (2 ^ n); [lia|]. apply Z.pow_le_mono_r; lia.
Qed.
Lemma lor_nonneg_le a b : 0 <= a -> 0 <= b -> a <= Z.lor a b /\ b <= Z.lor a b.
Proof.
  assert (H : forall a b, 0 <= a -> 0 <= b -> a <= Z.lor a b).
  { clear. intros a b A B. rewrite <- (Z.land_diag (Z.lor a b)).
    assert (E : Z.lor a b = a + Z.ldiff b a).
    { rewrite Z.add_nocarry_lxor.
      - apply Z.bits_inj'. intros k K. rewrite Z.lor_spec, Z.lxor_spec, Z.ldiff_spec.
        destruct (Z.testbit a k), (Z.testbit b k); reflexivity.
      - apply Z.bits_inj'. intros k K. rewrite Z.land_spec, Z.ldiff_spec, Z.bits_0.
        destruct (Z.testbit a k), (Z.testbit b k); reflexivity. }
    rewrite Z.land_diag, E. assert (0 <= Z.ldiff b a) by (apply Z.ldiff_nonneg; auto). lia. }
  intros A B. split; [auto|]. rewrite Z.lor_comm. auto.
Qed.

(** a surrogate does not have bit 13 *)
Lemma no_surrogate r : Z.testbit r 13 = true -> (55296 <=? r) && (r <? 57344) = false.
Proof.
  intros T. destruct (Z.leb_spec 55296 r); [|reflexivity]. destruct (Z.ltb_spec r 57344); [|reflexivity].
  exfalso. rewrite Z.testbit_true in T by lia. change (2 ^ 13) with 8192 in T.
  assert (r / 8192 = 6) as E by (symmetry; apply Z.div_unique with (r - 49152); lia).
  rewrite E in T. discriminate T.
Qed.

Lemma lor_lt n a b : 0 <= n -> 0 <= a < 2 ^ n -> 0 <= b < 2 ^ n -> 0 <= Z.lor a b < 2 ^ n.
Proof.
  intros N A B. assert (0 <= Z.lor a b) by (apply Z.lor_nonneg; lia). split; [assumption|].
  destruct (Z.eq_dec (Z.lor a b) 0) as [ -> |]; [lia|].
  apply Z.log2_lt_pow2; [lia|]. rewrite Z.log2_lor by lia.
  assert (H1 : forall x, 0 <= x < 2 ^ n -> x <> 0 -> Z.log2 x < n) by (intros x X X0; apply Z.log2_lt_pow2; lia).
  destruct (Z.eq_dec a 0) as [ -> |], (Z.eq_dec b 0) as [ -> |]; [exfalso; apply n0; reflexivity| | |].
  all: apply Z.max_lub_lt; auto.
  all: change (Z.log2 0) with 0.
  all: match goal with H : ?x <> 0 |- 0 < _ => specialize (H1 x ltac:(assumption) H); pose proof (Z.log2_nonneg x); lia end.
Qed.
Lemma shiftl_lt k a m : 0 <= k -> 0 <= a < m -> 0 <= Z.shiftl a k < m * 2 ^ k.
Proof. intros K A. rewrite Z.shiftl_mul_pow2 by exact K. pose proof (Z.pow_pos_nonneg 2 k). nia. Qed.
Lemma cont_bit b k n : cont b -> 0 <= k -> n = k + 7 -> Z.testbit (Z.shiftl b k) n = true.
Proof.
  intros B K ->. rewrite Z.shiftl_spec by lia. replace (k + 7 - k) with 7 by lia.
  rewrite Z.testbit_true by lia. change (2 ^ 7) with 128. unfold cont in B.
  replace (b / 128) with 1 by (apply Z.div_unique with (b - 128); lia). reflexivity.
Qed.
Lemma testbit_le r k : 0 <= k -> 0 <= r -> Z.testbit r k = true -> 2 ^ k <= r.
Proof.
  intros K R T. destruct (Z.lt_ge_cases r (2 ^ k)); [|assumption].
  rewrite (testbit_false_lt k k r) in T by lia. discriminate.
Qed.

Lemma decode_structured mem p sz e l : structured l -> has mem p l -> (length l <= sz)%nat ->
  decode mem (mk_iter p sz e) =
    UOk (if 1114111 <? raw l then (0, mk_iter p (sz - length l) (Some Range))
         else (raw l, mk_iter (p + length l) (sz - length l) e)).
Proof.
  intros S H L. destruct l as [|a l]; [destruct S|].
  apply has_cons in H as [N1 H]. cbn [length] in L.
  assert (A : 0 < a). { destruct l as [|? [|? [|? [|? ?]]]]; cbn in S; lia. }
  unfold decode. rewrite (get_eq _ _ _ _ a) by (assumption || lia). cbn [ubind pos].
  replace (a =? 0) with false by lia. rewrite (advance_eq _ _ _ _ a) by (assumption || lia). cbn [ubind].
  destruct l as [|b l].
  { cbn in S. replace (a <? 128) with true by lia. cbn [length raw]. replace (1114111 <? a) with false by lia. reflexivity. }
  apply has_cons in H as [N2 H]. cbn [length] in L.
  assert (A2 : 194 <= a < 245 /\ cont b). { destruct l as [|? [|? [|? ?]]]; cbn in S; intuition lia. }
  destruct A2 as [A2 B]. replace (a <? 128) with false by lia. replace (a <? 194) with false by lia.
  rewrite (cont_eq _ _ _ _ _ b) by (assumption || lia). cbn [ubind].
  destruct l as [|c l].
  { cbn in S. replace (a <? 224) with true by lia. unfold cont in B. unfold check_valid.
    rewrite (land_ones_mod a 5 31) by (try lia; reflexivity). change (2 ^ 5) with 32.
    replace (a mod 32) with (a - 192) by (apply Z.mod_unique with 6; lia).
    rewrite !Z.shiftl_0_l, !Z.lor_0_l. change (Z.lor (Z.shiftl (a - 192) 6) b) with (raw [a; b]).
    destruct (lor_nonneg_le (Z.shiftl (a - 192) 6) b) as [R1 R2]; [apply Z.shiftl_nonneg; lia|lia|].
    change (Z.lor (Z.shiftl (a - 192) 6) b) with (raw [a; b]) in R1, R2. cbn [length].
    assert (R3 : 0 <= raw [a; b] < 2 ^ 11).
    { apply lor_lt; [lia| |change (2 ^ 11) with 2048; lia]. apply (shiftl_lt 6 _ 32); lia. }
    change (2 ^ 11) with 2048 in R3.
    replace (raw [a; b] <? 128) with false by lia. replace (1114111 <? raw [a; b]) with false by lia.
    replace ((55296 <=? raw [a; b]) && (raw [a; b] <? 57344)) with false by lia.
    do 3 f_equal; lia. }
  apply has_cons in H as [N3 H]. cbn [length] in L.
  assert (A3 : 224 <= a < 245 /\ cont c). { destruct l as [|? [|? ?]]; cbn in S; intuition lia. }
  destruct A3 as [A3 C]. replace (a <? 224) with false by lia.
  rewrite (cont_eq _ _ _ _ _ c) by (assumption || lia). cbn [ubind].
  destruct l as [|d l].
  { cbn in S. replace (a <? 240) with true by lia. unfold check_valid.
    rewrite (land_ones_mod a 4 15) by (try lia; reflexivity). change (2 ^ 4) with 16.
    replace (a mod 16) with (a - 224) by (apply Z.mod_unique with 14; lia).
    rewrite !Z.shiftl_0_l, !Z.lor_0_l.
    change (Z.lor (Z.lor (Z.shiftl (a - 224) 12) (Z.shiftl b 6)) c) with (raw [a; b; c]). cbn [length].
    assert (T : Z.testbit (raw [a; b; c]) 13 = true).
    { unfold raw. rewrite !Z.lor_spec, (cont_bit b 6) by (assumption || lia). rewrite orb_true_r. reflexivity. }
    assert (R3 : 0 <= raw [a; b; c] < 2 ^ 16).
    { unfold cont in *. apply lor_lt; [lia| |change (2 ^ 16) with 65536; lia]. apply lor_lt; [lia| |].
      - apply (shiftl_lt 12 _ 16); lia.
      - pose proof (shiftl_lt 6 b 192). change (2 ^ 6) with 64 in *. change (2 ^ 16) with 65536. lia. }
    pose proof (testbit_le _ 13 ltac:(lia) (proj1 R3) T) as R4.
    change (2 ^ 16) with 65536 in R3. change (2 ^ 13) with 8192 in R4.
    replace (raw [a; b; c] <? 2048) with false by lia. replace (1114111 <? raw [a; b; c]) with false by lia.
    rewrite (no_surrogate _ T). do 3 f_equal; lia. }
  apply has_cons in H as [N4 H]. cbn [length] in L.
  destruct l as [|? l]; [|cbn in S; tauto].
  cbn in S. destruct S as (A4 & _ & _ & D). replace (a <? 240) with false by lia.
  rewrite (cont_eq _ _ _ _ _ d) by (assumption || lia). cbn [ubind].
  replace (a <=? 244) with true by lia. unfold check_valid.
  rewrite (land_ones_mod a 3 7) by (try lia; reflexivity). change (2 ^ 3) with 8.
  replace (a mod 8) with (a - 240) by (apply Z.mod_unique with 30; lia).
  change (Z.lor (Z.lor (Z.lor (Z.shiftl (a - 240) 18) (Z.shiftl b 12)) (Z.shiftl c 6)) d) with (raw [a; b; c; d]). cbn [length].
  assert (T : Z.testbit (raw [a; b; c; d]) 13 = true).
  { unfold raw. rewrite !Z.lor_spec, (cont_bit c 6) by (assumption || lia). rewrite orb_true_r. reflexivity. }
  assert (T2 : Z.testbit (raw [a; b; c; d]) 19 = true).
  { unfold raw. rewrite !Z.lor_spec, (cont_bit b 12) by (assumption || lia). rewrite orb_true_r. reflexivity. }
  assert (R3 : 0 <= raw [a; b; c; d]).
  { unfold raw, cont in *. rewrite !Z.lor_nonneg, !Z.shiftl_nonneg. lia. }
  pose proof (testbit_le _ 19 ltac:(lia) R3 T2) as R4. change (2 ^ 19) with 524288 in R4.
  replace (raw [a; b; c; d] <? 65536) with false by lia.
  rewrite (no_surrogate _ T). destruct (1114111 <? raw [a; b; c; d]); unfold iter_error; cbn [size]; do 3 f_equal; lia.
Qed.

(** *** the encoding of a scalar value *)
Lemma utf8_structured c : scalar c -> structured (utf8 c).
Proof.
  intros [C1 C2]. unfold utf8.
  pose proof (Z.mod_pos_bound c 64 eq_refl). pose proof (Z.mod_pos_bound (c / 64) 64 eq_refl). pose proof (Z.mod_pos_bound (c / 4096) 64 eq_refl).
  assert (D : forall k lo hi, 0 < k -> lo * k <= c < (hi + 1) * k -> lo <= c / k <= hi).
  { clear. intros. split; [apply Z.div_le_lower_bound; lia|]. apply Z.lt_succ_r, Z.div_lt_upper_bound; lia. }
  destruct (Z.ltb_spec c 128); [unfold structured; lia|].
  destruct (Z.ltb_spec c 2048); [unfold structured, cont; specialize (D 64 2 31 ltac:(lia) ltac:(lia)); lia|].
  destruct (Z.ltb_spec c 65536); [unfold structured, cont; specialize (D 4096 0 15 ltac:(lia) ltac:(lia)); lia|].
  unfold structured, cont; specialize (D 262144 0 4 ltac:(lia) ltac:(lia)); lia.
Qed.

Lemma raw_utf8 c : scalar c -> raw (utf8 c) = Z.lor c (mask (length (utf8 c))).
Proof.
  intros [C1 C2]. unfold utf8, mask.
  assert (B : forall x, Z.lor 128 (x mod 64) = 128 + x mod 64).
  { intros x. apply (lor_lo 6 2); [lia|reflexivity|]. apply Z.mod_pos_bound. lia. }
  assert (E1 : forall x, x = Z.lor (Z.shiftl (x / 64) 6) (x mod 64)).
  { intros x. rewrite lor_add; [|lia|apply Z.mod_pos_bound; lia]. change (2 ^ 6) with 64.
    rewrite Z.mul_comm. apply Z.div_mod. lia. }
  assert (D1 : c / 64 / 64 = c / 4096) by (rewrite Z.div_div by lia; reflexivity).
  assert (D2 : c / 4096 / 64 = c / 262144) by (rewrite Z.div_div by lia; reflexivity).
  destruct (Z.ltb_spec c 128); [cbn [length nth raw]; rewrite Z.lor_0_r; reflexivity|].
  destruct (Z.ltb_spec c 2048).
  { cbn [length nth raw]. rewrite <- (B c). rewrite (E1 c) at 3.
    replace (192 + c / 64 - 192) with (c / 64) by lia. rewrite (Z.lor_comm 128), Z.lor_assoc. reflexivity. }
  destruct (Z.ltb_spec c 65536).
  { cbn [length nth raw]. rewrite <- (B c), <- (B (c / 64)). replace (224 + c / 4096 - 224) with (c / 4096) by lia.
    rewrite (E1 c) at 4. rewrite (E1 (c / 64)) at 2. rewrite D1.
    rewrite !Z.shiftl_lor, Z.shiftl_shiftl by lia. change (6 + 6) with 12.
    change (Z.shiftl 128 6) with 8192. change 8320 with (Z.lor 8192 128).
    apply Z.bits_inj'. intros k K. rewrite !Z.lor_spec.
    repeat match goal with |- context [Z.testbit ?x k] => generalize (Z.testbit x k); intros end.
    repeat match goal with b : bool |- _ => destruct b end; reflexivity. }
  cbn [length nth raw]. rewrite <- (B c), <- (B (c / 64)), <- (B (c / 4096)). replace (240 + c / 262144 - 240) with (c / 262144) by lia.
  rewrite (E1 c) at 5. rewrite (E1 (c / 64)) at 2. rewrite D1. rewrite (E1 (c / 4096)) at 2. rewrite D2.
  rewrite !Z.shiftl_lor, !Z.shiftl_shiftl by lia. change (6 + 6) with 12. change (12 + 6) with 18. change (6 + 12) with 18.
  change (Z.shiftl 128 6) with 8192. change (Z.shiftl 128 12) with 524288.
  change 532608 with (Z.lor 524288 (Z.lor 8192 128)).
  apply Z.bits_inj'. intros k K. rewrite !Z.lor_spec.
  repeat match goal with |- context [Z.testbit ?x k] => generalize (Z.testbit x k); intros end.
  repeat match goal with b : bool |- _ => destruct b end; reflexivity.
Qed.

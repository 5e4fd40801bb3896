(** C47, C48 *)
From Coq Require Import ZArith Bool List Arith Lia Permutation ZifyBool.
From Verif Require Import Circle_model Circle_spec.
Import ListNotations.

Section Iter.
Context {F : Type}.
Variables (one mone zero : F) (opp : F -> F) (cosd sind : nat -> F).
Notation co := (coords one mone zero opp cosd sind).
Definition index (n i : nat) : nat := if Nat.eqb i 0 then 0 else if Nat.odd i then Nat.div (S i) 2 else n - Nat.div i 2.
Definition state (n i : nat) : iter F := mk_iter (fst (co n (index n i))) (snd (co n (index n i))) (index n i) i.
Lemma index_odd n m : index n (2 * m + 1) = S m.
Proof. unfold index. replace (Nat.eqb (2 * m + 1) 0) with false by (symmetry; apply Nat.eqb_neq; lia). replace (Nat.odd (2 * m + 1)) with true by (symmetry; apply Nat.odd_spec; exists m; lia). replace (S (2 * m + 1)) with (S m * 2) by lia. apply Nat.div_mul. lia. Qed.
Lemma index_even n m : 0 < m -> index n (2 * m) = n - m.
Proof. intros L. unfold index. replace (Nat.eqb (2 * m) 0) with false by (symmetry; apply Nat.eqb_neq; lia). replace (Nat.odd (2 * m)) with false by (symmetry; apply Bool.not_true_is_false; intros H; apply Nat.odd_spec in H as (k & H); lia). replace (2 * m) with (m * 2) by lia. rewrite Nat.div_mul by lia. lia. Qed.
Lemma parity i : (exists m, i = 2 * m) \/ exists m, i = 2 * m + 1.
Proof. destruct (Nat.Even_or_Odd i) as [(m & H)|(m & H)]; eauto. Qed.
Lemma step_state n i : S i < n -> step mone zero opp cosd sind n (state n i) = state n (S i).
Proof.
  intros L. unfold step. change (i_i (state n i)) with i. change (idx (state n i)) with (index n i). change (i_cos (state n i)) with (fst (co n (index n i))). change (i_sin (state n i)) with (snd (co n (index n i))). cbv zeta. destruct (parity i) as [(m & ->)|(m & ->)].
  - replace (S (2 * m)) with (2 * m + 1) in * by lia. replace (Nat.odd (2 * m + 1)) with true by (symmetry; apply Nat.odd_spec; exists m; lia). unfold state. rewrite index_odd. replace (Nat.div (S (2 * m + 1)) 2) with (S m) by (replace (S (2 * m + 1)) with (S m * 2) by lia; rewrite Nat.div_mul; lia).
    unfold coords. change (Nat.eqb (S m) 0) with false. cbv iota. destruct (Nat.eqb_spec (S (2 * m + 1)) n) as [E|E].
    + replace (Nat.compare (2 * S m) n) with Eq by (symmetry; apply Nat.compare_eq_iff; lia). reflexivity.
    + replace (Nat.compare (2 * S m) n) with Lt by (symmetry; apply Nat.compare_lt_iff; lia). reflexivity.
  - replace (S (2 * m + 1)) with (2 * S m) in * by lia. replace (Nat.odd (2 * S m)) with false by (symmetry; apply Bool.not_true_is_false; intros H; apply Nat.odd_spec in H as (k & H); lia). unfold state. rewrite index_odd, index_even by lia. cbn [i_cos i_sin idx].
    unfold coords. change (Nat.eqb (S m) 0) with false. cbv iota. replace (Nat.compare (2 * S m) n) with Lt by (symmetry; apply Nat.compare_lt_iff; lia). replace (Nat.eqb (n - S m) 0) with false by (symmetry; apply Nat.eqb_neq; lia). replace (Nat.compare (2 * (n - S m)) n) with Gt by (symmetry; apply Nat.compare_gt_iff; lia). replace (n - (n - S m)) with (S m) by lia. reflexivity.
Qed.
Lemma each_state n todo : forall i, i + todo = n -> each mone zero opp cosd sind n todo (state n i) = map (state n) (seq i todo).
Proof.
  induction todo as [|todo IH]; intros i E; [reflexivity|]. cbn [each seq map]. f_equal. destruct todo as [|todo]; [reflexivity|]. rewrite step_state by lia. apply IH. lia.
Qed.
Lemma circle_states n : circle one mone zero opp cosd sind n = map (state n) (seq 0 n).
Proof. unfold circle. rewrite <- each_state by lia. reflexivity. Qed.
Lemma index_lt n i : i < n -> index n i < n.
Proof. intros L. destruct (parity i) as [(m & ->)|(m & ->)]; [|rewrite index_odd; lia]. destruct m; [exact L|]. rewrite index_even by lia. lia. Qed.
Lemma index_inj n i j : i < n -> j < n -> index n i = index n j -> i = j.
Proof.
  intros Li Lj. destruct (parity i) as [(m & ->)|(m & ->)], (parity j) as [(k & ->)|(k & ->)]; rewrite ?index_odd; try lia.
  - destruct m, k; change (index n (2 * 0)) with 0; repeat (rewrite index_even by lia); lia.
  - destruct m; change (index n (2 * 0)) with 0; repeat (rewrite index_even by lia); lia.
  - destruct k; change (index n (2 * 0)) with 0; repeat (rewrite index_even by lia); lia.
Qed.
Lemma nodup_map {A B} (f : A -> B) l : NoDup l -> (forall x y, In x l -> In y l -> f x = f y -> x = y) -> NoDup (map f l).
Proof.
  induction 1 as [|x l N H IH]; intros I; cbn; constructor; [|apply IH; intros; apply I; auto; now right]. rewrite in_map_iff. intros (y & E & Hy). apply N. rewrite (I x y); auto; [now left|now right].
Qed.
Lemma circle_perm n : Permutation (map (fun t => (idx t, (i_cos t, i_sin t))) (circle one mone zero opp cosd sind n)) (map (fun k => (k, co n k)) (seq 0 n)).
Proof.
  rewrite circle_states, map_map.
  assert (E : map (fun x => (idx (state n x), (i_cos (state n x), i_sin (state n x)))) (seq 0 n) = map (fun k => (k, co n k)) (map (index n) (seq 0 n))).
  { rewrite map_map. apply map_ext. intros i. unfold state. cbn. now destruct (co n (index n i)). }
  rewrite E. apply Permutation_map. apply NoDup_Permutation_bis; [apply nodup_map; [apply seq_NoDup|]|now rewrite map_length|].
  - intros x y Hx Hy. rewrite in_seq in *. apply index_inj; lia.
  - intros x Hx. rewrite in_map_iff in Hx. destruct Hx as (i & <- & Hi). rewrite in_seq in *. pose proof (index_lt n i). lia.
Qed.
End Iter.

Local Open Scope Z_scope.
(** ** Doubles *)
Lemma fields s e f : (s = 0 \/ s = 1) -> 0 <= e < 2048 -> 0 <= f < 2 ^ 52 -> let u := s * 2 ^ 63 + e * 2 ^ 52 + f in
  (u / 2 ^ 52) mod 2 ^ 11 = e /\ u mod 2 ^ 52 = f /\ u / 2 ^ 63 = s.
Proof.
  intros S E Hf u. subst u. assert (D : (s * 2 ^ 63 + e * 2 ^ 52 + f) / 2 ^ 52 = s * 2 ^ 11 + e) by (replace (s * 2 ^ 63 + e * 2 ^ 52 + f) with (f + (s * 2 ^ 11 + e) * 2 ^ 52) by ring; rewrite Z.div_add, Z.div_small by lia; lia).
  split; [|split].
  - rewrite D. rewrite Z.add_comm, Z.mod_add by lia. apply Z.mod_small. lia.
  - replace (s * 2 ^ 63 + e * 2 ^ 52 + f) with (f + (s * 2 ^ 11 + e) * 2 ^ 52) by ring. rewrite Z.mod_add by lia. apply Z.mod_small. lia.
  - symmetry. apply (Z.div_unique _ _ _ (e * 2 ^ 52 + f)); lia.
Qed.
Lemma all_fields u : 0 <= u < 2 ^ 64 -> exists s e f, (s = 0 \/ s = 1) /\ 0 <= e < 2048 /\ 0 <= f < 2 ^ 52 /\ u = s * 2 ^ 63 + e * 2 ^ 52 + f.
Proof.
  intros U. exists (u / 2 ^ 63), ((u mod 2 ^ 63) / 2 ^ 52), (u mod 2 ^ 52). pose proof (Z.div_mod u (2 ^ 63) ltac:(lia)). pose proof (Z.mod_pos_bound u (2 ^ 63) ltac:(lia)). pose proof (Z.div_mod (u mod 2 ^ 63) (2 ^ 52) ltac:(lia)) as D. pose proof (Z.mod_pos_bound (u mod 2 ^ 63) (2 ^ 52) ltac:(lia)).
  assert (M : (u mod 2 ^ 63) mod 2 ^ 52 = u mod 2 ^ 52). { replace (2 ^ 63) with (2 ^ 52 * 2 ^ 11) by reflexivity. rewrite Z.rem_mul_r by lia. rewrite Z.mul_comm, Z.mod_add by lia. apply Z.mod_mod. lia. }
  rewrite M in *. assert (Q : 0 <= u / 2 ^ 63 < 2) by (split; [apply Z.div_pos; lia|apply Z.div_lt_upper_bound; lia]). split; [lia|]. split; [split; [apply Z.div_pos; lia|apply Z.div_lt_upper_bound; lia]|]. split; lia.
Qed.
Definition int_of (s e f : Z) : option Z :=
  if (e <? 1023) || (1075 <? e) then None else if ((2 ^ 52 + f) mod 2 ^ (1075 - e) =? 0) then Some (let m := (2 ^ 52 + f) / 2 ^ (1075 - e) in if s =? 1 then - m else m) else None.
Lemma get_int_fields s e f : (s = 0 \/ s = 1) -> 0 <= e < 2048 -> 0 <= f < 2 ^ 52 -> get_int (s * 2 ^ 63 + e * 2 ^ 52 + f) = int_of s e f.
Proof.
  intros S E Hf. unfold get_int, split_float, int_of. destruct (fields s e f S E Hf) as (-> & -> & ->). destruct (e =? 2047) eqn:E1; [replace ((e <? 1023) || (1075 <? e)) with true by lia; reflexivity|].
  assert (M : (f * 2 ^ 12) mod two64 = f * 2 ^ 12) by (apply Z.mod_small; unfold two64; lia). rewrite M. destruct (e =? 0) eqn:E0; cbn [negb s_exp s_width s_mant s_neg].
  { replace (e - 1023 <? 0) with true by lia. replace ((e <? 1023) || (1075 <? e)) with true by lia. reflexivity. }
  destruct (e - 1023 <? 0) eqn:E2; [replace ((e <? 1023) || (1075 <? e)) with true by lia; reflexivity|]. destruct (e - 1023 >=? 53) eqn:E3; [replace ((e <? 1023) || (1075 <? e)) with true by lia; reflexivity|]. replace ((e <? 1023) || (1075 <? e)) with false by lia.
  assert (H1 : f * 2 ^ 12 / 2 + 2 ^ 63 = (2 ^ 52 + f) * 2 ^ 11) by (replace (f * 2 ^ 12) with (f * 2 ^ 11 * 2) by ring; rewrite Z.div_mul by lia; lia). rewrite H1. set (k := 1075 - e). assert (K : 0 <= k <= 52) by lia.
  assert (P : 2 ^ 64 = 2 ^ k * 2 ^ (e - 1023 + 1 + 11)) by (rewrite <- Z.pow_add_r by lia; f_equal; lia).
  assert (H2 : (2 ^ 52 + f) * 2 ^ 11 * 2 ^ (e - 1023 + 1) = (2 ^ 52 + f) * 2 ^ (e - 1023 + 1 + 11)) by (rewrite (Z.pow_add_r 2 (e - 1023 + 1) 11) by lia; ring).
  assert (H3 : ((2 ^ 52 + f) * 2 ^ 11 * 2 ^ (e - 1023 + 1)) mod two64 = ((2 ^ 52 + f) mod 2 ^ k) * 2 ^ (e - 1023 + 1 + 11)) by (unfold two64; rewrite H2, P; apply Z.mul_mod_distr_r; apply Z.pow_nonzero; lia).
  rewrite H3. assert (H4 : (2 ^ 52 + f) * 2 ^ 11 / 2 ^ (64 - (e - 1023) - 1) = (2 ^ 52 + f) / 2 ^ k). { replace (64 - (e - 1023) - 1) with (k + 11) by lia. rewrite Z.pow_add_r by lia. apply Z.div_mul_cancel_r; [apply Z.pow_nonzero; lia|lia]. }
  rewrite H4. assert (PP : 0 < 2 ^ (e - 1023 + 1 + 11)) by (apply Z.pow_pos_nonneg; lia). destruct ((2 ^ 52 + f) mod 2 ^ k =? 0) eqn:Q.
  - replace ((2 ^ 52 + f) mod 2 ^ k) with 0 by lia. cbn [Z.mul Z.eqb negb]. f_equal. destruct S as [-> | ->]; reflexivity.
  - replace ((2 ^ 52 + f) mod 2 ^ k * 2 ^ (e - 1023 + 1 + 11) =? 0) with false; [reflexivity|]. symmetry. apply Z.eqb_neq. intros H. apply Z.mul_eq_0 in H. lia.
Qed.
Lemma some_inj {A} (a b : A) : Some a = Some b -> b = a.
Proof. congruence. Qed.
Lemma get_int_ok u i : 0 <= u < 2 ^ 64 -> get_int u = Some i <-> i <> 0 /\ Z.abs i < 2 ^ 53 /\ is_int u i.
Proof.
  intros U. destruct (all_fields u U) as (s & e & f & S & E & Hf & ->). rewrite get_int_fields by auto. unfold int_of. split.
  - destruct ((e <? 1023) || (1075 <? e)) eqn:C; [discriminate|]. destruct (_ =? 0) eqn:Q; [|discriminate]. intros H. apply some_inj in H. subst i. set (k := 1075 - e) in *. assert (K : 0 <= k <= 52) by lia. set (m := (2 ^ 52 + f) / 2 ^ k).
    assert (PK : 0 < 2 ^ k) by (apply Z.pow_pos_nonneg; lia). assert (D : 2 ^ 52 + f = 2 ^ k * m) by (unfold m; pose proof (Z.div_mod (2 ^ 52 + f) (2 ^ k) ltac:(lia)); lia).
    assert (MP : 0 < m) by (apply (Z.mul_pos_cancel_l (2 ^ k)); lia). assert (ML : m < 2 ^ 53) by (assert (m <= 2 ^ k * m) by nia; lia).
    split; [destruct S as [-> | ->]; cbn; lia|]. split; [destruct S as [-> | ->]; cbn - [Z.pow]; lia|]. apply (ii_normal _ _ s e f m); auto; [lia|]. rewrite D. replace 1075 with (k + e) by lia. rewrite Z.pow_add_r by lia. ring.
  - intros (NZ & L & H). destruct H as [s' e' f' m S' E' Hf' EQ V ->|s' f' m S' Hf' EQ V ->].
    + assert (T : s = s' /\ e = e' /\ f = f'). { destruct (fields s e f S E Hf) as (A & B & C). destruct (fields s' e' f' S' ltac:(lia) Hf') as (A' & B' & C'). rewrite <- EQ in A', B', C'. rewrite A in A'. rewrite B in B'. rewrite C in C'. auto. } destruct T as (<- & <- & <-).
      assert (MP : 0 < m). { assert (0 < m * 2 ^ 1075) by (rewrite V; apply Z.mul_pos_pos; [lia|apply Z.pow_pos_nonneg; lia]). apply (Z.mul_pos_cancel_r m (2 ^ 1075)); auto; apply Z.pow_pos_nonneg; lia. }
      assert (ML : m < 2 ^ 53) by (destruct S' as [-> | ->]; cbn - [Z.pow] in L; lia).
      assert (E1 : 1023 <= e). { apply Z.le_ngt. intros N. assert (2 ^ e <= 2 ^ 1022) by (apply Z.pow_le_mono_r; lia). assert (Q : (2 ^ 52 + f) * 2 ^ e <= (2 ^ 52 + f) * 2 ^ 1022) by (apply Z.mul_le_mono_nonneg_l; lia). assert (Q2 : (2 ^ 52 + f) * 2 ^ 1022 < 2 ^ 53 * 2 ^ 1022) by (apply Z.mul_lt_mono_pos_r; [apply Z.pow_pos_nonneg|]; lia). rewrite <- Z.pow_add_r in Q2 by lia. change (53 + 1022) with 1075 in Q2. assert (2 ^ 1075 <= m * 2 ^ 1075) by (rewrite <- (Z.mul_1_l (2 ^ 1075)) at 1; apply Z.mul_le_mono_nonneg_r; [apply Z.pow_nonneg|]; lia). lia. }
      assert (E2 : e <= 1075). { apply Z.le_ngt. intros N. assert (2 ^ 1076 <= 2 ^ e) by (apply Z.pow_le_mono_r; lia). assert (Q : 2 ^ 52 * 2 ^ 1076 <= (2 ^ 52 + f) * 2 ^ e) by (apply Z.mul_le_mono_nonneg; try lia; apply Z.pow_nonneg; lia). rewrite <- Z.pow_add_r in Q by lia. assert (Q2 : m * 2 ^ 1075 < 2 ^ 53 * 2 ^ 1075) by (apply Z.mul_lt_mono_pos_r; [apply Z.pow_pos_nonneg|]; lia). rewrite <- Z.pow_add_r in Q2 by lia. change (52 + 1076) with (53 + 1075) in Q. lia. }
      replace ((e <? 1023) || (1075 <? e)) with false by lia. set (k := 1075 - e) in *. assert (PK : 0 < 2 ^ k) by (apply Z.pow_pos_nonneg; lia).
      assert (D : 2 ^ 52 + f = m * 2 ^ k). { replace 1075 with (k + e) in V by lia. rewrite Z.pow_add_r, Z.mul_assoc in V by lia. apply Z.mul_cancel_r in V; [lia|apply Z.pow_nonzero; lia]. }
      rewrite D, Z.mod_mul, Z.div_mul by lia. reflexivity.
    + exfalso. assert (2 ^ 52 <= 2 ^ 1074) by (apply Z.pow_le_mono_r; lia). assert (m = 0). { assert (0 <= m) by (apply (Z.mul_nonneg_cancel_r m (2 ^ 1074)); [apply Z.pow_pos_nonneg; lia|lia]). destruct (Z.eq_dec m 0); auto. assert (1 * 2 ^ 1074 <= m * 2 ^ 1074) by (apply Z.mul_le_mono_nonneg_r; [apply Z.pow_nonneg|]; lia). lia. } subst m. apply NZ. destruct S' as [-> | ->]; reflexivity.
Qed.

(** Proofs about the pool allocator. *)
From Coq Require Import ZArith Bool List Lia ZifyBool Permutation.
From Verif Require Import Pool_model Pool_spec.
Import ListNotations.
Local Open Scope Z_scope.

Lemma W_val : W = 18446744073709551616. Proof. reflexivity. Qed.
Lemma wrap_small x : 0 <= x < W -> wrap x = x.
Proof. intro. unfold wrap. apply Z.mod_small. assumption. Qed.
Lemma wrap_range x : 0 <= wrap x < W.
Proof. unfold wrap. apply Z.mod_pos_bound. reflexivity. Qed.

(** ** Alignment *)
Lemma land_wrap n a : 0 <= n < W -> Z.land n (wrap a) = Z.land n a.
Proof.
  intro Hn. unfold wrap, W. rewrite <- (Z.land_ones a 64) by lia.
  rewrite (Z.land_comm a), Z.land_assoc, Z.land_ones by lia.
  rewrite (Z.mod_small n); [reflexivity|exact Hn].
Qed.
Lemma land_neg_pow2 n k : 0 <= k -> Z.land n (- 2 ^ k) = n - n mod 2 ^ k.
Proof.
  intro Hk.
  replace (- 2 ^ k) with (Z.lnot (Z.ones k)) by (rewrite Z.ones_equiv; unfold Z.lnot; lia).
  rewrite <- Z.ldiff_land, Z.ldiff_ones_r by lia.
  rewrite Z.shiftl_mul_pow2, Z.shiftr_div_pow2 by lia.
  pose proof (Z.div_mod n (2 ^ k)). lia.
Qed.
Lemma pow2_of_land a : 0 < a < W -> Z.land a (a - 1) = 0 -> pow2 a.
Proof.
  intros Ha H. set (k := Z.log2 a).
  pose proof (Z.log2_spec a ltac:(lia)) as Hk. fold k in Hk.
  assert (K0 : 0 <= k) by apply Z.log2_nonneg.
  assert (K1 : k < 64) by (apply (Z.pow_lt_mono_r_iff 2); unfold W in Ha; lia).
  destruct (Z.eq_dec a (2 ^ k)) as [E|NE]; [exists k; auto|exfalso].
  assert (B : forall x, 2 ^ k <= x < 2 ^ Z.succ k -> Z.testbit x k = true).
  { intros x Hx. rewrite Z.testbit_true by lia. rewrite Z.pow_succ_r in Hx by lia.
    replace (x / 2 ^ k) with 1; [reflexivity|]. apply (Z.div_unique x (2 ^ k) 1 (x - 2 ^ k)); lia. }
  assert (T : Z.testbit (Z.land a (a - 1)) k = true).
  { rewrite Z.land_spec, (B a), (B (a - 1)) by lia. reflexivity. }
  rewrite H, Z.bits_0 in T. discriminate.
Qed.
Lemma land_of_pow2 k : 0 <= k -> Z.land (2 ^ k) (2 ^ k - 1) = 0.
Proof.
  intro. replace (2 ^ k - 1) with (Z.ones k) by (rewrite Z.ones_equiv; lia).
  rewrite Z.land_ones by lia. apply Z_mod_same_full.
Qed.
Lemma pow2_pos a : pow2 a -> 0 < a < W.
Proof.
  intros (k & Hk & ->). split; [apply Z.pow_pos_nonneg; lia|].
  unfold W. apply Z.pow_lt_mono_r; lia.
Qed.
Lemma align_down_ok n a d : size_t n -> size_t a -> align_down n a = Ok d ->
  pow2 a /\ d = n - n mod a.
Proof.
  unfold align_down, size_t. intros Hn Ha.
  destruct (a =? 0) eqn:E0; cbn [negb]; [discriminate|].
  destruct (Z.land a (wrap (a - 1)) =? 0) eqn:E1; [|discriminate].
  intro H. injection H as <-.
  rewrite wrap_small in E1 by lia.
  assert (P : pow2 a) by (apply pow2_of_land; lia). split; [exact P|].
  destruct P as (k & Hk & ->). rewrite land_wrap by lia. apply land_neg_pow2. lia.
Qed.
Lemma align_down_pow2 n a : size_t n -> pow2 a -> align_down n a = Ok (n - n mod a).
Proof.
  intros Hn P. pose proof (pow2_pos a P) as Ha. unfold align_down.
  destruct (a =? 0) eqn:E0; cbn [negb]; [lia|].
  rewrite wrap_small by lia. destruct P as (k & Hk & ->).
  rewrite land_of_pow2 by lia. cbn [Z.eqb].
  unfold size_t in Hn. rewrite land_wrap, land_neg_pow2 by lia. reflexivity.
Qed.
Lemma align_down_diff_ok n a d : size_t n -> size_t a -> align_down_diff n a = Ok d -> pow2 a /\ d = n mod a.
Proof.
  intros Hn Ha. unfold align_down_diff. destruct (align_down n a) as [x|] eqn:E; [|discriminate].
  intro H. injection H as <-. apply align_down_ok in E as [P ->]; try assumption. split; [exact P|].
  pose proof (pow2_pos a P). pose proof (Z.mod_pos_bound n a ltac:(lia)).
  assert (a < W) by lia.
  replace (n - (n - n mod a)) with (n mod a) by lia. apply wrap_small. lia.
Qed.
Lemma align_down_diff_pow2 n a : size_t n -> pow2 a -> align_down_diff n a = Ok (n mod a).
Proof.
  intros Hn P. unfold align_down_diff. rewrite (align_down_pow2 n a Hn P).
  pose proof (pow2_pos a P). pose proof (Z.mod_pos_bound n a ltac:(lia)).
  replace (n - (n - n mod a)) with (n mod a) by lia. rewrite wrap_small by lia. reflexivity.
Qed.

Lemma land_mod k a b : 0 <= k -> Z.land a b mod 2 ^ k = Z.land (a mod 2 ^ k) (b mod 2 ^ k).
Proof.
  intro. rewrite <- !Z.land_ones by lia. apply Z.bits_inj'. intros i _. rewrite !Z.land_spec.
  destruct (Z.testbit a i), (Z.testbit b i), (Z.testbit (Z.ones k) i); reflexivity.
Qed.
Lemma lor_mod k a b : 0 <= k -> Z.lor a b mod 2 ^ k = Z.lor (a mod 2 ^ k) (b mod 2 ^ k).
Proof.
  intro. rewrite <- !Z.land_ones by lia. apply Z.bits_inj'. intros i _. rewrite !Z.lor_spec, !Z.land_spec, !Z.lor_spec.
  destruct (Z.testbit a i), (Z.testbit b i), (Z.testbit (Z.ones k) i); reflexivity.
Qed.
Lemma land_split k a b r s : 0 <= k -> 0 <= r < 2 ^ k -> 0 <= s < 2 ^ k ->
  Z.land (2 ^ k * a + r) (2 ^ k * b + s) = 2 ^ k * Z.land a b + Z.land r s.
Proof.
  intros Hk Hr Hs.
  set (x := Z.land _ _).
  assert (M : x mod 2 ^ k = Z.land r s).
  { unfold x. rewrite land_mod by lia.
    rewrite !(Z.mul_comm (2 ^ k)), !(Z.add_comm (_ * _)), !Z.mod_add by lia.
    rewrite !Z.mod_small by lia. reflexivity. }
  assert (D : x / 2 ^ k = Z.land a b).
  { unfold x. rewrite <- Z.shiftr_div_pow2, Z.shiftr_land, !Z.shiftr_div_pow2 by lia.
    rewrite !(Z.mul_comm (2 ^ k)), !Z.div_add_l by lia.
    rewrite !Z.div_small by lia. rewrite !Z.add_0_r. reflexivity. }
  pose proof (Z.div_mod x (2 ^ k) ltac:(lia)) as E. rewrite M, D in E. exact E.
Qed.
Lemma lor_split k a b r s : 0 <= k -> 0 <= r < 2 ^ k -> 0 <= s < 2 ^ k ->
  Z.lor (2 ^ k * a + r) (2 ^ k * b + s) = 2 ^ k * Z.lor a b + Z.lor r s.
Proof.
  intros Hk Hr Hs.
  set (x := Z.lor _ _).
  assert (M : x mod 2 ^ k = Z.lor r s).
  { unfold x. rewrite lor_mod by lia.
    rewrite !(Z.mul_comm (2 ^ k)), !(Z.add_comm (_ * _)), !Z.mod_add by lia.
    rewrite !Z.mod_small by lia. reflexivity. }
  assert (D : x / 2 ^ k = Z.lor a b).
  { unfold x. rewrite <- Z.shiftr_div_pow2, Z.shiftr_lor, !Z.shiftr_div_pow2 by lia.
    rewrite !(Z.mul_comm (2 ^ k)), !Z.div_add_l by lia.
    rewrite !Z.div_small by lia. rewrite !Z.add_0_r. reflexivity. }
  pose proof (Z.div_mod x (2 ^ k) ltac:(lia)) as E. rewrite M, D in E. exact E.
Qed.
Lemma size_align_16 b : size_t b -> size_align (Z.lor b MAX_ALIGN) = Z.gcd b MAX_ALIGN /\ pow2 (Z.gcd b MAX_ALIGN).
Proof.
  intro Hb. unfold size_t in Hb.
  pose proof (Z.div_mod b 32 ltac:(lia)) as E. pose proof (Z.mod_pos_bound b 32 ltac:(lia)) as R.
  set (q := b / 32) in *. set (r := b mod 32) in *. clearbody q r. subst b.
  assert (L : Z.lor (32 * q + r) MAX_ALIGN = 32 * q + Z.lor r 16 /\ 0 < Z.lor r 16 < 32).
  { assert (C : r < 32 /\ 0 <= r) by lia.
    assert (H : forall r, 0 <= r < 32 -> 0 < Z.lor r 16 < 32).
    { clear. intros r H. assert (In r (map Z.of_nat (seq 0 32))) as I.
      { replace r with (Z.of_nat (Z.to_nat r)) by lia. apply in_map, in_seq. lia. }
      clear H. revert r I. apply Forall_forall. vm_compute map.
      repeat (apply Forall_cons; [cbv; split; reflexivity|]). apply Forall_nil. }
    split; [|exact (H r R)].
    unfold MAX_ALIGN. pose proof (lor_split 5 q 0 r 16 ltac:(lia) ltac:(lia) ltac:(lia)) as LS.
    change (2 ^ 5) with 32 in LS. rewrite Z.lor_0_r in LS. exact LS. }
  destruct L as [-> Hr]. set (r' := Z.lor r 16) in *.
  unfold size_align. assert (W = 32 * (W / 32)) by reflexivity.
  rewrite land_wrap by lia.
  replace (- (32 * q + r')) with (2 ^ 5 * (- q - 1) + (32 - r')) by lia.
  change (32 * q + r') with (2 ^ 5 * q + r').
  rewrite land_split by lia.
  replace (- q - 1) with (Z.lnot q) by (unfold Z.lnot; lia). rewrite Z.land_lnot_diag.
  assert (G : Z.gcd (32 * q + r) 16 = Z.gcd r 16).
  { rewrite Z.gcd_comm, (Z.gcd_comm r). replace (32 * q + r) with (r + 2 * q * 16) by lia. apply Z.gcd_add_mult_diag_r. }
  unfold MAX_ALIGN. rewrite G. unfold r'. clear - R.
  assert (In r (map Z.of_nat (seq 0 32))) as I.
  { replace r with (Z.of_nat (Z.to_nat r)) by lia. apply in_map, in_seq. lia. }
  clear R. revert r I. apply Forall_forall. vm_compute map.
  repeat (apply Forall_cons;
    [split; [reflexivity|];
     match goal with |- pow2 ?x => let v := eval vm_compute in x in
       let k := eval vm_compute in (Z.log2 v) in exists k; split; [lia|reflexivity] end|]).
  apply Forall_nil.
Qed.

(** ** The invariant *)
Definition block_ok (m : mem) (b : block) : Prop :=
  SIZEOF_BLOCK < heap b /\ 0 <= heap_size b /\ heap b + heap_size b <= W /\
  heap b <= brk b <= heap b + heap_size b /\ (forall x, heap b <= x < brk b -> m x = 0).
Definition full (b : block) : Prop := brk b = heap b + heap_size b.
Definition apart (l : list block) : Prop := ForallOrdPairs disjoint (map whole l).
Definition size_ok (n : Z) : Prop := n = 0 \/ exists k, 20 <= k <= 63 /\ n = 2 ^ k.
(** a range above the brk of a block *)
Definition taken (b : block) (r : Z * Z) : Prop := brk b <= fst r /\ fst r + snd r <= heap b + heap_size b.

Record inv (m : mem) (a : pool) (live : list (Z * Z)) : Prop := {
  i_size : size_ok (block_size a);
  i_ok : forall b, In b (owned a) -> block_ok m b;
  i_full : forall b, In b (free a) -> full b;
  i_apart : apart (owned a);
  i_live : forall r, In r live -> exists b, In b (used a) /\ taken b r;
  i_disj : ForallOrdPairs disjoint live }.

Lemma disjoint_sym r s : disjoint r s -> disjoint s r.
Proof. unfold disjoint. intros H x A B. exact (H x B A). Qed.
Lemma FOP_perm {A} (R : A -> A -> Prop) (S : forall x y, R x y -> R y x) l l' :
  Permutation l l' -> ForallOrdPairs R l -> ForallOrdPairs R l'.
Proof.
  induction 1 as [|x l l' P IH|x y l|l l' l'' P1 IH1 P2 IH2]; intro F.
  - exact F.
  - inversion_clear F as [|? ? F1 F2]. constructor; [eapply Permutation_Forall; eassumption|auto].
  - inversion_clear F as [|? ? F1 F2]. inversion_clear F1 as [|? ? F3 F4]. inversion_clear F2 as [|? ? F5 F6].
    repeat constructor; auto.
  - auto.
Qed.
Lemma FOP_cons {A} (R : A -> A -> Prop) x l : ForallOrdPairs R (x :: l) <-> (forall y, In y l -> R x y) /\ ForallOrdPairs R l.
Proof.
  split.
  - inversion_clear 1. split; [apply Forall_forall; assumption|assumption].
  - intros [H1 H2]. constructor; [apply Forall_forall; assumption|assumption].
Qed.
Lemma apart_cons b l : apart (b :: l) <-> (forall c, In c l -> disjoint (whole b) (whole c)) /\ apart l.
Proof.
  unfold apart. cbn [map]. rewrite FOP_cons. split; intros [H1 H2]; (split; [|exact H2]).
  - intros c Hc. apply H1, in_map, Hc.
  - intros y Hy. apply in_map_iff in Hy as (c & <- & Hc). auto.
Qed.
Lemma apart_perm l l' : Permutation l l' -> apart l -> apart l'.
Proof. intro P. unfold apart. apply FOP_perm; [exact disjoint_sym|]. apply Permutation_map, P. Qed.

Lemma block_ok_ext m m' b : block_ok m b -> (forall x, within (whole b) x -> m' x = m x) -> block_ok m' b.
Proof.
  unfold block_ok, within, whole, SIZEOF_BLOCK. cbn [fst snd]. intros (H1 & H2 & H3 & H4 & H5) E.
  do 4 (split; [assumption|]). intros x Hx. rewrite E by lia. auto.
Qed.
Lemma zero_in m p n x : within (p, n) x -> zero m p n x = 0.
Proof. unfold within, zero. cbn [fst snd]. intro. destruct ((p <=? x) && (x <? p + n)) eqn:E; lia. Qed.
Lemma zero_out m p n x : ~ within (p, n) x -> zero m p n x = m x.
Proof. unfold within, zero. cbn [fst snd]. intro. destruct ((p <=? x) && (x <? p + n)) eqn:E; lia. Qed.

Lemma inv_init m : inv m pool_init [].
Proof. split; cbn; try contradiction; try constructor; reflexivity. Qed.

(** *** Clearing *)
Lemma block_clear_ok m b m' b' : block_ok m b -> block_clear m b = (m', b') ->
  block_ok m' b' /\ full b' /\ whole b' = whole b /\ (forall x, ~ within (area b) x -> m' x = m x).
Proof.
  unfold block_clear, block_ok, full, whole. intros (H1 & H2 & H3 & H4 & H5).
  destruct (brk b =? heap b + heap_size b) eqn:E; cbn [negb]; intro H; injection H as <- <-; cbn [heap heap_size brk].
  - repeat split; try lia. exact H5.
  - split; [|split; [reflexivity|split; [reflexivity|]]].
    + repeat split; try lia. intros x Hx. apply zero_in. unfold within. cbn. lia.
    + intros x Hx. apply zero_out. exact Hx.
Qed.
Lemma area_whole b x : within (area b) x -> within (whole b) x.
Proof. unfold within, area, whole, SIZEOF_BLOCK. cbn. lia. Qed.
Lemma clear_ok us : forall m fr m' fr', (forall b, In b (us ++ fr) -> block_ok m b) -> (forall b, In b fr -> full b) ->
  apart (us ++ fr) -> clear_ m us fr = (m', fr') ->
  (forall b, In b fr' -> block_ok m' b /\ full b) /\ apart fr'.
Proof.
  induction us as [|b us IH]; cbn [clear_ app]; intros m fr m' fr' H1 H2 H3 H.
  - injection H as <- <-. auto.
  - destruct (block_clear m b) as [m1 b1] eqn:E.
    apply block_clear_ok in E as (B1 & B2 & B3 & B4); [|apply H1; left; reflexivity].
    apply apart_cons in H3 as [A1 A2].
    revert H. apply IH.
    + intros c Hc. apply in_app_or in Hc as [Hc|[<-|Hc]]; [|exact B1|].
      all: apply block_ok_ext with m; [apply H1; right; apply in_or_app; auto|].
      all: intros x Hx; apply B4; intro Hx'; apply area_whole in Hx'; refine (A1 c _ x Hx' Hx); apply in_or_app; auto.
    + intros c [<-|Hc]; auto.
    + apply apart_perm with (b1 :: us ++ fr).
      { apply Permutation_middle. }
      apply apart_cons. rewrite B3. split; assumption.
Qed.
Lemma inv_clear m a live m' a' : inv m a live -> pool_clear m a = (m', a') -> inv m' a' [].
Proof.
  intros [I1 I2 I3 I4 I5 I6]. unfold pool_clear. destruct (clear_ m (used a) (free a)) as [m1 fr] eqn:E.
  intro H. injection H as <- <-.
  apply clear_ok in E as [E1 E2]; try assumption.
  split; unfold owned; cbn [block_size used free app]; auto.
  - intros b Hb. apply E1, Hb.
  - intros b Hb. apply E1, Hb.
  - intros r [].
  - constructor.
Qed.
Lemma inv_fini m a live : inv m a live -> inv m (pool_fini a) [].
Proof.
  intros [I1 I2 I3 I4 I5 I6]. split; unfold owned; cbn; [exact I1|contradiction|contradiction|constructor|contradiction|constructor].
Qed.

(** *** Writing *)
Lemma inv_store m a live x v : inv m a live ->
  (exists r, In r live /\ within r x) \/ (forall b, In b (owned a) -> ~ within (whole b) x) -> inv (store m x v) a live.
Proof.
  intros [I1 I2 I3 I4 I5 I6] H. split; try assumption.
  intros b Hb. specialize (I2 b Hb) as Hok. destruct Hok as (H1 & H2 & H3 & H4 & H5).
  do 4 (split; [assumption|]). intros y Hy. unfold store. destruct (y =? x) eqn:E; [|auto].
  exfalso. apply Z.eqb_eq in E as ->.
  assert (Wb : within (whole b) x) by (unfold within, whole, SIZEOF_BLOCK in *; cbn [fst snd]; lia).
  destruct H as [(r & Hr & Hx)|H]; [|exact (H b Hb Wb)].
  destruct (I5 r Hr) as (c & Hc & T). unfold taken, within in *.
  assert (Wc : within (whole c) x).
  { destruct (I2 c (in_or_app _ _ _ (or_introl Hc))) as (C1 & C2 & C3 & C4 & _).
    unfold within, whole, SIZEOF_BLOCK in *; cbn [fst snd]. lia. }
  assert (E : b = c).
  { clear - I4 Hb Hc Wb Wc. assert (Hc' : In c (owned a)) by (apply in_or_app; auto). clear Hc.
    revert I4 Hb Hc'. generalize (owned a) as l.
    induction l as [|d l IH]; [contradiction|]. intros A [->|Hb] [->|Hc]; apply apart_cons in A as [A1 A2]; auto.
    - exfalso. exact (A1 c Hc x Wb Wc).
    - exfalso. exact (A1 b Hb x Wc Wb). }
  subst c. lia.
Qed.

(** *** Allocation *)
Lemma mem_is0_true m : forall n p, (forall x, p <= x < p + Z.of_nat n -> m x = 0) -> mem_is0_ m p n = true.
Proof.
  induction n as [|n IH]; intros p H; [reflexivity|]. cbn [mem_is0_].
  rewrite H by lia. cbn [Z.eqb]. apply IH. intros x Hx. apply H. lia.
Qed.

(** The brk where an allocation ends up *)
Definition new_brk (b : block) (n s al : Z) : Z := let p := brk b - n * s in p - p mod al.
Lemma div_lt_mul h s n : 0 < s -> h / s < n -> h < n * s.
Proof. intros Hs H. pose proof (Z.mul_succ_div_gt h s Hs). nia. Qed.
Lemma div_ge_mul h s n : 0 < s -> n <= h / s -> n * s <= h.
Proof. intros Hs H. pose proof (Z.mul_div_le h s Hs). nia. Qed.
Lemma try_some m b n s al : block_ok m b -> size_t n -> size_t s -> size_t al -> forall r,
  try_block_calloc m (Some b) n s al = Ok r ->
  0 < n /\ 0 < s /\
  match r with
  | Some (b', p) => pow2 al /\ p = new_brk b n s al /\ heap b <= p /\ b' = mk_block (heap b) (heap_size b) p
  | None => 0 < al -> brk b < heap b + n * s + (al - 1)
  end.
Proof.
  intros (B1 & B2 & B3 & B4 & B5) Hn Hs Hal r. unfold try_block_calloc, size_t, SIZEOF_BLOCK in *.
  destruct (0 <? s) eqn:E1; [|discriminate]. destruct (0 <? n) eqn:E2; [|discriminate].
  apply Z.ltb_lt in E1, E2.
  destruct (heap_size b / s <? n) eqn:E3.
  { intro H. injection H as <-. split; [lia|]. split; [lia|]. intro.
    pose proof (div_lt_mul (heap_size b) s n E1 ltac:(lia)). lia. }
  pose proof (div_ge_mul (heap_size b) s n E1 ltac:(lia)) as S.
  assert (0 < n * s) by nia.
  rewrite (wrap_small (n * s)) by lia. cbv zeta.
  destruct (heap b <=? brk b) eqn:E4; [|discriminate].
  destruct (brk b - heap b <? n * s) eqn:E5.
  { intro H'. injection H' as <-. split; [lia|]. split; [lia|]. intro. lia. }
  destruct (align_down_diff (brk b - n * s) al) as [d|] eqn:ED; [|discriminate].
  apply align_down_diff_ok in ED as [P ->]; [|unfold size_t; lia|unfold size_t; lia].
  pose proof (pow2_pos al P) as Pal.
  pose proof (Z.mod_pos_bound (brk b - n * s) al ltac:(lia)) as MB.
  destruct (heap b <=? brk b - n * s) eqn:E6; [|discriminate].
  destruct (brk b - n * s - heap b <? (brk b - n * s) mod al) eqn:E7.
  { intro H'. injection H' as <-. split; [lia|]. split; [lia|]. intro. lia. }
  unfold mem_is0. rewrite (mem_is0_true m) by (intros x Hx; apply B5; lia).
  intro H'. injection H' as <-. split; [lia|]. split; [lia|].
  unfold new_brk. cbv zeta. split; [exact P|]. split; [reflexivity|]. split; [lia|reflexivity].
Qed.
Lemma try_no_err m b n s al : block_ok m b -> size_t n -> size_t s -> 0 < n -> 0 < s -> pow2 al ->
  exists r, try_block_calloc m (Some b) n s al = Ok r.
Proof.
  intros (B1 & B2 & B3 & B4 & B5) Hn Hs N0 S0 P. unfold try_block_calloc, size_t, SIZEOF_BLOCK in *.
  rewrite (proj2 (Z.ltb_lt 0 s) S0), (proj2 (Z.ltb_lt 0 n) N0).
  destruct (heap_size b / s <? n) eqn:E3; [eauto|].
  pose proof (div_ge_mul (heap_size b) s n S0 ltac:(lia)) as S.
  assert (0 < n * s) by nia.
  rewrite (wrap_small (n * s)) by lia. cbv zeta.
  destruct (heap b <=? brk b) eqn:E4; [|lia].
  destruct (brk b - heap b <? n * s) eqn:E5; [eauto|].
  rewrite align_down_diff_pow2; [|unfold size_t; lia|exact P].
  pose proof (pow2_pos al P) as Pal.
  pose proof (Z.mod_pos_bound (brk b - n * s) al ltac:(lia)) as MB.
  destruct (heap b <=? brk b - n * s) eqn:E6; [|lia].
  destruct (brk b - n * s - heap b <? (brk b - n * s) mod al) eqn:E7; [eauto|].
  unfold mem_is0. rewrite (mem_is0_true m) by (intros x Hx; apply B5; lia). eauto.
Qed.

(** *** The block size *)
Lemma pow2_le k : 0 <= k <= 63 -> 0 < 2 ^ k <= 2 ^ 63.
Proof. intro. split; [apply Z.pow_pos_nonneg; lia|apply Z.pow_le_mono_r; lia]. Qed.
Lemma grow_ok n s : forall fuel k r, 20 <= k <= 63 -> grow fuel (2 ^ k) n s = Ok r -> exists k', k <= k' <= 63 /\ r = 2 ^ k' /\
  (k' = 63 \/ wrap (10 * n) <= r / s).
Proof.
  induction fuel as [|fuel IH]; [discriminate|]. intros k r Hk. cbn [grow].
  destruct (2 ^ k / s <? wrap (10 * n)) eqn:E.
  - replace (2 ^ k * 2) with (2 ^ (k + 1)) by (rewrite Z.pow_add_r by lia; reflexivity).
    destruct (Z.eq_dec k 63) as [->|NE].
    + change (wrap (2 ^ (63 + 1))) with 0. change (0 <? 2 ^ 63) with true. cbv iota.
      intro H. injection H as <-. exists 63. split; [lia|]. split; [reflexivity|]. left. reflexivity.
    + pose proof (pow2_le (k + 1) ltac:(lia)). pose proof (pow2_le k ltac:(lia)).
      assert (2 ^ 63 < W) by reflexivity. rewrite wrap_small by lia. cbv zeta.
      destruct (2 ^ (k + 1) <? 2 ^ k) eqn:E2.
      * exfalso. assert (2 ^ (k + 1) = 2 * 2 ^ k) by (rewrite Z.pow_add_r by lia; lia). lia.
      * intro G. apply IH in G as (k' & K1 & K2 & K3); [|lia]. exists k'. split; [lia|auto].
  - intro H. injection H as <-. exists k. split; [lia|]. split; [reflexivity|]. right. lia.
Qed.
Lemma grow_fuel n s : forall fuel k, 20 <= k <= 63 -> 64 - k <= Z.of_nat fuel -> exists r, grow fuel (2 ^ k) n s = Ok r.
Proof.
  induction fuel as [|fuel IH]; intros k Hk Hf; [lia|]. cbn [grow].
  destruct (2 ^ k / s <? wrap (10 * n)); [|eauto].
  replace (2 ^ k * 2) with (2 ^ (k + 1)) by (rewrite Z.pow_add_r by lia; reflexivity).
  destruct (Z.eq_dec k 63) as [->|NE].
  - change (wrap (2 ^ (63 + 1))) with 0. change (0 <? 2 ^ 63) with true. cbv iota. eauto.
  - pose proof (pow2_le (k + 1) ltac:(lia)). assert (2 ^ 63 < W) by reflexivity. rewrite wrap_small by lia. cbv zeta.
    destruct (2 ^ (k + 1) <? 2 ^ k); [eauto|]. apply IH; lia.
Qed.
Lemma align_up_pow2 k : 20 <= k <= 63 -> align_up (2 ^ k) BLOCK_ALIGN = Ok (2 ^ k).
Proof.
  intro Hk. unfold align_up, BLOCK_ALIGN.
  pose proof (pow2_le k ltac:(lia)). assert (2 ^ 63 + 4096 < W) by reflexivity.
  rewrite wrap_small by lia. rewrite align_down_pow2; [|unfold size_t; lia|exists 12; split; [lia|reflexivity]].
  f_equal. replace (2 ^ k) with (2 ^ (k - 12) * 4096) by (change 4096 with (2 ^ 12); rewrite <- Z.pow_add_r by lia; f_equal; lia).
  replace (2 ^ (k - 12) * 4096 + 4096 - 1) with (4095 + 2 ^ (k - 12) * 4096) by lia.
  rewrite Z.mod_add by lia. rewrite Z.mod_small by lia. lia.
Qed.
Lemma size_ok_start n : size_ok n -> exists k, 20 <= k <= 63 /\ (if n =? 0 then BLOCK_SIZE_DEFAULT else n) = 2 ^ k.
Proof.
  intros [->|(k & Hk & ->)].
  - exists 20. split; [lia|reflexivity].
  - exists k. split; [exact Hk|]. pose proof (pow2_le k ltac:(lia)). destruct (2 ^ k =? 0) eqn:E; [lia|reflexivity].
Qed.

(** *** A new block *)
Lemma next_ok sys m a live k m' a' b : good_sys sys -> inv m a live -> block_size a = 2 ^ k -> 20 <= k <= 63 ->
  block_next sys m a (2 ^ k) = Ok (m', a', b) ->
  let a'' := mk_pool (block_size a') (free a') (b :: used a') in
  inv m' a'' live /\ full b /\ 2 ^ k - SIZEOF_BLOCK <= heap_size b /\ block_size a' = 2 ^ k /\ used a' = used a /\
  (forall c x, In c (used a) -> within (whole c) x -> m' x = m x).
Proof.
  intros GS [I1 I2 I3 I4 I5 I6] EB Hk. unfold block_next.
  pose proof (Z.pow_le_mono_r 2 20 k ltac:(lia) ltac:(lia)) as L. pose proof (pow2_le k ltac:(lia)) as U.
  assert (2 ^ 63 < W) by reflexivity. change (2 ^ 20) with 1048576 in L.
  rewrite (wrap_small (2 ^ k - SIZEOF_BLOCK)) by (unfold SIZEOF_BLOCK; lia).
  set (a1 := match free a with [] => a | b :: _ => _ end).
  assert (A1 : used a1 = used a /\ block_size a1 = block_size a /\
    (free a1 = [] \/ free a1 = free a /\ exists c fr, free a = c :: fr /\ 2 ^ k - SIZEOF_BLOCK <= heap_size c)).
  { unfold a1. destruct (free a) as [|c fr] eqn:F; [auto|].
    destruct (heap_size c <? 2 ^ k - SIZEOF_BLOCK) eqn:E; cbn; [auto|]. split; [reflexivity|]. split; [reflexivity|].
    right. split; [exact F|]. exists c, fr. split; [reflexivity|lia]. }
  destruct A1 as (A1 & A2 & A3). clearbody a1. destruct A3 as [A3|(A3 & c & fr & F & Hc)].
  - rewrite A3, A1. destruct (sys (used a) (2 ^ k)) as [p|] eqn:ES; [|discriminate].
    destruct (GS _ _ _ ES) as (P1 & P2 & P3).
    destruct (SIZEOF_BLOCK <? 2 ^ k) eqn:E; [|discriminate]. unfold SIZEOF_BLOCK in *. cbv zeta.
    intro H'. injection H' as <- <- <-. cbn [block_size free used heap_size].
    assert (OUT : forall c x, In c (used a) -> within (whole c) x -> zero m p (2 ^ k) x = m x).
    { intros c x Hc Hx. apply zero_out. intro Hx'. exact (P3 c Hc x Hx' Hx). }
    split; [|split; [reflexivity|split; [lia|split; [rewrite A2; exact EB|split; [exact A1|exact OUT]]]]].
    split; unfold owned; cbn [block_size free used].
    + rewrite A2. exact I1.
    + rewrite A3, app_nil_r, A1. intros c [<-|Hc].
      * unfold block_ok, SIZEOF_BLOCK. cbn [heap heap_size brk]. repeat split; try lia.
        intros x Hx. apply zero_in. unfold within. cbn. lia.
      * apply block_ok_ext with m; [apply I2, in_or_app; auto|]. intros x Hx. exact (OUT c x Hc Hx).
    + rewrite A3. intros ? [].
    + rewrite A3, app_nil_r, A1. apply apart_cons. split.
      * intros c Hc x Hx. apply P3; [exact Hc|]. unfold within, whole, SIZEOF_BLOCK in *. cbn in *. lia.
      * assert (P : forall l l', apart (l ++ l') -> apart l).
        { clear. induction l as [|d l IH]; intros l' H; [constructor|]. cbn [app] in H. apply apart_cons in H as [H1 H2].
          apply apart_cons. split; [|eauto]. intros c Hc. apply H1, in_or_app. auto. }
        exact (P _ _ I4).
    + rewrite A1. intros r Hr. destruct (I5 r Hr) as (c & Hc & T). exists c. split; [right; exact Hc|exact T].
    + exact I6.
  - rewrite A3, F. intro H'. injection H' as <- <- <-. cbn [block_size free used].
    assert (In c (free a)) as Hcf by (rewrite F; left; reflexivity).
    split; [|split; [apply I3, Hcf|split; [exact Hc|split; [rewrite A2; exact EB|split; [exact A1|reflexivity]]]]].
    assert (PM : Permutation (owned a) (c :: used a ++ fr)).
    { unfold owned. rewrite F. symmetry. apply Permutation_middle. }
    split; unfold owned; cbn [block_size free used app]; rewrite ?A1, ?A2.
    + exact I1.
    + intros d Hd. apply I2. apply (Permutation_in _ (Permutation_sym PM)), Hd.
    + intros d Hd. apply I3. rewrite F. right. exact Hd.
    + exact (apart_perm _ _ PM I4).
    + intros r Hr. destruct (I5 r Hr) as (d & Hd & T). exists d. split; [right; exact Hd|exact T].
    + exact I6.
Qed.

Lemma fop_live_cons m b bl live r : apart (b :: bl) -> (forall c, In c (b :: bl) -> block_ok m c) ->
  (forall r, In r live -> exists c, In c (b :: bl) /\ taken c r) ->
  heap b <= fst r -> fst r + snd r <= brk b ->
  forall r', In r' live -> disjoint r r'.
Proof.
  intros A O L R1 R2 r' Hr' x Hx Hx'. destruct (L r' Hr') as (c & Hc & T).
  pose proof (O c Hc) as (C1 & C2 & C3 & C4 & _). pose proof (O b (or_introl eq_refl)) as (B1 & B2 & B3 & B4 & _).
  unfold taken, within in *.
  destruct Hc as [<-|Hc]; [lia|]. apply apart_cons in A as [A _].
  apply (A c Hc x); unfold within, whole, SIZEOF_BLOCK in *; cbn [fst snd]; lia.
Qed.
Lemma try_inv m a live b us n s al b' p : inv m a live -> used a = b :: us -> size_t n -> size_t s -> size_t al ->
  try_block_calloc m (Some b) n s al = Ok (Some (b', p)) ->
  let a' := mk_pool (block_size a) (free a) (b' :: us) in
  inv m a' ((p, n * s) :: live) /\ allocated m a' live al p (n * s) /\ pow2 al.
Proof.
  intros [I1 I2 I3 I4 I5 I6] EU Hn Hs Hal ET.
  assert (Ob : block_ok m b) by (apply I2; unfold owned; rewrite EU; left; reflexivity).
  pose proof (try_some m b n s al Ob Hn Hs Hal _ ET) as (N0 & S0 & P & Ep & Hp & ->).
  pose proof Ob as (B1 & B2 & B3 & B4 & B5).
  assert (NS : 0 < n * s) by nia. pose proof (pow2_pos al P) as Pal.
  assert (PM : p mod al = 0 /\ p + n * s <= brk b).
  { rewrite Ep. unfold new_brk. cbv zeta. set (y := brk b - n * s).
    pose proof (Z.mod_pos_bound y al ltac:(lia)). split; [|lia].
    replace (y - y mod al) with (y / al * al) by (pose proof (Z.div_mod y al ltac:(lia)); lia). apply Z.mod_mul. lia. }
  clear Ep. destruct PM as [PA PB]. unfold SIZEOF_BLOCK in B1.
  assert (DJ : forall r, In r live -> disjoint (p, n * s) r).
  { apply (fop_live_cons m b (us ++ free a)); cbn [fst snd].
    - unfold owned in I4. rewrite EU in I4. exact I4.
    - unfold owned in I2. rewrite EU in I2. exact I2.
    - intros r Hr. destruct (I5 r Hr) as (c & Hc & T). exists c. split; [|exact T]. rewrite EU in Hc.
      destruct Hc as [->|Hc]; [left; reflexivity|right; apply in_or_app; auto].
    - lia.
    - lia. }
  cbv zeta. split; [|split; [|exact P]].
  - split; unfold owned; cbn [block_size free used app].
    + exact I1.
    + intros c [<-|Hc].
      * unfold block_ok, SIZEOF_BLOCK. cbn [heap heap_size brk]. repeat split; try lia. intros x Hx. apply B5. lia.
      * apply I2. unfold owned. rewrite EU. right. exact Hc.
    + exact I3.
    + unfold owned in I4. rewrite EU in I4. exact I4.
    + intros r [<-|Hr].
      * eexists. split; [left; reflexivity|]. unfold taken. cbn. lia.
      * destruct (I5 r Hr) as (c & Hc & T). rewrite EU in Hc. destruct Hc as [<-|Hc].
        -- eexists. split; [left; reflexivity|]. unfold taken in *. cbn. lia.
        -- exists c. split; [right; exact Hc|exact T].
    + constructor; [|exact I6]. apply Forall_forall. exact DJ.
  - split.
    + split.
      * lia.
      * exact PA.
      * cbn [used]. eexists. split; [left; reflexivity|]. unfold within, area. cbn. lia.
      * exact DJ.
    + unfold within. cbn [fst snd]. intros x Hx. apply B5. lia.
Qed.

Lemma resize_inv m a live k : inv m a live -> 20 <= k <= 63 -> inv m (mk_pool (2 ^ k) (free a) (used a)) live.
Proof.
  intros [I1 I2 I3 I4 I5 I6] Hk. split; unfold owned; cbn [block_size free used]; try assumption.
  right. exists k. split; [exact Hk|reflexivity].
Qed.

Lemma tries_ok sys n s al : good_sys sys -> size_t n -> size_t s -> size_t al -> forall cnt m a live m' a' p,
  inv m a live -> tries cnt sys m a n s al = Ok (m', a', p) ->
  inv m' a' ((p, n * s) :: live) /\ allocated m' a' live al p (n * s) /\ pow2 al /\
  (forall c x, In c (used a) -> within (whole c) x -> m' x = m x).
Proof.
  intros GS Hn Hs Hal. induction cnt as [|cnt IH]; [discriminate|].
  intros m a live m' a' p I. cbn [tries].
  destruct (try_block_calloc m (hd_error (used a)) n s al) as [[[b q]|]|] eqn:ET; [| |discriminate].
  - destruct (used a) as [|b0 us] eqn:EU; cbn [hd_error tl] in *.
    { unfold try_block_calloc in ET. destruct (0 <? s), (0 <? n); discriminate. }
    intro H. injection H as <- <- <-.
    destruct (try_inv m a live b0 us n s al b q I EU Hn Hs Hal ET) as (J1 & J2 & J3).
    split; [exact J1|]. split; [exact J2|]. split; [exact J3|reflexivity].
  - destruct (size_ok_start _ (i_size _ _ _ I)) as (k & Hk & ->).
    destruct (grow 66 (2 ^ k) n s) as [bs|] eqn:EG; [|discriminate].
    apply grow_ok in EG as (k' & K1 & -> & _); [|exact Hk].
    destruct (0 <? 2 ^ k') eqn:EP; [|discriminate].
    rewrite align_up_pow2 by lia.
    destruct (block_next sys m (mk_pool (2 ^ k') (free a) (used a)) (2 ^ k')) as [[[m1 a1] b]|] eqn:EN; [|discriminate].
    apply (next_ok sys m _ live) in EN as (J1 & J2 & J3 & J4 & J5 & J6);
      [|exact GS|apply resize_inv; [exact I|lia]|reflexivity|lia].
    intro H. apply (IH _ _ live) in H as (L1 & L2 & L3 & L4); [|exact J1].
    split; [exact L1|]. split; [exact L2|]. split; [exact L3|].
    intros c x Hc Hx. cbn [used] in *. rewrite (L4 c x); [exact (J6 c x Hc Hx)| |exact Hx].
    right. rewrite J5. exact Hc.
Qed.

Lemma calloc_ok sys m a live n s al m' a' p : inv m a live -> good_sys sys -> size_t n -> size_t s -> size_t al ->
  pool_calloc sys m a n s al = Ok (m', a', p) ->
  if n =? 0 then p = 0 /\ m' = m /\ a' = a else
  inv m' a' ((p, n * s) :: live) /\ allocated m' a' live al p (n * s) /\ pow2 al /\
  (forall c x, In c (used a) -> within (whole c) x -> m' x = m x).
Proof.
  intros I GS Hn Hs Hal. unfold pool_calloc.
  destruct (s =? 0) eqn:E; cbn [negb]; [discriminate|]. destruct (n =? 0) eqn:EN.
  - intro H. injection H as <- <- <-. auto.
  - apply tries_ok; assumption.
Qed.
Lemma live_kept m m' a live r x : inv m a live -> (forall c x, In c (used a) -> within (whole c) x -> m' x = m x) ->
  In r live -> within r x -> m' x = m x.
Proof.
  intros I H Hr Hx. destruct (i_live _ _ _ I r Hr) as (c & Hc & T).
  apply (H c); [exact Hc|].
  destruct (i_ok _ _ _ I c (in_or_app _ _ _ (or_introl Hc))) as (C1 & C2 & C3 & C4 & _).
  unfold taken, within, whole, SIZEOF_BLOCK in *. cbn [fst snd]. lia.
Qed.

(** memory changed within a range handed out *)
Lemma inv_change m m' a live r : inv m a (r :: live) -> (forall x, ~ within r x -> m' x = m x) -> inv m' a (r :: live).
Proof.
  intros [I1 I2 I3 I4 I5 I6] H. split; try assumption.
  intros b Hb. destruct (I2 b Hb) as (H1 & H2 & H3 & H4 & H5).
  do 4 (split; [assumption|]). intros y Hy.
  destruct (Z_le_dec (fst r) y); [destruct (Z_lt_dec y (fst r + snd r))|]; [|rewrite H; [auto|unfold within; lia]..].
  exfalso. destruct (I5 r (or_introl eq_refl)) as (c & Hc & T). unfold taken in T.
  assert (Hc' : In c (owned a)) by (apply in_or_app; auto).
  destruct (I2 c Hc') as (C1 & C2 & C3 & C4 & _).
  assert (Wb : within (whole b) y) by (unfold within, whole, SIZEOF_BLOCK in *; cbn [fst snd]; lia).
  assert (Wc : within (whole c) y) by (unfold within, whole, SIZEOF_BLOCK in *; cbn [fst snd]; lia).
  assert (E : b = c).
  { clear - I4 Hb Hc' Wb Wc. revert I4 Hb Hc'. generalize (owned a) as l.
    induction l as [|d l IH]; [contradiction|]. intros A [->|Hb] [->|Hc]; apply apart_cons in A as [A1 A2]; auto.
    - exfalso. exact (A1 c Hc y Wb Wc).
    - exfalso. exact (A1 b Hb y Wc Wb). }
  subst c. lia.
Qed.

Lemma gcd_size_t b : size_t (Z.gcd b MAX_ALIGN).
Proof.
  unfold size_t, MAX_ALIGN. pose proof (Z.gcd_nonneg b 16). pose proof (Z.gcd_divide_r b 16) as D.
  apply Z.divide_pos_le in D; [|lia]. rewrite W_val. lia.
Qed.
Lemma alloc_calloc_ok sys m a live n s m' a' p : inv m a live -> good_sys sys -> size_t n -> size_t s ->
  alloc_calloc sys m a n s = Ok (m', a', p) ->
  if n =? 0 then p = 0 /\ m' = m /\ a' = a else
  inv m' a' ((p, n * s) :: live) /\ allocated m' a' live (Z.gcd s MAX_ALIGN) p (n * s) /\
  (forall c x, In c (used a) -> within (whole c) x -> m' x = m x).
Proof.
  intros I GS Hn Hs. unfold alloc_calloc. destruct (size_align_16 s Hs) as [-> P]. intro H.
  apply (calloc_ok sys m a live) in H; try assumption; [|apply gcd_size_t].
  destruct (n =? 0); [exact H|]. tauto.
Qed.

(** the new range is at least as large as the old one, and no size overflows *)
Lemma taken_size m a live p z : inv m a live -> In (p, z) live -> z < W.
Proof.
  intros I H. destruct (i_live _ _ _ I _ H) as (c & Hc & T). unfold taken in T. cbn in T.
  destruct (i_ok _ _ _ I c (in_or_app _ _ _ (or_introl Hc))) as (C1 & C2 & C3 & C4 & _). unfold SIZEOF_BLOCK in C1. lia.
Qed.
Lemma copy_in m q p n i : 0 <= i < n -> copy m q p n (q + i) = m (p + i).
Proof. intro. unfold copy. destruct ((q <=? q + i) && (q + i <? q + n)) eqn:E; [f_equal; lia|lia]. Qed.
Lemma copy_out m q p n x : ~ within (q, n) x -> copy m q p n x = m x.
Proof. unfold within, copy. cbn [fst snd]. intro. destruct ((q <=? x) && (x <? q + n)) eqn:E; lia. Qed.

Lemma remalloc_ok sys m a live p ao an s m' a' q : inv m a live -> good_sys sys -> size_t ao -> size_t an -> size_t s ->
  In (p, ao * s) live -> ao < an -> alloc_remalloc sys m a p ao an s = Ok (m', a', q) ->
  inv m' a' ((q, an * s) :: live) /\ moved m m' a' live p ao an s q.
Proof.
  intros I GS Hao Han Hs HI Hlt. unfold alloc_remalloc, size_t in *.
  destruct (an <=? ao) eqn:E1; [lia|].
  destruct (alloc_calloc sys m a an s) as [[[m1 a1] q1]|] eqn:EC; [|discriminate].
  apply (alloc_calloc_ok sys m a live) in EC; try assumption. destruct (an =? 0) eqn:E2; [lia|].
  destruct EC as (J1 & J2 & J3).
  destruct (q1 =? 0) eqn:E3; [pose proof (al_nonnull _ _ _ _ _ (al_placed _ _ _ _ _ _ J2)); lia|].
  pose proof (taken_size _ _ _ _ _ J1 (or_introl eq_refl)) as TS.
  assert (0 <= ao * s <= an * s) by nia.
  rewrite wrap_small by lia. cbv zeta. intro H'. injection H' as <- <- <-.
  assert (KEPT : forall r x, In r live -> within r x -> m1 x = m x) by (intros r x; exact (live_kept m m1 a live r x I J3)).
  assert (OUT : forall r x, In r live -> within r x -> ~ within (q1, ao * s) x).
  { intros r x Hr Hx Hq. apply (al_disjoint _ _ _ _ _ (al_placed _ _ _ _ _ _ J2) r Hr x); [|exact Hx].
    unfold within in *. cbn [fst snd] in *. lia. }
  assert (E : forall x, (if 0 <? ao * s then copy m1 q1 p (ao * s) else m1) x = copy m1 q1 p (ao * s) x).
  { intro x. destruct (0 <? ao * s) eqn:E; [reflexivity|]. symmetry. apply copy_out. unfold within. cbn [fst snd]. lia. }
  split.
  - apply inv_change with m1; [exact J1|]. intros x Hx. rewrite E. apply copy_out. unfold within in *. cbn [fst snd] in *. lia.
  - split.
    + apply J2.
    + intros i Hi. rewrite E, copy_in by lia. apply (KEPT (p, ao * s)); [exact HI|]. unfold within. cbn [fst snd]. lia.
    + intros i Hi. rewrite E, copy_out by (unfold within; cbn [fst snd]; lia).
      apply (al_zeroed _ _ _ _ _ _ J2). unfold within. cbn [fst snd]. lia.
    + intros r x Hr Hx. rewrite E, copy_out by exact (OUT r x Hr Hx). exact (KEPT r x Hr Hx).
Qed.
Lemma recalloc_ok sys m a live p ao an s m' a' q : inv m a live -> good_sys sys -> size_t ao -> size_t an -> size_t s ->
  In (p, ao * s) live -> ao < an -> alloc_recalloc sys m a p ao an s = Ok (m', a', q) ->
  inv m' a' ((q, an * s) :: live) /\ moved m m' a' live p ao an s q.
Proof.
  intros I GS Hao Han Hs HI Hlt H. unfold alloc_recalloc in H.
  assert (R : exists m1, alloc_remalloc sys m a p ao an s = Ok (m1, a', q) /\
    (q = 0 /\ m' = m1 \/ m' = zero m1 (q + wrap (ao * s)) (wrap (wrap (an * s) - wrap (ao * s))))).
  { unfold alloc_remalloc. unfold size_t in *. destruct (an <=? ao) eqn:E1; [lia|].
    destruct (alloc_calloc sys m a an s) as [[[m1 a1] q1]|]; [|discriminate].
    destruct (q1 =? 0) eqn:E; injection H as <- <- <-; eexists; (split; [reflexivity|]).
    - left. split; [lia|reflexivity].
    - right. reflexivity. }
  clear H. destruct R as (m1 & R & E).
  apply (remalloc_ok sys m a live) in R; try assumption. destruct R as [J M].
  destruct M as [M1 M2 M3 M4]. unfold size_t in *.
  pose proof (taken_size _ _ _ _ _ J (or_introl eq_refl)) as TS.
  assert (0 <= ao * s <= an * s) by nia.
  destruct E as [[E _]|E]; [pose proof (al_nonnull _ _ _ _ _ M1); lia|].
  rewrite !(wrap_small (_ * _)) in E by lia. rewrite wrap_small in E by lia.
  split.
  - apply inv_change with m1; [exact J|]. intros x Hx. rewrite E. apply zero_out. unfold within in *. cbn [fst snd] in *. lia.
  - split.
    + exact M1.
    + intros i Hi. rewrite E, zero_out by (unfold within; cbn [fst snd]; lia). apply M2. exact Hi.
    + intros i Hi. rewrite E, zero_in by (unfold within; cbn [fst snd]; lia). reflexivity.
    + intros r x Hr Hx. rewrite E, zero_out; [exact (M4 r x Hr Hx)|].
      intro Hq. apply (al_disjoint _ _ _ _ _ M1 r Hr x); [|exact Hx]. unfold within in *. cbn [fst snd] in *. lia.
Qed.

Lemma reach_inv m a live : reach m a live -> inv m a live.
Proof.
  induction 1 as [m|m a live sys n s al m' a' p R IH GS Hn Hs Hal E|m a live sys p ao an s m' a' q R IH GS Hao Han Hs Hp Hlt E
    |m a live sys p ao an s m' a' q R IH GS Hao Han Hs Hp Hlt E|m a live x v R IH H|m a live m' a' R IH E|m a live R IH].
  - apply inv_init.
  - apply (calloc_ok sys m a live) in E; try assumption. destruct (n =? 0); [destruct E as (_ & -> & ->); exact IH|apply E].
  - apply (remalloc_ok sys m a live) in E; try assumption. apply E.
  - apply (recalloc_ok sys m a live) in E; try assumption. apply E.
  - apply inv_store; assumption.
  - exact (inv_clear _ _ _ _ _ IH E).
  - exact (inv_fini _ _ _ IH).
Qed.

(** ** Success *)
Lemma tries_S n sys m a nmemb size1 align : tries (S n) sys m a nmemb size1 align =
    do r <- try_block_calloc m (hd_error (used a)) nmemb size1 align ;;
    match r with
    | Some (b, p) => Ok (m, mk_pool (block_size a) (free a) (b :: tl (used a)), p)
    | None =>
      do bsz <- grow 66 (if block_size a =? 0 then BLOCK_SIZE_DEFAULT else block_size a) nmemb size1 ;;
      assert (0 <? bsz) ;;
      do bsz <- align_up bsz BLOCK_ALIGN ;;
      do (m, a, b) <- block_next sys m (mk_pool bsz (free a) (used a)) bsz ;;
      tries n sys m (mk_pool (block_size a) (free a) (b :: used a)) nmemb size1 align
    end.
Proof. reflexivity. Qed.
Lemma tries_success sys m a live n s al : good_sys sys -> inv m a live -> size_t n -> size_t s -> 0 < n -> 0 < s ->
  pow2 al -> al <= 2048 -> 10 * (n * s) <= 2 ^ 63 ->
  (exists r, tries 3 sys m a n s al = Ok r) \/ tries 3 sys m a n s al = Err Panic.
Proof.
  intros GS I Hn Hs N0 S0 P AL B. pose proof (pow2_pos al P) as Pal.
  assert (GEN : forall cnt m a live, inv m a live -> (exists b us, used a = b :: us /\ full b /\ n * s + (al - 1) <= heap_size b) ->
    exists r, tries (S cnt) sys m a n s al = Ok r).
  { intros cnt m0 a0 live0 I0 (b & us & EU & F & SZ). rewrite tries_S, EU. cbn [hd_error].
    assert (Ob : block_ok m0 b) by (apply (i_ok _ _ _ I0); unfold owned; rewrite EU; left; reflexivity).
    destruct (try_no_err m0 b n s al Ob Hn Hs N0 S0 P) as [r E]. rewrite E.
    apply try_some in E; try assumption; [|unfold size_t; lia]. destruct E as (_ & _ & E).
    destruct r as [[b' p]|]; [eauto|]. unfold full in F. exfalso. lia. }
  rewrite (tries_S 2).
  assert (T : exists r, try_block_calloc m (hd_error (used a)) n s al = Ok r).
  { destruct (used a) as [|b us] eqn:EU; cbn [hd_error].
    - unfold try_block_calloc. rewrite (proj2 (Z.ltb_lt 0 s) S0), (proj2 (Z.ltb_lt 0 n) N0). eauto.
    - apply try_no_err; try assumption. apply (i_ok _ _ _ I). unfold owned. rewrite EU. left. reflexivity. }
  destruct T as [[[b q]|] ->]; [left; eauto|].
  destruct (size_ok_start _ (i_size _ _ _ I)) as (k & Hk & ->).
  destruct (grow_fuel n s 66 k Hk ltac:(lia)) as [bs EG]. rewrite EG.
  apply grow_ok in EG as (k' & K1 & -> & K2); [|exact Hk].
  pose proof (pow2_le k' ltac:(lia)) as U. pose proof (Z.pow_le_mono_r 2 20 k' ltac:(lia) ltac:(lia)) as L.
  change (2 ^ 20) with 1048576 in L.
  destruct (0 <? 2 ^ k') eqn:EP; [|lia]. rewrite align_up_pow2 by lia.
  destruct (block_next sys m (mk_pool (2 ^ k') (free a) (used a)) (2 ^ k')) as [[[m1 a1] b]|e] eqn:EN.
  - left. apply (next_ok sys m _ live) in EN as (J1 & J2 & J3 & J4 & J5 & J6);
      [|exact GS|apply resize_inv; [exact I|lia]|reflexivity|lia].
    eapply GEN; [exact J1|]. cbn [used]. exists b, (used a1). split; [reflexivity|]. split; [exact J2|].
    unfold SIZEOF_BLOCK in J3.
    assert (2 ^ 63 < W) by reflexivity.
    assert (10 * (n * s) <= 2 ^ k'); [|lia].
    destruct K2 as [->|K2]; [lia|].
    assert (10 * n <= 10 * (n * s)) by nia.
    rewrite wrap_small in K2 by lia.
    pose proof (div_ge_mul (2 ^ k') s (10 * n) S0 K2). lia.
  - right. f_equal. clear - EN L. unfold block_next in EN.
    destruct (free (match free _ with [] => _ | b :: _ => _ end)); [|discriminate].
    destruct (sys _ _); [|injection EN as <-; reflexivity].
    exfalso. destruct (SIZEOF_BLOCK <? 2 ^ k') eqn:E; [discriminate|]. unfold SIZEOF_BLOCK in E. lia.
Qed.

Lemma bump_good : good_sys bump.
Proof.
  intros bl n p. unfold bump. set (q := fold_right Z.max 4096 _). destruct (q + n <=? W) eqn:E; [|discriminate].
  intro H. injection H as <-. apply Z.leb_le in E.
  assert (Q : 4096 <= q /\ forall b, In b bl -> heap b + heap_size b <= q).
  { subst q. clear E. induction bl as [|b bl IH]; cbn [map fold_right]; [split; [lia|intros ? []]|].
    destruct IH as [IH1 IH2]. split; [lia|]. intros c [<-|Hc]; [lia|]. specialize (IH2 c Hc). lia. }
  destruct Q as [Q1 Q2]. split; [lia|]. split; [exact E|].
  intros b Hb x Hx Hx'. specialize (Q2 b Hb). unfold within, whole, SIZEOF_BLOCK in *. cbn [fst snd] in *. lia.
Qed.

(** ** Statements over histories *)
Lemma reach_calloc_ok sys m a live n s al m' a' p : reach m a live -> good_sys sys ->
  size_t n -> size_t s -> size_t al -> 0 < n -> pool_calloc sys m a n s al = Ok (m', a', p) ->
  allocated m' a' live al p (n * s) /\ pow2 al /\ kept m m' live.
Proof.
  intros R GS Hn Hs Hal N0 E. apply reach_inv in R as I.
  apply (calloc_ok sys m a live) in E; try assumption. destruct (n =? 0) eqn:EN; [lia|].
  destruct E as (_ & E1 & E2 & E3). split; [exact E1|]. split; [exact E2|].
  intros r x. exact (live_kept m m' a live r x I E3).
Qed.
Lemma reach_live m a live : reach m a live ->
  ForallOrdPairs disjoint live /\
  forall r, In r live -> exists b, In b (used a) /\ forall x, within r x -> within (area b) x.
Proof.
  intro R. apply reach_inv in R as I. split; [apply I|]. intros r Hr. destruct (i_live _ _ _ I r Hr) as (b & Hb & T).
  exists b. split; [exact Hb|]. destruct (i_ok _ _ _ I b (in_or_app _ _ _ (or_introl Hb))) as (C1 & C2 & C3 & C4 & _).
  unfold taken, within, area in *. cbn [fst snd]. lia.
Qed.
Lemma reach_success sys m a live n s al : reach m a live -> good_sys sys -> size_t n -> size_t s -> 0 < s ->
  pow2 al -> al <= 2048 -> 10 * (n * s) <= 2 ^ 63 ->
  (exists r, pool_calloc sys m a n s al = Ok r) \/ pool_calloc sys m a n s al = Err Panic.
Proof.
  intros R GS Hn Hs S0 P AL B. unfold pool_calloc. destruct (s =? 0) eqn:E; [lia|]. cbn [negb].
  destruct (n =? 0) eqn:EN; [left; eauto|]. unfold size_t in Hn.
  apply tries_success with live; try assumption; [apply reach_inv, R|lia].
Qed.

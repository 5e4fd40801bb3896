From Coq Require Import List NArith Arith Bool Lia ZifyNat ZifyN ZifyBool.
From Verif Require Import Bitmap_model Bitmap_spec.
Import ListNotations.

Lemma land_pow2_eqb x k :
  negb (N.eqb (N.land x (N.shiftl 1 k)) 0) = N.testbit x k.
Proof.
  rewrite N.shiftl_1_l.
  destruct (N.eqb_spec (N.land x (2 ^ k)) 0) as [E|E]; cbn.
  - assert (H : N.testbit (N.land x (2 ^ k)) k = false) by (rewrite E; apply N.bits_0).
    rewrite N.land_spec, N.pow2_bits_true, andb_true_r in H. now rewrite H.
  - destruct (N.testbit x k) eqn:T; [reflexivity|exfalso].
    apply E. apply N.bits_inj_0. intros n. rewrite N.land_spec.
    destruct (N.eq_dec k n) as [<-|N]; [now rewrite T|].
    rewrite N.pow2_bits_false by congruence. apply andb_false_r.
Qed.

Lemma bitmap_get_testbit b i :
  bitmap_get b i = N.testbit (b (i / 8)) (N.of_nat (i mod 8)).
Proof. unfold bitmap_get. apply land_pow2_eqb. Qed.

(** ** memory writes *)

Lemma upd_same m k v : upd m k v k = v.
Proof. unfold upd. now rewrite Nat.eqb_refl. Qed.

Lemma upd_other m k v j : j <> k -> upd m k v j = m j.
Proof. unfold upd. intros. destruct (Nat.eqb_spec j k); congruence. Qed.

Lemma upds_spec vs : forall m k j,
  upds m k vs j = if (k <=? j) && (j <? k + length vs) then nth (j - k) vs 0%N else m j.
Proof.
  induction vs as [|v vs IH]; intros m k j; cbn [upds length].
  - destruct (Nat.leb_spec k j), (Nat.ltb_spec j (k + 0)); cbn; try reflexivity; lia.
  - rewrite IH. destruct (Nat.leb_spec (S k) j), (Nat.ltb_spec j (S k + length vs));
    destruct (Nat.leb_spec k j), (Nat.ltb_spec j (k + S (length vs))); cbn [andb]; try lia.
    all: try (apply upd_other; lia).
    + replace (j - k) with (S (j - S k)) by lia. reflexivity.
    + assert (j = k) by lia. subst. rewrite upd_same, Nat.sub_diag. reflexivity.
Qed.

Lemma reads_length n : forall m k, length (reads m k n) = n.
Proof. induction n; cbn; intros; auto. Qed.

Lemma reads_nth n : forall m k i, i < n -> nth i (reads m k n) 0%N = m (k + i).
Proof.
  induction n as [|n IH]; intros m k i H; [lia|].
  destruct i; cbn [reads nth]; [now rewrite Nat.add_0_r|].
  rewrite IH by lia. f_equal. lia.
Qed.

(** pointwise equality of memories *)
Definition meq (a b : mem) := forall k, a k = b k.

Lemma upds_app m k us vs : meq (upds m k (us ++ vs)) (upds (upds m (k + length us) vs) k us).
Proof.
  intros j. rewrite !upds_spec, app_length.
  destruct (Nat.leb_spec k j), (Nat.ltb_spec j (k + (length us + length vs)));
  destruct (Nat.ltb_spec j (k + length us));
  destruct (Nat.leb_spec (k + length us) j), (Nat.ltb_spec j (k + length us + length vs));
  cbn [andb]; try lia; try reflexivity.
  - now rewrite app_nth1 by lia.
  - rewrite app_nth2 by lia. f_equal. lia.
Qed.

Lemma upds_ext m m' k vs : meq m m' -> meq (upds m k vs) (upds m' k vs).
Proof. intros H j. rewrite !upds_spec. now rewrite H. Qed.

(** ** spread *)

Definition steq (s t : mem * nat) := meq (fst s) (fst t) /\ snd s = snd t.

Lemma steq_refl s : steq s s.
Proof. split; [intros ?|]; reflexivity. Qed.

Lemma steq_trans s t u : steq s t -> steq t u -> steq s u.
Proof. intros [A B] [C D]. split; [intros k; rewrite A; apply C|congruence]. Qed.

Lemma store_down_ext s t vs : steq s t -> steq (store_down s vs) (store_down t vs).
Proof.
  intros [A B]. unfold store_down. split; cbn; [|congruence].
  rewrite B. now apply upds_ext.
Qed.

Lemma store_down_app s us vs :
  length us + length vs <= snd s ->
  steq (store_down (store_down s vs) us) (store_down s (us ++ vs)).
Proof.
  intros H. unfold store_down; split; cbn [fst snd]; [|rewrite app_length; lia].
  rewrite app_length.
  intros j. rewrite upds_app. rewrite <- Nat.sub_add_distr, (Nat.add_comm (length vs)).
  replace (snd s - (length us + length vs) + length us) with (snd s - length vs) by lia.
  reflexivity.
Qed.

Lemma fill_length n x w : length (fill n x w) = n.
Proof. apply repeat_length. Qed.

Lemma store_k_eq k n x w : forall s, k * n <= snd s ->
  steq (store_k k n x w s) (store_down s (fill (k * n) x w)).
Proof.
  induction k as [|k IH]; intros s H; cbn [store_k].
  - cbn. unfold store_down, fill. cbn. rewrite Nat.sub_0_r. split; [intros ?|]; reflexivity.
  - eapply steq_trans; [apply IH; cbn; rewrite fill_length; lia|].
    eapply steq_trans; [apply store_down_app; rewrite !fill_length; lia|].
    unfold fill. rewrite <- repeat_app.
    replace (k * n + n) with (S k * n) by lia. apply steq_refl.
Qed.

Definition expand3 (n : nat) (x : N) : list N :=
  fill n x 0x01 ++ fill n x 0x02 ++ fill n x 0x04 ++ fill n x 0x08 ++
  fill n x 0x10 ++ fill n x 0x20 ++ fill n x 0x40 ++ fill n x 0x80.

Definition expand (add : nat) (x : N) : list N :=
  match add with
  | 0 => [x]
  | 1 => [spread1 (N.land x 0x0f); spread1 (N.shiftr x 4)]
  | 2 => spread2 (N.land x 0x0f) ++ spread2 (N.shiftr x 4)
  | _ => expand3 (2 ^ (add - 3)) x
  end.

Lemma expand_length add x : length (expand add x) = 2 ^ add.
Proof.
  destruct add as [|[|[|k]]]; try reflexivity.
  unfold expand, expand3. rewrite !app_length, !fill_length.
  replace (S (S (S k)) - 3) with k by lia. cbn [Nat.pow]. lia.
Qed.

Lemma fold_store_expand3 n x s : 8 * n <= snd s ->
  steq (fold_left (fun s w => store_down s (fill n x w)) weights s)
       (store_down s (expand3 n x)).
Proof.
  intros H. unfold weights. cbn [fold_left].
  unfold expand3.
  eapply steq_trans; [do 6 apply store_down_ext; apply store_down_app; rewrite ?app_length, ?fill_length; lia|].
  eapply steq_trans; [do 5 apply store_down_ext; apply store_down_app; rewrite ?app_length, ?fill_length; lia|].
  eapply steq_trans; [do 4 apply store_down_ext; apply store_down_app; rewrite ?app_length, ?fill_length; lia|].
  eapply steq_trans; [do 3 apply store_down_ext; apply store_down_app; rewrite ?app_length, ?fill_length; lia|].
  eapply steq_trans; [do 2 apply store_down_ext; apply store_down_app; rewrite ?app_length, ?fill_length; lia|].
  eapply steq_trans; [do 1 apply store_down_ext; apply store_down_app; rewrite ?app_length, ?fill_length; lia|].
  eapply steq_trans; [apply store_down_app; rewrite ?app_length, ?fill_length; lia|].
  apply steq_refl.
Qed.

Lemma fold_store_k_expand3 k n x s : 8 * (k * n) <= snd s ->
  steq (fold_left (fun s w => store_k k n x w s) weights s)
       (store_down s (expand3 (k * n) x)).
Proof.
  intros H. eapply steq_trans; [|apply fold_store_expand3; lia].
  unfold weights. 
  assert (G : forall ws s t, steq s t -> length ws * (k * n) <= snd s ->
    steq (fold_left (fun s w => store_k k n x w s) ws s)
         (fold_left (fun s w => store_down s (fill (k * n) x w)) ws t)).
  { clear. induction ws as [|w ws IH]; intros s t E L; cbn [fold_left]; [exact E|].
    cbn [length] in L.
    assert (Q : steq (store_k k n x w s) (store_down t (fill (k * n) x w))).
    { eapply steq_trans; [apply store_k_eq; lia|]. now apply store_down_ext. }
    apply IH; [exact Q|].
    destruct Q as [_ Q]. rewrite Q. unfold store_down. cbn [snd]. rewrite fill_length.
    destruct E as [_ E]. rewrite <- E. lia. }
  apply G; [apply steq_refl|]. cbn [length]. lia.
Qed.

Lemma spread_byte_eq add x s : 1 <= add -> 2 ^ add <= snd s ->
  steq (spread_byte add x s) (store_down s (expand add x)).
Proof.
  intros A H.
  destruct add as [|[|[|[|[|[|k]]]]]]; [lia|..].
  - cbn [spread_byte expand]. apply (store_down_app s [_] [_]). cbn in *. lia.
  - cbn [spread_byte expand]. apply (store_down_app s (spread2 _) (spread2 _)). cbn in *. lia.
  - apply fold_store_expand3. cbn in *; lia.
  - apply fold_store_expand3. cbn in *; lia.
  - apply fold_store_expand3. cbn in *; lia.
  - unfold spread_byte, expand.
    replace (2 ^ (S (S (S (S (S (S k))))) - 3)) with (2 ^ (S (S (S (S (S (S k))))) - 6) * 8).
    2:{ replace (S (S (S (S (S (S k))))) - 6) with k by lia.
        replace (S (S (S (S (S (S k))))) - 3) with (k + 3) by lia.
        rewrite Nat.pow_add_r. reflexivity. }
    apply fold_store_k_expand3.
    replace (S (S (S (S (S (S k))))) - 6) with k by lia.
    cbn [Nat.pow] in H. lia.
Qed.

Lemma spread_loop_ext add cnt : forall s t, steq s t ->
  1 <= add -> cnt * 2 ^ add <= snd s ->
  steq (spread_loop add cnt s) (spread_loop add cnt t).
Proof.
  induction cnt as [|a IH]; intros s t E A H; cbn [spread_loop]; [exact E|].
  assert (F : 2 ^ add <= snd s) by lia.
  assert (Q : steq (spread_byte add (fst s a) s) (spread_byte add (fst t a) t)).
  { destruct E as [E1 E2].
    eapply steq_trans; [apply spread_byte_eq; lia|]. rewrite (E1 a).
    eapply steq_trans; [apply store_down_ext; split; [exact E1|exact E2]|].
    destruct (spread_byte_eq add (fst t a) t A ltac:(lia)) as [Q1 Q2].
    split; [intros k; now rewrite Q1|now rewrite Q2]. }
  apply IH; [exact Q|exact A|].
  destruct (spread_byte_eq add (fst s a) s A F) as [_ Q2]. rewrite Q2.
  unfold store_down. cbn [snd]. rewrite expand_length. cbn in H. lia.
Qed.

Lemma spread_loop_spec add cnt : forall m k, 1 <= add ->
  fst (spread_loop add cnt (m, cnt * 2 ^ add)) k =
  if k <? cnt * 2 ^ add then nth (k mod 2 ^ add) (expand add (m (k / 2 ^ add))) 0%N else m k.
Proof.
  set (F := 2 ^ add).
  assert (F0 : 1 <= F) by (unfold F; pose proof (Nat.pow_nonzero 2 add); lia).
  induction cnt as [|a IH]; intros m k A.
  - cbn [spread_loop fst]. reflexivity.
  - change (spread_loop add (S a) (m, S a * F))
      with (spread_loop add a (spread_byte add (m a) (m, S a * F))).
    set (m1 := upds m (a * F) (expand add (m a))).
    assert (Q : steq (spread_byte add (m a) (m, S a * F)) (m1, a * F)).
    { eapply steq_trans; [apply spread_byte_eq; [exact A|cbn [snd]; fold F; lia]|].
      unfold store_down, m1. cbn [fst snd]. rewrite expand_length. fold F.
      replace (S a * F - F) with (a * F) by lia. apply steq_refl. }
    destruct (spread_loop_ext add a _ _ Q A) as [R _].
    { destruct Q as [_ ->]. cbn [snd]. fold F. lia. }
    rewrite R, IH by exact A.
    assert (M1 : forall j, j < a * F -> m1 j = m j).
    { intros j Hj. unfold m1. rewrite upds_spec.
      destruct (Nat.leb_spec (a * F) j); [lia|reflexivity]. }
    destruct (Nat.ltb_spec k (a * F)) as [L|L].
    + destruct (Nat.ltb_spec k (S a * F)); [|lia].
      rewrite M1; [reflexivity|].
      apply Nat.div_lt_upper_bound; [lia|].
      pose proof (Nat.div_mod k F). nia.
    + unfold m1. rewrite upds_spec, expand_length. fold F.
      destruct (Nat.leb_spec (a * F) k); [|lia].
      destruct (Nat.ltb_spec k (a * F + F)), (Nat.ltb_spec k (S a * F)); try lia;
        cbn [andb]; [|reflexivity].
      assert (D : k / F = a).
      { symmetry. apply Nat.div_unique with (k - a * F); lia. }
      assert (E : k mod F = k - a * F).
      { symmetry. apply Nat.mod_unique with a; lia. }
      rewrite D, E. reflexivity.
Qed.

Lemma nth_fill_app n x w i l :
  nth i (fill n x w ++ l) 0%N =
  if i <? n then (if N.eqb (N.land x w) 0 then 0 else 255)%N else nth (i - n) l 0%N.
Proof.
  destruct (Nat.ltb_spec i n).
  - rewrite app_nth1 by (rewrite fill_length; lia). unfold fill.
    rewrite nth_indep with (d' := (if N.eqb (N.land x w) 0 then 0 else 255)%N)
      by (rewrite repeat_length; lia).
    apply nth_repeat.
  - rewrite app_nth2, fill_length by (rewrite fill_length; lia). reflexivity.
Qed.

Lemma land_w x k : N.eqb (N.land x (2 ^ k)) 0 = negb (N.testbit x k).
Proof.
  rewrite <- land_pow2_eqb, N.shiftl_1_l. now rewrite negb_involutive.
Qed.

Lemma expand3_nth n x i : i < 8 * n ->
  nth i (expand3 n x) 0%N = if N.testbit x (N.of_nat (i / n)) then 255%N else 0%N.
Proof.
  intros H. unfold expand3.
  rewrite <- (app_nil_r (fill n x 0x80)).
  rewrite !nth_fill_app.
  assert (Hn : n <> 0) by lia.
  pose proof (Nat.div_mod i n Hn) as DM. pose proof (Nat.mod_upper_bound i n Hn) as MB.
  assert (Q : i / n < 8) by (apply Nat.div_lt_upper_bound; lia).
  change 0x01%N with (2 ^ 0)%N. change 0x02%N with (2 ^ 1)%N. change 0x04%N with (2 ^ 2)%N.
  change 0x08%N with (2 ^ 3)%N. change 0x10%N with (2 ^ 4)%N. change 0x20%N with (2 ^ 5)%N.
  change 0x40%N with (2 ^ 6)%N. change 0x80%N with (2 ^ 7)%N.
  rewrite !land_w.
  destruct (i / n) as [|[|[|[|[|[|[|[|q]]]]]]]]; [..|lia];
  repeat match goal with |- context[?a <? ?b] => destruct (Nat.ltb_spec a b); [try lia|try lia] end;
  match goal with |- context[N.of_nat ?k] => let v := eval cbv in (N.of_nat k) in change (N.of_nat k) with v end;
  match goal with |- context[N.testbit x ?k] => destruct (N.testbit x k); reflexivity end.
Qed.

Lemma testbit_255 j : j < 8 -> N.testbit 255 (N.of_nat j) = true.
Proof.
  intros. do 8 (destruct j as [|j]; [reflexivity|]). lia.
Qed.

Definition forall_lt (n : nat) (p : N -> bool) : bool :=
  forallb (fun k => p (N.of_nat k)) (seq 0 n).

Lemma forall_lt_spec n p : forall_lt n p = true -> forall x, (x < N.of_nat n)%N -> p x = true.
Proof.
  unfold forall_lt. rewrite forallb_forall. intros H x L.
  specialize (H (N.to_nat x)). rewrite N2Nat.id in H. apply H. apply in_seq. lia.
Qed.

Lemma expand1_bits x : (x < 256)%N -> forall j, j < 16 ->
  N.testbit (nth (j / 8) (expand 1 x) 0%N) (N.of_nat (j mod 8)) = N.testbit x (N.of_nat (j / 2)).
Proof.
  intros H j Hj.
  assert (C : forall_lt 256 (fun x => forallb (fun j =>
    Bool.eqb (N.testbit (nth (j / 8) (expand 1 x) 0%N) (N.of_nat (j mod 8)))
             (N.testbit x (N.of_nat (j / 2)))) (seq 0 16)) = true) by (vm_compute; reflexivity).
  pose proof (forall_lt_spec _ _ C x H) as D. cbv beta in D. rewrite forallb_forall in D.
  apply eqb_prop, D. apply in_seq. lia.
Qed.

Lemma expand2_bits x : (x < 256)%N -> forall j, j < 32 ->
  N.testbit (nth (j / 8) (expand 2 x) 0%N) (N.of_nat (j mod 8)) = N.testbit x (N.of_nat (j / 4)).
Proof.
  intros H j Hj.
  assert (C : forall_lt 256 (fun x => forallb (fun j =>
    Bool.eqb (N.testbit (nth (j / 8) (expand 2 x) 0%N) (N.of_nat (j mod 8)))
             (N.testbit x (N.of_nat (j / 4)))) (seq 0 32)) = true) by (vm_compute; reflexivity).
  pose proof (forall_lt_spec _ _ C x H) as D. cbv beta in D. rewrite forallb_forall in D.
  apply eqb_prop, D. apply in_seq. lia.
Qed.

Lemma expand_bits add x : (x < 256)%N -> forall j, j < 8 * 2 ^ add ->
  N.testbit (nth (j / 8) (expand add x) 0%N) (N.of_nat (j mod 8)) =
  N.testbit x (N.of_nat (j / 2 ^ add)).
Proof.
  intros H j Hj.
  destruct add as [|[|[|k]]].
  - cbn [Nat.pow] in *. rewrite (Nat.div_small j 8), (Nat.mod_small j 8), Nat.div_1_r by lia.
    reflexivity.
  - apply expand1_bits; [exact H|cbn in Hj; lia].
  - apply expand2_bits; [exact H|cbn in Hj; lia].
  - cbn [expand]. replace (S (S (S k)) - 3) with k by lia.
    replace (2 ^ S (S (S k))) with (8 * 2 ^ k) in * by (cbn [Nat.pow]; lia).
    assert (P : 2 ^ k <> 0) by (apply Nat.pow_nonzero; lia).
    rewrite expand3_nth.
    2:{ apply Nat.div_lt_upper_bound; lia. }
    rewrite Nat.div_div by lia.
    destruct (N.testbit x _); [apply testbit_255, Nat.mod_upper_bound; lia|apply N.bits_0].
Qed.

Lemma expand_wf add x : (x < 256)%N -> forall i, (nth i (expand add x) 0 < 256)%N.
Proof.
  intros H i.
  destruct (Nat.lt_ge_cases i (2 ^ add)) as [L|L].
  2:{ rewrite nth_overflow by (rewrite expand_length; lia). lia. }
  destruct add as [|[|[|k]]].
  - cbn in L. assert (i = 0) by lia. subst. cbn. exact H.
  - assert (C : forall_lt 256 (fun x => forallb (fun i => (nth i (expand 1 x) 0 <? 256)%N) (seq 0 2)) = true)
      by (vm_compute; reflexivity).
    pose proof (forall_lt_spec _ _ C x H) as D. cbv beta in D. rewrite forallb_forall in D.
    apply N.ltb_lt, D, in_seq. cbn in L; lia.
  - assert (C : forall_lt 256 (fun x => forallb (fun i => (nth i (expand 2 x) 0 <? 256)%N) (seq 0 4)) = true)
      by (vm_compute; reflexivity).
    pose proof (forall_lt_spec _ _ C x H) as D. cbv beta in D. rewrite forallb_forall in D.
    apply N.ltb_lt, D, in_seq. cbn in L; lia.
  - cbn [expand]. replace (S (S (S k)) - 3) with k by lia. rewrite expand3_nth.
    2:{ cbn [Nat.pow] in L. lia. }
    destruct (N.testbit x _); lia.
Qed.

Lemma spread_big_spec c have add :
  wf c -> 3 <= have -> have + add <= 10 ->
  exists c', spread_big c have add = Some c' /\ wf c' /\
    forall i, i < 2 ^ (have + add) -> bitmap_get c' i = bitmap_get c (i / 2 ^ add).
Proof.
  intros W H3 H10. unfold spread_big.
  assert (P : 2 ^ (have + add) <= 2 ^ 10) by (apply Nat.pow_le_mono_r; lia).
  assert (E : 2 ^ (have + add) <=? nbytes * 8 = true) by (apply Nat.leb_le; exact P).
  rewrite E. cbn [negb].
  destruct (Nat.eq_dec add 0) as [->|A].
  - exists c. split; [reflexivity|]. split; [exact W|]. intros i Hi. cbn [Nat.pow].
    now rewrite Nat.div_1_r.
  - exists (fst (spread_loop add (2 ^ (have - 3)) (c, 2 ^ (have - 3) * 2 ^ add))).
    split; [destruct add; [lia|reflexivity]|].
    assert (A1 : 1 <= add) by lia.
    split.
    + intros k. rewrite spread_loop_spec by exact A1.
      destruct (k <? _); [|apply W]. apply expand_wf, W.
    + intros i Hi. rewrite !bitmap_get_testbit. rewrite spread_loop_spec by exact A1.
      assert (F0 : 2 ^ add <> 0) by (apply Nat.pow_nonzero; lia).
      assert (S8 : 2 ^ have = 8 * 2 ^ (have - 3)).
      { replace have with (3 + (have - 3)) at 1 by lia. rewrite Nat.pow_add_r. reflexivity. }
      rewrite Nat.pow_add_r, S8 in Hi.
      destruct (Nat.ltb_spec (i / 8) (2 ^ (have - 3) * 2 ^ add)) as [L|L].
      2:{ exfalso. assert (i / 8 < 2 ^ (have - 3) * 2 ^ add); [|lia].
          apply Nat.div_lt_upper_bound; lia. }
      (* j = bit position inside of the expansion of one byte *)
      set (F := 2 ^ add) in *.
      set (j := i mod (8 * F)).
      assert (Hj : j < 8 * F) by (apply Nat.mod_upper_bound; lia).
      assert (E1 : (i / 8) mod F = j / 8).
      { unfold j. pose proof (Nat.mod_mul_r i 8 F ltac:(lia) ltac:(lia)) as Q.
        rewrite Q. rewrite (Nat.mul_comm 8 (_ mod F)), Nat.div_add by lia.
        rewrite (Nat.div_small (i mod 8)) by (apply Nat.mod_upper_bound; lia). lia. }
      assert (E2 : i mod 8 = j mod 8).
      { unfold j. pose proof (Nat.mod_mul_r i 8 F ltac:(lia) ltac:(lia)) as Q.
        rewrite Q. rewrite (Nat.mul_comm 8 (_ mod F)), Nat.mod_add by lia.
        now rewrite Nat.mod_mod by lia. }
      assert (E3 : i / 8 / F = i / (8 * F)) by (apply Nat.div_div; lia).
      assert (E4 : i / F / 8 = i / (8 * F)) by (rewrite Nat.div_div, (Nat.mul_comm F); lia).
      assert (E5 : (i / F) mod 8 = j / F).
      { unfold j. pose proof (Nat.mod_mul_r i F 8 ltac:(lia) ltac:(lia)) as Q.
        rewrite (Nat.mul_comm 8 F), Q. rewrite (Nat.mul_comm F (_ mod 8)), Nat.div_add by lia.
        rewrite (Nat.div_small (i mod F)) by (apply Nat.mod_upper_bound; lia). lia. }
      rewrite E1, E2, E3, E4, E5.
      apply expand_bits; [apply W|exact Hj].
Qed.

Lemma get_upd0 c v i : i < 8 -> bitmap_get (upd c 0 v) i = N.testbit v (N.of_nat i).
Proof.
  intros H. rewrite bitmap_get_testbit, Nat.div_small, Nat.mod_small by lia.
  now rewrite upd_same.
Qed.

Lemma spread1_low x : (x < 256)%N -> forall j, j < 8 ->
  N.testbit (spread1 (N.land x 0x0f)) (N.of_nat j) = N.testbit x (N.of_nat (j / 2)).
Proof.
  intros H j Hj. pose proof (expand1_bits x H j ltac:(lia)) as E.
  rewrite Nat.div_small, Nat.mod_small in E by lia. exact E.
Qed.

Lemma spread_small_spec n : forall c have add,
  wf c -> have + add <= 10 -> 3 <= have + n ->
  exists c', spread_small n c have add = Some c' /\ wf c' /\
    forall i, i < 2 ^ (have + add) -> bitmap_get c' i = bitmap_get c (i / 2 ^ add).
Proof.
  induction n as [|n IH]; intros c have add W H10 H3.
  - cbn [spread_small]. destruct (Nat.ltb_spec have 3); [lia|].
    now apply spread_big_spec.
  - cbn [spread_small]. destruct (Nat.ltb_spec have 3) as [L|L].
    2:{ now apply spread_big_spec. }
    destruct add as [|add].
    { exists c. split; [reflexivity|]. split; [exact W|]. intros i _. cbn [Nat.pow]. now rewrite Nat.div_1_r. }
    set (c1 := upd c 0 (spread1 (N.land (c 0) 15))).
    destruct (IH c1 (S have) add) as (c' & E & W' & G); [|lia|lia|].
    { intros k. unfold c1, upd. destruct (k =? 0); [|apply W].
      apply (expand_wf 1 (c 0) (W 0) 0). }
    exists c'. split; [exact E|]. split; [exact W'|].
    intros i Hi. rewrite G by (replace (S have + add) with (have + S add) by lia; exact Hi).
    cbn [Nat.pow]. rewrite (Nat.mul_comm 2), <- Nat.div_div by (try apply Nat.pow_nonzero; lia).
    set (q := i / 2 ^ add).
    assert (Hq : q < 8).
    { apply Nat.lt_le_trans with (2 ^ S have).
      - apply Nat.div_lt_upper_bound; [apply Nat.pow_nonzero; lia|].
        rewrite <- Nat.pow_add_r. replace (add + S have) with (have + S add) by lia. exact Hi.
      - change 8 with (2 ^ 3). apply Nat.pow_le_mono_r; lia. }
    unfold c1. rewrite get_upd0 by exact Hq.
    rewrite spread1_low by (try exact Hq; apply W).
    rewrite bitmap_get_testbit.
    assert (q / 2 < 8) by (apply Nat.div_lt_upper_bound; lia).
    now rewrite (Nat.div_small (q / 2)), (Nat.mod_small (q / 2)) by lia.
Qed.

Lemma bitmap_spread_spec c have add :
  wf c -> have + add <= max_lazy ->
  exists c', bitmap_spread c have add = Some c' /\ wf c' /\
    forall i, i < 2 ^ (have + add) -> bitmap_get c' i = bitmap_get c (i / 2 ^ add).
Proof. intros. apply spread_small_spec; [assumption|assumption|lia]. Qed.

(** ** repeat *)

Lemma get_word m m' i : m (i / 8) = m' (i / 8) -> bitmap_get m i = bitmap_get m' i.
Proof. unfold bitmap_get. intros ->. reflexivity. Qed.

Lemma div8_lt i a : i < 8 * a -> i / 8 < a.
Proof. intros. apply Nat.div_lt_upper_bound; lia. Qed.

Lemma reads_wf m k n : wf m -> forall i, (nth i (reads m k n) 0 < 256)%N.
Proof.
  intros W i. destruct (Nat.lt_ge_cases i n).
  - rewrite reads_nth by lia. apply W.
  - rewrite nth_overflow by (rewrite reads_length; lia). lia.
Qed.

Lemma upds_wf m k vs : wf m -> (forall i, (nth i vs 0 < 256)%N) -> wf (upds m k vs).
Proof. intros W V j. rewrite upds_spec. destruct (_ && _); [apply V|apply W]. Qed.

(** bytewise description of the copy loops: period P bytes *)
Lemma copy_words_spec skip n : forall m i,
  1 <= skip -> skip <= i ->
  (forall k, k < 8 * i -> m k = m (k mod (8 * skip))) ->
  (forall k, k < 8 * (i + n) -> copy_words m skip i n k = m (k mod (8 * skip))).
Proof.
  induction n as [|n IH]; intros m i S1 Si P k Hk; cbn [copy_words].
  - apply P. lia.
  - set (m1 := upds m (8 * i) (reads m (8 * (i - skip)) 8)).
    assert (LOW : forall j, j < 8 * i -> m1 j = m j).
    { intros j Hj. unfold m1. rewrite upds_spec. destruct (Nat.leb_spec (8 * i) j); [lia|reflexivity]. }
    assert (MB : forall k, k mod (8 * skip) < 8 * skip) by (intros; apply Nat.mod_upper_bound; lia).
    assert (P1 : forall k, k < 8 * S i -> m1 k = m1 (k mod (8 * skip))).
    { intros j Hj. rewrite (LOW (j mod _)) by (specialize (MB j); nia).
      destruct (Nat.lt_ge_cases j (8 * i)).
      - rewrite LOW by lia. now apply P.
      - unfold m1. rewrite upds_spec, reads_length.
        destruct (Nat.leb_spec (8 * i) j); [|lia]. destruct (Nat.ltb_spec j (8 * i + 8)); [|lia].
        cbn [andb]. rewrite reads_nth by lia.
        replace (8 * (i - skip) + (j - 8 * i)) with (j - 8 * skip) by nia.
        rewrite P by lia. f_equal.
        rewrite <- (Nat.mod_add (j - 8 * skip) 1) by lia. f_equal. lia. }
    rewrite IH; [|lia|lia|exact P1|lia].
    rewrite LOW by (specialize (MB k); nia). reflexivity.
Qed.

Lemma fill_words_eq n : forall m w0 i,
  length w0 = 8 -> (forall k, k < 8 -> m k = nth k w0 0%N) -> 1 <= i ->
  (forall k, k < 8 * i -> m k = m (k mod 8)) ->
  forall k, k < 8 * (i + n) -> fill_words m w0 i n k = m (k mod 8).
Proof.
  induction n as [|n IH]; intros m w0 i LW B I1 P k Hk; cbn [fill_words].
  - apply P. lia.
  - set (m1 := upds m (8 * i) w0).
    assert (LOW : forall j, j < 8 * i -> m1 j = m j).
    { intros j Hj. unfold m1. rewrite upds_spec. destruct (Nat.leb_spec (8 * i) j); [lia|reflexivity]. }
    assert (MB : forall k, k mod 8 < 8) by (intros; apply Nat.mod_upper_bound; lia).
    rewrite IH; [|exact LW| |lia| |lia].
    + apply LOW. specialize (MB k). lia.
    + intros j Hj. rewrite LOW by lia. now apply B.
    + intros j Hj. rewrite (LOW (j mod 8)) by (specialize (MB j); lia).
      destruct (Nat.lt_ge_cases j (8 * i)).
      * rewrite LOW by lia. now apply P.
      * unfold m1. rewrite upds_spec, LW.
        destruct (Nat.leb_spec (8 * i) j); [|lia]. destruct (Nat.ltb_spec j (8 * i + 8)); [|lia].
        cbn [andb]. rewrite B by apply MB. f_equal.
        apply Nat.mod_unique with i; lia.
Qed.

Lemma fill_words_wf n : forall m w0 i, wf m -> (forall k, (nth k w0 0 < 256)%N) ->
  wf (fill_words m w0 i n).
Proof. induction n; cbn; intros; [assumption|]. apply IHn; [now apply upds_wf|assumption]. Qed.

Lemma copy_words_wf n : forall m skip i, wf m -> wf (copy_words m skip i n).
Proof. induction n; cbn [copy_words]; intros; [assumption|]. apply IHn, upds_wf; [assumption|now apply reads_wf]. Qed.

(** bit level consequence of bytewise periodicity *)
Lemma get_periodic m m' p i : 1 <= p ->
  m' (i / 8) = m ((i / 8) mod p) -> bitmap_get m' i = bitmap_get m (i mod (8 * p)).
Proof.
  intros P E. rewrite !bitmap_get_testbit, E.
  pose proof (Nat.mod_mul_r i 8 p ltac:(lia) ltac:(lia)) as Q. rewrite Q.
  rewrite (Nat.mul_comm 8 (_ mod p)), Nat.div_add, Nat.mod_add by lia.
  rewrite (Nat.div_small (i mod 8)), Nat.mod_mod by (try apply Nat.mod_upper_bound; lia).
  reflexivity.
Qed.

Lemma rep_byte0 x : (x < 256)%N -> forall j, j < 2 ->
  N.testbit (N.lor (N.land x 1) (N.land (N.shiftl (N.land x 1) 1) 255)) (N.of_nat j)
  = N.testbit x (N.of_nat (j mod 1)).
Proof.
  intros H j Hj.
  assert (C : forall_lt 256 (fun x => forallb (fun j => Bool.eqb
    (N.testbit (N.lor (N.land x 1) (N.land (N.shiftl (N.land x 1) 1) 255)) (N.of_nat j))
    (N.testbit x (N.of_nat (j mod 1)))) (seq 0 2)) = true) by (vm_compute; reflexivity).
  pose proof (forall_lt_spec _ _ C x H) as D. cbv beta in D. rewrite forallb_forall in D.
  apply eqb_prop, D, in_seq. lia.
Qed.

Lemma rep_byte1 x : (x < 256)%N -> forall j, j < 4 ->
  N.testbit (N.lor (N.land x 3) (N.land (N.shiftl (N.land x 3) 2) 255)) (N.of_nat j)
  = N.testbit x (N.of_nat (j mod 2)).
Proof.
  intros H j Hj.
  assert (C : forall_lt 256 (fun x => forallb (fun j => Bool.eqb
    (N.testbit (N.lor (N.land x 3) (N.land (N.shiftl (N.land x 3) 2) 255)) (N.of_nat j))
    (N.testbit x (N.of_nat (j mod 2)))) (seq 0 4)) = true) by (vm_compute; reflexivity).
  pose proof (forall_lt_spec _ _ C x H) as D. cbv beta in D. rewrite forallb_forall in D.
  apply eqb_prop, D, in_seq. lia.
Qed.

Lemma rep_byte2 x : (x < 256)%N -> forall j, j < 8 ->
  N.testbit (N.lor (N.land x 15) (N.land (N.shiftl (N.land x 15) 4) 255)) (N.of_nat j)
  = N.testbit x (N.of_nat (j mod 4)).
Proof.
  intros H j Hj.
  assert (C : forall_lt 256 (fun x => forallb (fun j => Bool.eqb
    (N.testbit (N.lor (N.land x 15) (N.land (N.shiftl (N.land x 15) 4) 255)) (N.of_nat j))
    (N.testbit x (N.of_nat (j mod 4)))) (seq 0 8)) = true) by (vm_compute; reflexivity).
  pose proof (forall_lt_spec _ _ C x H) as D. cbv beta in D. rewrite forallb_forall in D.
  apply eqb_prop, D, in_seq. lia.
Qed.

Lemma lor_lt_256 a b : (a < 256 -> b < 256 -> N.lor a b < 256)%N.
Proof.
  intros A B. destruct (N.eq_dec (N.lor a b) 0) as [E|E]; [rewrite E; lia|].
  apply N.log2_lt_pow2 with (b := 8%N); [lia|].
  rewrite N.log2_lor. apply N.max_lub_lt.
  - destruct (N.eq_dec a 0); [subst; cbn; lia|]. apply N.log2_lt_pow2; [lia|exact A].
  - destruct (N.eq_dec b 0); [subst; cbn; lia|]. apply N.log2_lt_pow2; [lia|exact B].
Qed.

Lemma land_le_r a b : (N.land a b <= b)%N.
Proof.
  rewrite <- (N.lor_ldiff_and b a) at 2. rewrite N.land_comm.
  apply N.le_trans with (N.ldiff b a + N.land b a)%N; [lia|].
  rewrite N.add_nocarry_lxor.
  - rewrite N.lxor_lor; [lia|]. apply N.bits_inj_0; intros n.
    rewrite !N.land_spec, N.ldiff_spec. destruct (N.testbit a n), (N.testbit b n); reflexivity.
  - apply N.bits_inj_0; intros n.
    rewrite !N.land_spec, N.ldiff_spec. destruct (N.testbit a n), (N.testbit b n); reflexivity.
Qed.

(** one doubling step, for have < 6 *)
Lemma double_small r v have : wf r -> have < 3 ->
  (forall j, j < 2 ^ S have -> N.testbit v (N.of_nat j) = N.testbit (r 0) (N.of_nat (j mod 2 ^ have))) ->
  forall i, i < 2 ^ S have -> bitmap_get (upd r 0 v) i = bitmap_get r (i mod 2 ^ have).
Proof.
  intros W H B i Hi.
  assert (2 ^ S have <= 2 ^ 3) by (apply Nat.pow_le_mono_r; lia).
  assert (i mod 2 ^ have < 2 ^ have) by (apply Nat.mod_upper_bound, Nat.pow_nonzero; lia).
  assert (2 ^ S have = 2 * 2 ^ have) by reflexivity.
  change (2 ^ 3) with 8 in *.
  rewrite get_upd0 by lia. rewrite B by exact Hi.
  rewrite bitmap_get_testbit, Nat.div_small, (Nat.mod_small (i mod 2 ^ have)) by lia.
  reflexivity.
Qed.

Lemma double_bytes r p i : 1 <= p -> i < 8 * (2 * p) ->
  bitmap_get (upds r p (reads r 0 p)) i = bitmap_get r (i mod (8 * p)).
Proof.
  intros P Hi. apply get_periodic; [exact P|].
  rewrite upds_spec, reads_length.
  pose proof (div8_lt i (2 * p) Hi) as L.
  destruct (Nat.leb_spec p (i / 8)).
  - destruct (Nat.ltb_spec (i / 8) (p + p)); [|lia]. cbn [andb].
    rewrite reads_nth by lia. cbn [Nat.add]. f_equal. apply Nat.mod_unique with 1; lia.
  - cbn [andb]. rewrite Nat.mod_small by lia. reflexivity.
Qed.

Lemma mod_mod_mul i a b : a <> 0 -> b <> 0 -> (i mod (a * b)) mod a = i mod a.
Proof.
  intros A B. rewrite Nat.mod_mul_r by assumption.
  rewrite (Nat.mul_comm a), Nat.mod_add by assumption. now apply Nat.mod_mod.
Qed.

Lemma repeat_loop_spec n : forall r have,
  wf r -> have + n <= 10 ->
  wf (repeat_loop n r have) /\
  forall i, i < 2 ^ (have + n) -> bitmap_get (repeat_loop n r have) i = bitmap_get r (i mod 2 ^ have).
Proof.
  induction n as [|n IH]; intros r have W H10.
  - cbn [repeat_loop]. split; [exact W|]. intros i Hi.
    rewrite Nat.add_0_r in Hi. now rewrite Nat.mod_small.
  - assert (STEP : forall r1, wf r1 ->
      (forall i, i < 2 ^ S have -> bitmap_get r1 i = bitmap_get r (i mod 2 ^ have)) ->
      wf (repeat_loop n r1 (S have)) /\
      forall i, i < 2 ^ (have + S n) ->
        bitmap_get (repeat_loop n r1 (S have)) i = bitmap_get r (i mod 2 ^ have)).
    { intros r1 W1 D. destruct (IH r1 (S have) W1 ltac:(lia)) as [W2 G]. split; [exact W2|].
      intros i Hi. rewrite G by (replace (S have + n) with (have + S n) by lia; exact Hi).
      assert (P : 2 ^ have <> 0) by (apply Nat.pow_nonzero; lia).
      rewrite D by (apply Nat.mod_upper_bound, Nat.pow_nonzero; lia).
      f_equal. cbn [Nat.pow]. rewrite (Nat.mul_comm 2).
      apply mod_mod_mul; lia. }
    destruct have as [|[|[|[|[|[|[|h]]]]]]]; cbn [repeat_loop].
    + apply STEP.
      * intros k. unfold upd. destruct (k =? 0); [|apply W]. apply lor_lt_256; eapply N.le_lt_trans; try apply land_le_r; lia.
      * apply double_small; [exact W|lia|]. intros j Hj. apply rep_byte0; [apply W|exact Hj].
    + apply STEP.
      * intros k. unfold upd. destruct (k =? 0); [|apply W]. apply lor_lt_256; eapply N.le_lt_trans; try apply land_le_r; lia.
      * apply double_small; [exact W|lia|]. intros j Hj. apply rep_byte1; [apply W|exact Hj].
    + apply STEP.
      * intros k. unfold upd. destruct (k =? 0); [|apply W]. apply lor_lt_256; eapply N.le_lt_trans; try apply land_le_r; lia.
      * apply double_small; [exact W|lia|]. intros j Hj. apply rep_byte2; [apply W|exact Hj].
    + apply STEP; [apply upds_wf; [exact W|apply reads_wf; exact W]|].
      intros i Hi. apply (double_bytes r 1); [lia|exact Hi].
    + apply STEP; [apply upds_wf; [exact W|apply reads_wf; exact W]|].
      intros i Hi. apply (double_bytes r 2); [lia|exact Hi].
    + apply STEP; [apply upds_wf; [exact W|apply reads_wf; exact W]|].
      intros i Hi. apply (double_bytes r 4); [lia|exact Hi].
    + replace (6 + S n - 6) with (S n) by lia.
      split; [apply fill_words_wf; [exact W|apply reads_wf, W]|].
      intros i Hi.
      assert (P : 2 ^ S n <> 0) by (apply Nat.pow_nonzero; lia).
      assert (E : 2 ^ (6 + S n) = 64 * 2 ^ S n) by (rewrite Nat.pow_add_r; reflexivity).
      rewrite E in Hi. change (2 ^ 6) with (8 * 8).
      apply get_periodic; [lia|].
      assert (i / 8 < 8 * 2 ^ S n) by (apply div8_lt; lia).
      rewrite fill_words_eq; [reflexivity|reflexivity| |lia| |].
      * intros k Hk. now rewrite reads_nth by lia.
      * intros k Hk. now rewrite Nat.mod_small by lia.
      * replace (1 + (2 ^ S n - 1)) with (2 ^ S n) by lia. lia.
    + set (sk := 2 ^ (S (S (S (S (S (S (S h)))))) - 6)).
      set (ct := 2 ^ (S (S (S (S (S (S (S h)))))) + S n - 6)).
      split; [apply copy_words_wf, W|].
      intros i Hi.
      assert (SK : sk <> 0) by (apply Nat.pow_nonzero; lia).
      assert (CT : sk <= ct) by (apply Nat.pow_le_mono_r; lia).
      assert (E : 2 ^ S (S (S (S (S (S (S h)))))) = 8 * (8 * sk)).
      { unfold sk. replace (S (S (S (S (S (S (S h)))))) - 6) with (S h) by lia.
        cbn [Nat.pow]. lia. }
      assert (E2 : 2 ^ (S (S (S (S (S (S (S h)))))) + S n) = 8 * (8 * ct)).
      { unfold ct. replace (S (S (S (S (S (S (S h)))))) + S n) with (6 + (S h + S n)) by lia.
        replace (6 + (S h + S n) - 6) with (S h + S n) by lia.
        rewrite (Nat.pow_add_r 2 6). change (2 ^ 6) with 64. lia. }
      rewrite E. apply get_periodic; [lia|].
      rewrite E2 in Hi. apply div8_lt in Hi.
      rewrite copy_words_spec; [reflexivity|lia|lia| |].
      * intros k Hk. now rewrite Nat.mod_small by lia.
      * replace (sk + (ct - sk)) with ct by lia. exact Hi.
Qed.

Lemma bitmap_repeat_spec r have add :
  wf r -> have + add <= max_lazy ->
  exists r', bitmap_repeat r have add = Some r' /\ wf r' /\
    forall i, i < 2 ^ (have + add) -> bitmap_get r' i = bitmap_get r (i mod 2 ^ have).
Proof.
  intros W H. unfold bitmap_repeat.
  assert (P : 2 ^ (have + add) <= 2 ^ 10) by (apply Nat.pow_le_mono_r; [lia|exact H]).
  assert (E : 2 ^ (have + add) <=? nbytes * 8 = true) by (apply Nat.leb_le; exact P).
  rewrite E. cbn [negb]. eexists. split; [reflexivity|]. now apply repeat_loop_spec.
Qed.

(** ** combine *)

Lemma op_byte_bit op a b j : N.testbit (op_byte op a b) j = op_bool op (N.testbit a j) (N.testbit b j).
Proof.
  destruct op; cbn [op_byte op_bool];
  [apply N.land_spec|apply N.lxor_spec|apply N.ldiff_spec|apply N.lor_spec].
Qed.

Lemma bitmap_combine_spec r b size op i :
  i < 2 ^ size ->
  bitmap_get (bitmap_combine r b size op) i = op_bool op (bitmap_get r i) (bitmap_get b i).
Proof.
  intros H. rewrite !bitmap_get_testbit. unfold bitmap_combine.
  set (cnt := (2 ^ size + 63) / 64).
  assert (C : 2 ^ size <= 64 * cnt).
  { unfold cnt. pose proof (Nat.div_mod (2 ^ size + 63) 64 ltac:(lia)).
    pose proof (Nat.mod_upper_bound (2 ^ size + 63) 64 ltac:(lia)). lia. }
  destruct (Nat.ltb_spec (i / 8) (8 * cnt)) as [L|L].
  - apply op_byte_bit.
  - exfalso. assert (i / 8 < 8 * cnt); [|lia]. apply div8_lt. lia.
Qed.

Lemma lt256_bits a : (forall j, (8 <= j)%N -> N.testbit a j = false) -> (a < 256)%N.
Proof.
  intros H. destruct (N.eq_dec a 0) as [->|NZ]; [lia|].
  apply N.log2_lt_pow2 with (b := 8%N); [lia|].
  destruct (N.lt_ge_cases (N.log2 a) 8) as [|G]; [assumption|].
  specialize (H _ G). rewrite N.bit_log2 in H by exact NZ. discriminate.
Qed.

Lemma bits_above a j : (a < 256 -> 8 <= j -> N.testbit a j = false)%N.
Proof.
  intros A J. destruct (N.eq_dec a 0) as [->|NZ]; [apply N.bits_0|].
  apply N.bits_above_log2. apply N.log2_lt_pow2 with (b := 8%N) in A; lia.
Qed.

Lemma bitmap_combine_wf r b size op : wf r -> wf b -> wf (bitmap_combine r b size op).
Proof.
  intros R B k. unfold bitmap_combine. destruct (_ <? _); [|apply R].
  apply lt256_bits. intros j J. rewrite op_byte_bit.
  rewrite (bits_above (r k)), (bits_above (b k)) by (try apply R; try apply B; exact J).
  destruct op; reflexivity.
Qed.

Lemma bitmap_set_get b i v k :
  wf b -> bitmap_get (bitmap_set b i v) k = if Nat.eqb k i then v else bitmap_get b k.
Proof.
  intros W. rewrite !bitmap_get_testbit. unfold bitmap_set.
  destruct (Nat.eq_dec (k / 8) (i / 8)) as [E|E].
  - rewrite E, upd_same. rewrite N.shiftl_1_l.
    assert (M : k mod 8 = i mod 8 <-> k = i).
    { split; [|now intros ->]. intros. rewrite (Nat.div_mod k 8), (Nat.div_mod i 8) by lia. lia. }
    pose proof (Nat.mod_upper_bound k 8 ltac:(lia)) as K8.
    pose proof (Nat.mod_upper_bound i 8 ltac:(lia)) as I8.
    destruct v.
    + rewrite N.lor_spec. destruct (Nat.eqb_spec k i) as [->|NE].
      * rewrite N.pow2_bits_true. apply orb_true_r.
      * rewrite N.pow2_bits_false by (intros Q; apply Nat2N.inj in Q; apply NE, M; congruence).
        apply orb_false_r.
    + rewrite !N.land_spec.
      rewrite N.lnot_spec_low by lia.
      rewrite testbit_255 by lia.
      destruct (Nat.eqb_spec k i) as [->|NE].
      * rewrite N.pow2_bits_true. apply andb_false_r.
      * rewrite N.pow2_bits_false by (intros Q; apply Nat2N.inj in Q; apply NE, M; congruence).
        cbn. apply andb_true_r.
  - rewrite upd_other by exact E. destruct (Nat.eqb_spec k i); [congruence|reflexivity].
Qed.

(** ** the composed table *)

Lemma mask_index_lt x : mask_index x < 2 ^ length x.
Proof.
  induction x as [|b x IH]; cbn [mask_index length Nat.pow]; [lia|]. destruct b; lia.
Qed.

Lemma mask_index_app x y : mask_index (x ++ y) = mask_index x + 2 ^ length x * mask_index y.
Proof.
  induction x as [|b x IH]; cbn [mask_index app length Nat.pow]; [lia|].
  rewrite IH. destruct b; lia.
Qed.

Lemma combine_tables r b n m op :
  wf r -> wf b -> n + m <= max_lazy ->
  exists r' b',
    bitmap_repeat r n m = Some r' /\
    bitmap_spread b m n = Some b' /\
    wf (bitmap_combine r' b' (n + m) op) /\
    forall x y, length x = n -> length y = m ->
      bitmap_get (bitmap_combine r' b' (n + m) op) (mask_index (x ++ y)) =
      op_bool op (bitmap_get r (mask_index x)) (bitmap_get b (mask_index y)).
Proof.
  intros Wr Wb H.
  destruct (bitmap_repeat_spec r n m Wr H) as (r' & Er & Wr' & Gr).
  destruct (bitmap_spread_spec b m n Wb ltac:(lia)) as (b' & Eb & Wb' & Gb).
  exists r', b'. split; [exact Er|]. split; [exact Eb|].
  split; [now apply bitmap_combine_wf|].
  intros x y Lx Ly.
  assert (I : mask_index (x ++ y) < 2 ^ (n + m)).
  { rewrite <- Lx, <- Ly, <- app_length. apply mask_index_lt. }
  rewrite bitmap_combine_spec by exact I.
  rewrite Gr by exact I. rewrite Gb by (rewrite Nat.add_comm; exact I).
  rewrite mask_index_app, Lx.
  pose proof (mask_index_lt x) as Bx. rewrite Lx in Bx.
  f_equal.
  - f_equal. symmetry. apply Nat.mod_unique with (mask_index y); lia.
  - f_equal. symmetry. apply Nat.div_unique with (mask_index x); lia.
Qed.

(** Proofs about the first phase of the sweep: overlap and split *)
From Coq Require Import ZArith NArith List Bool Lia Arith ZifyBool.
From Verif Require Import Matq_spec Reduce_model Reduce_spec Sweep_model Sweep_spec Sweep_proofs.
Import ListNotations.
Open Scope Z_scope.

Lemma vec2_cmp_lt : forall a b, vec2_cmp a b < 0 <-> lex_lt a b.
Proof.
  intros [x y] [x' y']. unfold vec2_cmp, cp_cmp, lex_lt. simpl.
  destruct (Z.ltb_spec x x'), (Z.ltb_spec x' x), (Z.ltb_spec y y'), (Z.ltb_spec y' y); simpl; lia.
Qed.
Lemma vec2_cmp_eq : forall a b, vec2_cmp a b = 0 <-> a = b.
Proof.
  intros [x y] [x' y']. unfold vec2_cmp, cp_cmp. simpl.
  destruct (Z.ltb_spec x x'), (Z.ltb_spec x' x), (Z.ltb_spec y y'), (Z.ltb_spec y' y); simpl; split; intros H'; try discriminate;
    try (inversion H'; lia); try (f_equal; lia); reflexivity.
Qed.
Lemma lex3 : forall a b : Z * Z, lex_lt a b \/ a = b \/ lex_lt b a.
Proof.
  intros [x y] [x' y']. unfold lex_lt. simpl.
  destruct (Z.lt_trichotomy x x') as [|[->|]]; auto. destruct (Z.lt_trichotomy y y') as [|[->|]]; auto.
Qed.
Lemma vec2_eq_iff : forall a b, vec2_eq a b = true <-> a = b.
Proof. intros [x y] [x' y']. unfold vec2_eq. simpl. rewrite andb_true_iff, !Z.eqb_eq. split; [intros (-> & ->); auto|intros H; inversion H; auto]. Qed.

Lemma lex_cmp_true : forall a b, lex_lt a b -> (vec2_cmp a b <? 0) = true.
Proof. intros a b H. apply vec2_cmp_lt in H. lia. Qed.
Lemma lex_cmp_false : forall a b, ~ lex_lt a b -> (vec2_cmp a b <? 0) = false.
Proof. intros a b H. destruct (Z.ltb_spec (vec2_cmp a b) 0) as [L|L]; [apply vec2_cmp_lt in L; contradiction|reflexivity]. Qed.

(** comparing lengths is comparing ends *)
Lemma len_lt : forall a u w, cross3_z w a u = 0 -> lex_lt a u -> lex_lt u w -> sqr_dist a u < sqr_dist a w.
Proof.
  intros [a1 a2] [u1 u2] [w1 w2] C L1 L2. unfold cross3_z, lex_lt, sqr_dist in *. simpl in *.
  set (p := u1 - a1). set (q := u2 - a2). set (r := w1 - a1). set (s := w2 - a2).
  assert (C' : r * q = s * p) by (unfold p, q, r, s; lia).
  assert (L1' : 0 < p \/ (p = 0 /\ 0 < q)) by (unfold p, q; lia).
  assert (L2' : p < r \/ (p = r /\ q < s)) by (unfold p, q, r, s; lia).
  replace ((a1 - u1) * (a1 - u1) + (a2 - u2) * (a2 - u2)) with (p * p + q * q) by (unfold p, q; ring).
  replace ((a1 - w1) * (a1 - w1) + (a2 - w2) * (a2 - w2)) with (r * r + s * s) by (unfold r, s; ring).
  clearbody p q r s. clear - C' L1' L2'. destruct L1' as [P|(-> & Q)].
  - destruct L2' as [L|(-> & L)]; [|nia].
    assert (q * q <= s * s); [|nia].
    assert (p * p * (q * q) <= p * p * (s * s)); [|nia].
    assert (E : p * p * (s * s) = r * r * (q * q)) by (replace (p * p * (s * s)) with ((s * p) * (s * p)) by ring; rewrite <- C'; ring).
    rewrite E. apply Z.mul_le_mono_nonneg_r; nia.
  - assert (r * q = 0) by lia. assert (r = 0) by nia. subst r. nia.
Qed.
Lemma cross_swap : forall a u w, cross3_z w a u = 0 -> cross3_z u a w = 0.
Proof. intros. unfold cross3_z in *. lia. Qed.
Lemma cross_rot : forall a u w, cross3_z w a u = 0 -> cross3_z u w a = 0.
Proof. intros. unfold cross3_z in *. lia. Qed.
Lemma len_cmp : forall a u w, cross3_z w a u = 0 -> lex_lt a u -> lex_lt a w ->
  (cp_cmp (sqr_dist a u) (sqr_dist a w) = 0 /\ u = w) \/ (0 < cp_cmp (sqr_dist a u) (sqr_dist a w) /\ lex_lt w u)
  \/ (cp_cmp (sqr_dist a u) (sqr_dist a w) < 0 /\ lex_lt u w).
Proof.
  intros a u w C L1 L2. unfold cp_cmp. destruct (lex3 u w) as [H|[->|H]].
  - pose proof (len_lt a u w C L1 H). right. right. split; [|exact H]. destruct (Z.ltb_spec (sqr_dist a u) (sqr_dist a w)); lia.
  - left. rewrite Z.ltb_irrefl. auto.
  - pose proof (len_lt a w u (cross_swap _ _ _ C) L2 H). right. left. split; [|exact H].
    destruct (Z.ltb_spec (sqr_dist a u) (sqr_dist a w)); [lia|]. destruct (Z.ltb_spec (sqr_dist a w) (sqr_dist a u)); lia.
Qed.

(** ** Evaluating operations *)
Lemma fupd_same : forall A (f : nat -> A) i x, fupd f i x i = x.
Proof. intros. unfold fupd. rewrite Nat.eqb_refl. reflexivity. Qed.
Lemma fupd_diff : forall A (f : nat -> A) i x j, j <> i -> fupd f i x j = f j.
Proof. intros. unfold fupd. rewrite (proj2 (Nat.eqb_neq j i)) by auto. reflexivity. Qed.
Lemma aupd_same : forall f i s x, aupd f i s x i s = x.
Proof. intros. unfold aupd. rewrite Nat.eqb_refl, eqb_reflx. reflexivity. Qed.
Lemma aupd_diff : forall f i s x j t, (j <> i \/ t <> s) -> aupd f i s x j t = f j t.
Proof.
  intros f i s x j t H. unfold aupd. destruct (Nat.eqb_spec j i), (Bool.eqb t s) eqn:Q; cbn [andb]; auto.
  apply eqb_prop in Q. destruct H; congruence.
Qed.
Lemma seq_ok : forall a b d d', a d = Some d' -> (a ;; b) d = b d'.
Proof. intros. unfold seq_op. rewrite H. reflexivity. Qed.
Lemma check_ok : forall c d, c d = true -> check_op c d = Some d.
Proof. intros. unfold check_op. rewrite H. reflexivity. Qed.
Lemma with_ok : forall i f d e, edges d i = Some e -> with_edge i f d = f e d.
Proof. intros. unfold with_edge. rewrite H. reflexivity. Qed.

Ltac lk := repeat first
  [ rewrite fupd_same | rewrite fupd_diff by (first [assumption|congruence|lia]) | rewrite aupd_same
  | rewrite aupd_diff by (first [left; first [assumption|congruence|lia] | right; discriminate]) ].
Ltac side H := cbn [count edges agenda on_line left rigt member coord_of]; unfold agenda_is_member, LEFT, RIGT in *; cbn [count edges agenda on_line left rigt member coord_of]; lk; H.

Section Overlap.
Variables (d : sdata) (e o : nat) (ee oo : edge).
Hypothesis HC : coherent (Some e) d.
Hypothesis He : edges d e = Some ee.
Hypothesis Ho : edges d o = Some oo.
Hypothesis Hl : on_line d o = true.
Hypothesis C1 : cross3_z (left ee) (rigt oo) (left oo) = 0.
Hypothesis C2 : cross3_z (rigt oo) (left ee) (rigt ee) = 0.
Hypothesis H2 : lex_lt (left ee) (rigt oo).

Lemma E_facts : (e < count d)%nat /\ lex_lt (left ee) (rigt ee) /\ int_edge ee /\ agenda d e false = None /\ agenda d e true = Some (rigt ee) /\ on_line d e = false.
Proof. pose proof (HC e) as H. rewrite He in H. rewrite Nat.eqb_refl in H. unfold LEFT, RIGT in H. tauto. Qed.
Lemma eo : e <> o.
Proof. intros Q. destruct E_facts as (_ & _ & _ & _ & _ & X). rewrite Q in X. congruence. Qed.
Lemma O_facts : (o < count d)%nat /\ lex_lt (left oo) (rigt oo) /\ int_edge oo /\ agenda d o false = None /\ agenda d o true = Some (rigt oo).
Proof.
  pose proof (HC o) as H. rewrite Ho in H. pose proof eo. rewrite (proj2 (Nat.eqb_neq e o)) in H by auto.
  destruct H as (H3 & H4 & H5 & H6). unfold edge_state, LEFT, RIGT in H6. rewrite Hl in H6. intuition congruence.
Qed.
Lemma new_facts : edges d (count d) = None /\ agenda d (count d) false = None /\ agenda d (count d) true = None /\ on_line d (count d) = false.
Proof.
  pose proof (HC (count d)) as H. destruct (edges d (count d)) as [x|] eqn:Q; [destruct H as (H & _); lia|]. unfold LEFT, RIGT in H. tauto.
Qed.

Ltac go := unfold ev_overlap, ev_split, set_member, set_rigt, set_left, set_edge, check_order, agenda_update, agenda_insert, agenda_remove, state_replace,
    edge_delete, edge_new, seq_op, check_op, with_edge, agenda_is_member, LEFT, RIGT;
  repeat first [ progress cbn [count edges agenda on_line left rigt member coord_of is_some negb andb]
    | progress lk
    | match goal with H : edges d ?i = _ |- context [edges d ?i] => rewrite H end
    | match goal with H : agenda d ?i ?s = _ |- context [agenda d ?i ?s] => rewrite H end
    | match goal with H : on_line d ?i = _ |- context [on_line d ?i] => rewrite H end
    | match goal with H : ?c = _ |- context [if ?c then _ else _] => rewrite H end
    | match goal with H : ?c = _ |- context [if negb ?c then _ else _] => rewrite H end ].

Ltac coh := let i := fresh "i" in intros i; cbn [count edges agenda on_line];
  destruct (Nat.eq_dec i e) as [->|?]; [|destruct (Nat.eq_dec i o) as [->|?]; [|destruct (Nat.eq_dec i (count d)) as [->|?]]];
  lk;
  try match goal with H : edges d (count d) = None |- context [edges d (count d)] => rewrite H end;
  unfold edge_state, LEFT, RIGT; cbn [count edges agenda on_line left rigt member]; lk;
  try (solve [repeat match goal with H : agenda d ?i ?s = _ |- context [agenda d ?i ?s] => rewrite H | H : on_line d ?i = _ |- context [on_line d ?i] => rewrite H
    | H : edges d ?i = _ |- context [edges d ?i] => rewrite H end;
    cbn [left rigt]; unfold int_edge in *; cbn [left rigt]; intuition (first [congruence|lia|eauto])]);
  try (let H := fresh in pose proof (HC i) as H; cbv beta iota in H; rewrite (proj2 (Nat.eqb_neq e i)) in H by auto; unfold edge_state, LEFT, RIGT in H;
    revert H; destruct (edges d i); cbn [count]; intros H; intuition lia).
Ltac tots := let g := fresh "g" in let G := fresh "G" in intros g G; cbn [count edges];
  repeat first [rewrite tot_new | rewrite tot_upd by lia]; lk; rewrite ?He, ?Ho; unfold term, by_ends; cbn [left rigt member].

Lemma overlap_ok : match ev_overlap e o d with
  | Some d' => coherent None d' /\ same_tot d d'
  | None => ~ lex_le (left oo) (left ee)
  end.
Proof.
  destruct E_facts as (Ee & Le & Ie & A1 & A2 & A3). destruct O_facts as (Oe & Lo & Io & B1 & B2). destruct new_facts as (N1 & N2 & N3 & N4). pose proof eo as EO.
  assert (NE : e <> count d) by lia. assert (NO : o <> count d) by lia.
  destruct (vec2_eq (left oo) (left ee)) eqn:LE.
  - assert (LQ : left oo = left ee) by (apply vec2_eq_iff; exact LE).
    destruct (len_cmp _ _ _ C2 Le H2) as [(I & Q)|[(I & Q)|(I & Q)]].
    + assert (I' : (cp_cmp (sqr_dist (left ee) (rigt ee)) (sqr_dist (left ee) (rigt oo)) =? 0) = true) by lia.
      go. split; [coh|]. tots. rewrite LQ, Q. destruct (g (left ee) (rigt oo)); cbn [xorb]; xor_solve.
    + assert (I0 : (cp_cmp (sqr_dist (left ee) (rigt ee)) (sqr_dist (left ee) (rigt oo)) =? 0) = false) by lia.
      assert (I' : (0 <? cp_cmp (sqr_dist (left ee) (rigt ee)) (sqr_dist (left ee) (rigt oo))) = true) by lia.
      pose proof (lex_cmp_true _ _ Q) as V1.
      go. split; [coh|]. tots. rewrite (G _ _ _ (cross_rot _ _ _ (cross_swap _ _ _ C2)) H2 Q), LQ.
      destruct (g (left ee) (rigt oo)), (g (rigt oo) (rigt ee)); cbn [xorb]; xor_solve.
    + assert (I0 : (cp_cmp (sqr_dist (left ee) (rigt ee)) (sqr_dist (left ee) (rigt oo)) =? 0) = false) by lia.
      assert (I' : (0 <? cp_cmp (sqr_dist (left ee) (rigt ee)) (sqr_dist (left ee) (rigt oo))) = false) by lia.
      pose proof (lex_cmp_true _ _ Q) as V1. pose proof (lex_cmp_true _ _ Le) as V2. rewrite <- LQ in V2.
      go. split; [coh|]. tots. rewrite LQ. rewrite (G _ _ _ (cross_rot _ _ _ C2) Le Q).
      destruct (g (left ee) (rigt ee)), (g (rigt ee) (rigt oo)); cbn [xorb]; xor_solve.
  - assert (LQ : left oo <> left ee) by (intros X; apply vec2_eq_iff in X; congruence).
    destruct (vec2_cmp (left oo) (left ee) <? 0) eqn:V0.
    + assert (L1 : lex_lt (left oo) (left ee)) by (apply vec2_cmp_lt; lia).
      destruct (len_cmp _ _ _ C2 Le H2) as [(I & Q)|[(I & Q)|(I & Q)]].
      * assert (I' : (cp_cmp (sqr_dist (left ee) (rigt ee)) (sqr_dist (left ee) (rigt oo)) =? 0) = true) by lia.
        go. split; [coh|]. tots. rewrite (G _ _ _ C1 L1 H2), Q.
        destruct (g (left oo) (left ee)), (g (left ee) (rigt oo)); cbn [xorb]; xor_solve.
      * assert (I0 : (cp_cmp (sqr_dist (left ee) (rigt ee)) (sqr_dist (left ee) (rigt oo)) =? 0) = false) by lia.
        assert (I' : (0 <? cp_cmp (sqr_dist (left ee) (rigt ee)) (sqr_dist (left ee) (rigt oo))) = true) by lia.
        pose proof (lex_cmp_true _ _ Q) as V1. pose proof (lex_cmp_true _ _ H2) as V2.
        go. split; [coh|]. tots. rewrite (G _ _ _ C1 L1 H2), (G _ _ _ (cross_rot _ _ _ (cross_swap _ _ _ C2)) H2 Q).
        destruct (g (left oo) (left ee)), (g (left ee) (rigt oo)), (g (rigt oo) (rigt ee)); cbn [xorb]; xor_solve.
      * assert (I0 : (cp_cmp (sqr_dist (left ee) (rigt ee)) (sqr_dist (left ee) (rigt oo)) =? 0) = false) by lia.
        assert (I' : (0 <? cp_cmp (sqr_dist (left ee) (rigt ee)) (sqr_dist (left ee) (rigt oo))) = false) by lia.
        pose proof (lex_cmp_true _ _ Q) as V1.
        go. split; [coh|]. tots. rewrite (G _ _ _ C1 L1 H2), (G _ _ _ (cross_rot _ _ _ C2) Le Q).
        destruct (g (left oo) (left ee)), (g (left ee) (rigt ee)), (g (rigt ee) (rigt oo)); cbn [xorb]; xor_solve.
    + assert (NL : ~ lex_le (left oo) (left ee)).
      { intros X. assert (L : lex_lt (left oo) (left ee) \/ left oo = left ee).
        { destruct (lex3 (left oo) (left ee)) as [L|[L|L]]; auto. unfold lex_lt, lex_le in *. lia. }
        destruct L as [L|L]; [|contradiction]. apply lex_cmp_true in L. congruence. }
      destruct (len_cmp _ _ _ C2 Le H2) as [(I & Q)|[(I & Q)|(I & Q)]].
      * assert (I' : (cp_cmp (sqr_dist (left ee) (rigt ee)) (sqr_dist (left ee) (rigt oo)) =? 0) = true) by lia.
        go. exact NL.
      * assert (I0 : (cp_cmp (sqr_dist (left ee) (rigt ee)) (sqr_dist (left ee) (rigt oo)) =? 0) = false) by lia.
        assert (I' : (0 <? cp_cmp (sqr_dist (left ee) (rigt ee)) (sqr_dist (left ee) (rigt oo))) = true) by lia.
        pose proof (lex_cmp_true _ _ Q) as V1. pose proof (lex_cmp_true _ _ H2) as V2.
        go. exact NL.
      * assert (I0 : (cp_cmp (sqr_dist (left ee) (rigt ee)) (sqr_dist (left ee) (rigt oo)) =? 0) = false) by lia.
        assert (I' : (0 <? cp_cmp (sqr_dist (left ee) (rigt ee)) (sqr_dist (left ee) (rigt oo))) = false) by lia.
        pose proof (lex_cmp_true _ _ Q) as V1.
        go. exact NL.
Qed.
End Overlap.

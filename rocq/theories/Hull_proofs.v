(** C46: the hull of points *)
From Coq Require Import ZArith Bool List Lia Arith Permutation Sorting.Sorted ZifyBool Psatz.
From Verif Require Import Hull_model Hull_spec.
Import ListNotations.
Local Open Scope Z_scope.
Notation R := area2.
Lemma cross_area a o b : cross3 a o b = R a o b. Proof. unfold cross3, area2. ring. Qed.
Lemma normal_pos a o b : (normal3 a o b >? 0) = (0 <? R a o b). Proof. unfold normal3. rewrite cross_area. destruct (Z.sgn_spec (R a o b)); lia. Qed.

(** ** Weighted sums *)
Lemma weighted_add l W X Y W' X' Y' : weighted l W X Y -> weighted l W' X' Y' -> weighted l (W + W') (X + X') (Y + Y').
Proof.
  intros A B. revert W X Y A. induction B as [|p w W' X' Y' I P B IH]; intros W X Y A; [now rewrite !Z.add_0_r|]. rewrite !Z.add_assoc. constructor; auto.
Qed.
Lemma weighted_scale l m W X Y : 0 <= m -> weighted l W X Y -> weighted l (m * W) (m * X) (m * Y).
Proof.
  intros M. induction 1 as [|p w W X Y I P B IH]; [rewrite !Z.mul_0_r; constructor|]. replace (m * (W + w)) with (m * W + m * w) by ring. replace (m * (X + w * fst p)) with (m * X + (m * w) * fst p) by ring. replace (m * (Y + w * snd p)) with (m * Y + (m * w) * snd p) by ring. constructor; auto. nia.
Qed.
Lemma weighted_trans l l' W X Y : (forall p, In p l -> within l' p) -> weighted l W X Y -> exists m, 0 < m /\ weighted l' (m * W) (m * X) (m * Y).
Proof.
  intros H. induction 1 as [|p w W X Y I P B IH]; [exists 1; split; [lia|constructor]|]. destruct IH as (m & M & A). destruct (H p I) as (V & VP & C). exists (m * V). split; [nia|].
  pose proof (weighted_add _ _ _ _ _ _ _ (weighted_scale _ V _ _ _ ltac:(lia) A) (weighted_scale _ (m * w) _ _ _ ltac:(nia) C)) as Q.
  replace (m * V * (W + w)) with (V * (m * W) + m * w * V) by ring. replace (m * V * (X + w * fst p)) with (V * (m * X) + m * w * (V * fst p)) by ring. replace (m * V * (Y + w * snd p)) with (V * (m * Y) + m * w * (V * snd p)) by ring. exact Q.
Qed.
Lemma within_trans l l' q : (forall p, In p l -> within l' p) -> within l q -> within l' q.
Proof.
  intros H (W & P & A). destruct (weighted_trans l l' _ _ _ H A) as (m & M & B). exists (m * W). split; [nia|]. rewrite <- !Z.mul_assoc. exact B.
Qed.
Lemma within_in l q : In q l -> within l q.
Proof. intros I. exists 1. split; [lia|]. pose proof (wt_add l q 1 0 0 0 I ltac:(lia) (wt_none l)) as H. exact H. Qed.
Lemma within_incl l l' q : incl l l' -> within l q -> within l' q.
Proof. intros I. apply within_trans. intros p Hp. apply within_in. auto. Qed.
Lemma within3 l a b c q u v w : In a l -> In b l -> In c l -> 0 <= u -> 0 <= v -> 0 <= w -> 0 < u + v + w ->
  u * fst a + v * fst b + w * fst c = (u + v + w) * fst q -> u * snd a + v * snd b + w * snd c = (u + v + w) * snd q -> within l q.
Proof.
  intros. exists (u + v + w). split; [lia|]. pose proof (wt_add l c w _ _ _ H1 H4 (wt_add l b v _ _ _ H0 H3 (wt_add l a u _ _ _ H H2 (wt_none l)))) as Q. rewrite <- H6, <- H7. exact Q.
Qed.

(** ** Points around the first one *)
Section First.
Variable F : pt.
Definition ord (a b : pt) : Prop := 0 <= R F a b /\ (R F a b = 0 -> dist2 F a <= dist2 F b).
(** products of vectors from F *)
Lemma half a b : lower F a -> lower F b -> R F a b = 0 -> 0 <= (fst a - fst F) * (fst b - fst F) + (snd a - snd F) * (snd b - snd F).
Proof.
  unfold lower, area2. destruct F as (fx, fy), a as (ax, ay), b as (bx, by_). cbn [fst snd]. intros A B H.
  set (x := ax - fx) in *. set (y := ay - fy) in *. set (z := bx - fx) in *. set (w := by_ - fy) in *.
  assert (A' : 0 < x \/ x = 0 /\ 0 <= y) by lia. assert (B' : 0 < z \/ z = 0 /\ 0 <= w) by lia. assert (H' : z * y - x * w = 0) by lia. clearbody x y z w. clear A B H.
  destruct A' as [A|(-> & A)], B' as [B|(-> & B)]; [|assert (w = 0) by nia; subst; lia|assert (y = 0) by nia; subst; lia|nia]. assert (0 <= x * (x * z + y * w)) by (replace (x * (x * z + y * w)) with (z * (x * x) + y * (x * w)) by ring; replace (x * w) with (z * y) by lia; nia). nia.
Qed.
Lemma on_ray a b : lower F a -> lower F b -> R F a b = 0 -> dist2 F a <= dist2 F b -> forall l, In F l -> In b l -> within l a.
Proof.
  intros A B H D l IF IB. pose proof (half a b A B H) as P.
  set (s := (fst a - fst F) * (fst b - fst F) + (snd a - snd F) * (snd b - snd F)) in *. destruct (Z.eq_dec (dist2 F b) 0) as [E|E].
  - assert (a = F). { unfold dist2 in *. destruct a, F. cbn [fst snd] in *. f_equal; nia. } subst. now apply within_in.
  - assert (BP : 0 < dist2 F b) by (unfold dist2 in *; nia). assert (K : s * s = dist2 F a * dist2 F b).
    { unfold s, dist2 in *. unfold area2 in H. destruct a as (ax, ay), b as (bx, by_), F as (fx, fy). cbn [fst snd] in *. replace ((fx - ax) ^ 2 + (fy - ay) ^ 2) with ((ax - fx) * (ax - fx) + (ay - fy) * (ay - fy)) by ring. replace ((fx - bx) ^ 2 + (fy - by_) ^ 2) with ((bx - fx) * (bx - fx) + (by_ - fy) * (by_ - fy)) by ring.
      set (x := ax - fx) in *. set (y := ay - fy) in *. set (z := bx - fx) in *. set (w := by_ - fy) in *. replace ((x * x + y * y) * (z * z + w * w)) with ((x * z + y * w) * (x * z + y * w) + (z * y - x * w) * (z * y - x * w)) by ring. rewrite H. ring. }
    assert (S1 : s <= dist2 F b) by (assert (s * s <= dist2 F b * dist2 F b) by (rewrite K; apply Z.mul_le_mono_nonneg_r; lia); nia).
    apply (within3 l F F b a (dist2 F b - s) 0 s); auto; try lia.
    + replace (dist2 F b - s + 0 + s) with (dist2 F b) by ring. unfold s, dist2, area2 in *. destruct a as (ax, ay), b as (bx, by_), F as (fx, fy). cbn [fst snd] in *. nia.
    + replace (dist2 F b - s + 0 + s) with (dist2 F b) by ring. unfold s, dist2, area2 in *. destruct a as (ax, ay), b as (bx, by_), F as (fx, fy). cbn [fst snd] in *. nia.
Qed.
(** a point that is kicked out is between the others *)
Lemma kicked s t p l : lower F t -> lower F p -> ord s t -> ord t p -> R s t p <= 0 -> In F l -> In s l -> In p l -> within l t.
Proof.
  intros Lt Lp (O1 & _) (O2 & O2') K IF Is Ip. destruct (Z.eq_dec (R F t p) 0) as [E|E]; [apply (on_ray t p); auto|].
  apply (within3 l F s p t (- R s t p) (R F t p) (R F s t)); auto; try lia; unfold area2 in *; destruct s as (sx, sy), t as (tx, ty), p as (px, py), F as (fx, fy); cbn [fst snd] in *; ring.
Qed.
(** a point behind another one on the ray from the first kicks it out *)
Lemma ray_turn s t p : lower F t -> lower F p -> 0 < R F s t -> R F t p = 0 -> dist2 F t <= dist2 F p -> R s t p <= 0.
Proof.
  intros Lt Lp H Z0 D. pose proof (half t p Lt Lp Z0) as P.
  destruct s as (sx, sy), t as (tx, ty), p as (px, py), F as (fx, fy). unfold lower, area2, dist2 in *. cbn [fst snd] in *.
  remember (tx - fx) as x. remember (ty - fy) as y. remember (px - fx) as z. remember (py - fy) as w. remember (sx - fx) as a. remember (sy - fy) as b.
  assert (H1 : 0 < x * b - a * y) by lia. assert (Z1 : z * y - x * w = 0) by lia. assert (P1 : 0 <= x * z + y * w) by lia. assert (D1 : x * x + y * y <= z * z + w * w) by (replace (fx - tx) with (- x) in D by lia; replace (fy - ty) with (- y) in D by lia; replace (fx - px) with (- z) in D by lia; replace (fy - py) with (- w) in D by lia; nia).
  assert (N : 0 < x * x + y * y) by (destruct (Z.eq_dec x 0), (Z.eq_dec y 0); subst; nia).
  (* p - t = lambda t with lambda >= 0: (x*x+y*y) (z,w) = (x z + y w) (x,y) *)
  assert (E1 : (x * x + y * y) * z = (x * z + y * w) * x) by (replace ((x * x + y * y) * z) with ((x * z + y * w) * x + y * (z * y - x * w)) by ring; rewrite Z1; ring). assert (E2 : (x * x + y * y) * w = (x * z + y * w) * y) by (replace ((x * x + y * y) * w) with ((x * z + y * w) * y - x * (z * y - x * w)) by ring; rewrite Z1; ring).
  assert (L : x * x + y * y <= x * z + y * w).
  { assert (Q : (x * z + y * w) * (x * z + y * w) = (x * x + y * y) * (z * z + w * w)) by (replace ((x * x + y * y) * (z * z + w * w)) with ((x * z + y * w) * (x * z + y * w) + (z * y - x * w) * (z * y - x * w)) by ring; rewrite Z1; ring). apply Z.square_le_simpl_nonneg; [lia|]. rewrite Q. apply Z.mul_le_mono_nonneg_l; lia. }
  replace ((px - sx) * (ty - sy) - (tx - sx) * (py - sy)) with ((z - a) * (y - b) - (x - a) * (w - b)) by (subst; ring).
  assert (G : (x * x + y * y) * ((z - a) * (y - b) - (x - a) * (w - b)) = (x * z + y * w - (x * x + y * y)) * (a * y - x * b)).
  { replace ((x * x + y * y) * ((z - a) * (y - b) - (x - a) * (w - b))) with (((x * x + y * y) * z) * (y - b) - (x - a) * ((x * x + y * y) * w) + (x * x + y * y) * (- a * y + a * b + (x - a) * b)) by ring. rewrite E1, E2. ring. }
  apply Z.le_ngt. intros C. assert (0 < (x * x + y * y) * ((z - a) * (y - b) - (x - a) * (w - b))) by (apply Z.mul_pos_pos; lia). assert ((x * z + y * w - (x * x + y * y)) * (a * y - x * b) <= 0) by (apply Z.mul_nonneg_nonpos; lia). lia.
Qed.
(** transitivity around the first point *)
Lemma turn_trans m t p : lower F m -> lower F t -> lower F p -> 0 < R F m t -> 0 < R F t p -> 0 < R F m p.
Proof.
  unfold lower, area2. destruct F as (fx, fy), m as (ax, ay), t as (bx, by_), p as (cx, cy). cbn [fst snd]. intros A B C. remember (ax - fx) as a. remember (ay - fy) as a'. remember (bx - fx) as b. remember (by_ - fy) as b'. remember (cx - fx) as c. remember (cy - fy) as c'.
  assert (A' : 0 < a \/ a = 0 /\ 0 <= a') by lia. assert (B' : 0 < b \/ b = 0 /\ 0 <= b') by lia. assert (C' : 0 < c \/ c = 0 /\ 0 <= c') by lia. clear A B C Heqa Heqb Heqc Heqa' Heqb' Heqc'. intros H1 H2.
  destruct A' as [A|(-> & A)], B' as [B|(-> & B)], C' as [C|(-> & C)]; try nia.
Qed.
Lemma turn_trans0 m t p : lower F m -> lower F t -> lower F p -> t <> F -> 0 <= R F m t -> 0 <= R F t p -> 0 <= R F m p /\ (R F m p = 0 -> R F m t = 0 /\ R F t p = 0 \/ m = F \/ p = F).
Proof.
  unfold lower, area2. destruct F as (fx, fy), m as (ax, ay), t as (bx, by_), p as (cx, cy). cbn [fst snd]. intros A B C N. remember (ax - fx) as a. remember (ay - fy) as a'. remember (bx - fx) as b. remember (by_ - fy) as b'. remember (cx - fx) as c. remember (cy - fy) as c'.
  assert (A' : 0 < a \/ a = 0 /\ 0 <= a') by lia. assert (B' : 0 < b \/ b = 0 /\ 0 < b'). { destruct B as [B|(B & B')]; [left; lia|]. right. split; [lia|]. assert (by_ <> fy) by (intros ->; apply N; f_equal; lia). lia. } assert (C' : 0 < c \/ c = 0 /\ 0 <= c') by lia. intros H1 H2.
  assert (X : b * (c * a' - a * c') = a * (c * b' - b * c') + c * (b * a' - a * b')) by ring. assert (Y : b' * (c * a' - a * c') = a' * (c * b' - b * c') + c' * (b * a' - a * b')) by ring.
  destruct B' as [B'|(-> & B')].
  - split; [nia|]. intros E. rewrite E in X. destruct A' as [A'|(A0 & A')], C' as [C'|(C0 & C')].
    + left. nia.
    + destruct (Z.eq_dec c' 0); [right; right; f_equal; lia|]. left. nia.
    + destruct (Z.eq_dec a' 0); [right; left; f_equal; lia|]. left. nia.
    + destruct (Z.eq_dec a' 0); [right; left; f_equal; lia|]. destruct (Z.eq_dec c' 0); [right; right; f_equal; lia|]. subst. left. nia.
  - assert (a = 0) by nia. assert (a' >= 0) by lia. split; [nia|]. intros E. destruct (Z.eq_dec a' 0); [right; left; f_equal; lia|]. assert (c = 0) by nia. left. nia.
Qed.
End First.

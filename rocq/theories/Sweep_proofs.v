(** Proofs about the first phase of the sweep: sums over the edges, and measures that add up along a line *)
From Coq Require Import ZArith NArith List Bool Lia Arith ZifyBool.
From Verif Require Import Matq_spec Reduce_model Reduce_spec Sweep_model Sweep_spec.
Import ListNotations.
Open Scope Z_scope.

Definition additive (g : Z * Z -> Z * Z -> bool) : Prop := forall l x r,
  cross3_z x r l = 0 -> lex_lt l x -> lex_lt x r -> g l r = xorb (g l x) (g x r).
Definition by_ends (g : Z * Z -> Z * Z -> bool) (e : edge) : bool := g (left e) (rigt e).
Definition term (f : edge -> bool) (o : option edge) : N := match o with Some e => if f e then member e else 0%N | None => 0%N end.
Definition tot (f : edge -> bool) (E : nat -> option edge) (n : nat) : N := xor_all (map (fun i => term f (E i)) (seq 0 n)).

Lemma xor_app : forall a b, xor_all (a ++ b) = N.lxor (xor_all a) (xor_all b).
Proof. induction a as [|x a IH]; intros b; simpl; [reflexivity|]. rewrite IH. symmetry. apply N.lxor_assoc. Qed.
Lemma odd_tot : forall f d, odd_members f (edge_list d) = tot f (edges d) (count d).
Proof.
  intros f d. unfold odd_members, edge_list, tot. induction (seq 0 (count d)) as [|i l IH]; [reflexivity|].
  simpl. rewrite filter_app, map_app, xor_app, IH. f_equal. destruct (edges d i) as [e|]; [|reflexivity].
  simpl. destruct (f e); simpl; [apply N.lxor_0_r|reflexivity].
Qed.
Lemma tot_S : forall f E n, tot f E (S n) = N.lxor (tot f E n) (term f (E n)).
Proof. intros. unfold tot. rewrite seq_S, map_app, xor_app. simpl. rewrite N.lxor_0_r. reflexivity. Qed.
Lemma tot_out : forall f E n i x, (n <= i)%nat -> tot f (fupd E i x) n = tot f E n.
Proof.
  intros f E n i x H. induction n as [|n IH]; [reflexivity|]. rewrite !tot_S, IH by lia. unfold fupd.
  destruct (Nat.eqb_spec n i); [lia|reflexivity].
Qed.
Ltac xor_solve := apply N.bits_inj; intros ?b; rewrite ?N.lxor_spec, ?N.bits_0;
  repeat match goal with |- context [N.testbit ?a ?b] => destruct (N.testbit a b) end; reflexivity.
Lemma tot_upd : forall f E n i x, (i < n)%nat -> tot f (fupd E i x) n = N.lxor (tot f E n) (N.lxor (term f (E i)) (term f x)).
Proof.
  intros f E n i x H. induction n as [|n IH]; [lia|]. rewrite !tot_S. unfold fupd at 2. destruct (Nat.eqb_spec n i) as [->|N].
  - rewrite tot_out by lia. generalize (tot f E i), (term f (E i)), (term f x). intros a b c. xor_solve.
  - rewrite IH by lia. generalize (tot f E n), (term f (E i)), (term f x), (term f (E n)). intros a b c t. xor_solve.
Qed.
Lemma tot_new : forall f E n x, tot f (fupd E n x) (S n) = N.lxor (tot f E n) (term f x).
Proof. intros. rewrite tot_S, tot_out by lia. unfold fupd. rewrite Nat.eqb_refl. reflexivity. Qed.

(** ** The three measures *)
Lemma lt_irr : forall a : Z * Z, ~ lex_lt a a. Proof. intros a [H|H]; lia. Qed.
Lemma lt_tr : forall a b c : Z * Z, lex_lt a b -> lex_lt b c -> lex_lt a c.
Proof. unfold lex_lt. intros. lia. Qed.
Lemma leb_iff : forall a b, lex_leb a b = true <-> lex_le a b.
Proof. intros. unfold lex_leb, lex_le. lia. Qed.
Lemma ltb_iff : forall a b, lex_ltb a b = true <-> lex_lt a b.
Proof. intros. unfold lex_ltb, lex_lt. lia. Qed.
Lemma ltb_leb : forall a b, lex_ltb a b = negb (lex_leb b a).
Proof. intros. unfold lex_ltb, lex_leb. lia. Qed.
Lemma scale_lt : forall d a b, 0 < d -> lex_lt a b -> lex_lt (scale d a) (scale d b).
Proof. intros d [a1 a2] [b1 b2] D. unfold lex_lt, scale. simpl. nia. Qed.

Section Line.
Variables (l x r : Z * Z) (p : point).
Hypothesis HC : cross3_z x r l = 0.
Hypothesis H1 : lex_lt l x.
Hypothesis H2 : lex_lt x r.
Hypothesis HD : 0 < pd p.

(** heights over the parts are those over the whole, scaled *)
Lemma cross0 : (fst x - fst l) * (snd r - snd l) = (snd x - snd l) * (fst r - fst l).
Proof. unfold cross3_z in HC. lia. Qed.
Lemma h_left : (fst x - fst l) * height p (mk_edge l r 0) = (fst r - fst l) * height p (mk_edge l x 0).
Proof.
  pose proof cross0. unfold height. cbn [left rigt].
  assert ((fst x - fst l) * (snd r - snd l) * (px p - pd p * fst l) = (snd x - snd l) * (fst r - fst l) * (px p - pd p * fst l)) by (rewrite H; ring). lia.
Qed.
Lemma h_left_y : (snd x - snd l) * height p (mk_edge l r 0) = (snd r - snd l) * height p (mk_edge l x 0).
Proof.
  pose proof cross0. unfold height. cbn [left rigt].
  assert ((fst x - fst l) * (snd r - snd l) * (py p - pd p * snd l) = (snd x - snd l) * (fst r - fst l) * (py p - pd p * snd l)) by (rewrite H; ring). lia.
Qed.
Lemma h_sum : height p (mk_edge l r 0) = height p (mk_edge l x 0) + height p (mk_edge x r 0).
Proof. unfold height. cbn [left rigt]. unfold cross3_z in HC. nia. Qed.
Lemma h_rigt : (fst r - fst x) * height p (mk_edge l r 0) = (fst r - fst l) * height p (mk_edge x r 0).
Proof. pose proof h_sum. pose proof h_left. nia. Qed.
Lemma h_rigt_y : (snd r - snd x) * height p (mk_edge l r 0) = (snd r - snd l) * height p (mk_edge x r 0).
Proof. pose proof h_sum. pose proof h_left_y. nia. Qed.
Lemma same_x : fst l <= fst x <= fst r /\ (fst l = fst x <-> fst x = fst r) /\ (fst l = fst x -> snd l < snd x < snd r).
Proof. pose proof cross0. unfold lex_lt in *. destruct l as [a b], x as [c d], r as [e f]. simpl in *. nia. Qed.
Lemma h_zero : height p (mk_edge l r 0) = 0 <-> height p (mk_edge l x 0) = 0.
Proof.
  destruct same_x as (A & B & C). pose proof h_left as Q. pose proof h_left_y as Q2.
  destruct (Z.eq_dec (fst l) (fst x)) as [V|V].
  - specialize (C V). generalize dependent (height p (mk_edge l r 0)). generalize dependent (height p (mk_edge l x 0)). clear - C. intros. nia.
  - assert (fst x < fst r) by lia. assert (fst l < fst x) by lia. clear - Q H H0.
    generalize dependent (height p (mk_edge l r 0)). generalize dependent (height p (mk_edge l x 0)). intros. nia.
Qed.
Lemma h_zero_r : height p (mk_edge l r 0) = 0 <-> height p (mk_edge x r 0) = 0.
Proof.
  destruct same_x as (A & B & C). pose proof h_rigt as Q. pose proof h_rigt_y as Q2.
  destruct (Z.eq_dec (fst l) (fst x)) as [V|V].
  - specialize (C V). generalize dependent (height p (mk_edge l r 0)). generalize dependent (height p (mk_edge x r 0)). clear - C. intros. nia.
  - assert (fst x < fst r) by lia. assert (fst l < fst x) by lia. clear - Q H H0.
    generalize dependent (height p (mk_edge l r 0)). generalize dependent (height p (mk_edge x r 0)). intros. nia.
Qed.
Lemma h_pos : fst l <> fst x -> (0 < height p (mk_edge l r 0) <-> 0 < height p (mk_edge l x 0)) /\ (0 < height p (mk_edge l r 0) <-> 0 < height p (mk_edge x r 0)).
Proof.
  intros V. destruct same_x as (A & B & C). pose proof h_left as Q. pose proof h_rigt as Q2.
  assert (fst x < fst r) by lia. assert (fst l < fst x) by lia.
  set (a := height p (mk_edge l r 0)) in *. set (b := height p (mk_edge l x 0)) in *. set (c := height p (mk_edge x r 0)) in *. clearbody a b c.
  clear - Q Q2 H H0. split; nia.
Qed.
End Line.

Definition g_half (p : point) (l r : Z * Z) : bool := on_half p (mk_edge l r 0).
Definition g_beneath (p : point) (l r : Z * Z) : bool := beneath p (mk_edge l r 0).
Definition g_ends (x : Z * Z) (l r : Z * Z) : bool := ends_at x (mk_edge l r 0).
Lemma half_add : forall p, 0 < pd p -> additive (g_half p).
Proof.
  intros p D l x r C L R. unfold g_half, on_half. cbn [left rigt].
  pose proof (h_zero l x r p C L R). pose proof (h_zero_r l x r p C L R).
  destruct (Z.eqb_spec (height p (mk_edge l r 0)) 0) as [Z0|Z0].
  - assert (Q1 : (height p (mk_edge l x 0) =? 0) = true) by (apply Z.eqb_eq; tauto).
    assert (Q2 : (height p (mk_edge x r 0) =? 0) = true) by (apply Z.eqb_eq; tauto).
    rewrite Q1, Q2. cbn [andb]. rewrite !ltb_leb.
    pose proof (scale_lt (pd p) l x D L) as SL. pose proof (scale_lt (pd p) x r D R) as SR.
    generalize dependent (scale (pd p) l). generalize dependent (scale (pd p) x). generalize dependent (scale (pd p) r). generalize (pt p). clear.
    intros q r x SR l SL.
    destruct (lex_leb l q) eqn:A, (lex_leb x q) eqn:B, (lex_leb r q) eqn:C; try reflexivity; exfalso; unfold lex_leb, lex_lt in *; lia.
  - assert (Q1 : (height p (mk_edge l x 0) =? 0) = false) by (apply Z.eqb_neq; tauto).
    assert (Q2 : (height p (mk_edge x r 0) =? 0) = false) by (apply Z.eqb_neq; tauto).
    rewrite Q1, Q2. reflexivity.
Qed.
Lemma beneath_add : forall p, 0 < pd p -> additive (g_beneath p).
Proof.
  intros p D l x r C L R. unfold g_beneath, beneath. cbn [left rigt].
  pose proof (h_pos l x r p C L R) as HP. destruct (same_x l x r C L R) as (A & B & _).
  destruct (Z.eq_dec (fst l) (fst x)) as [V|V].
  - assert (Q : fst x = fst r) by tauto. rewrite V, Q. clear. destruct (Z.leb_spec (pd p * fst r) (px p)), (Z.ltb_spec (px p) (pd p * fst r)); try lia; reflexivity.
  - destruct (HP D V) as (P1 & P2). assert (Q1 : (0 <? height p (mk_edge l x 0)) = (0 <? height p (mk_edge l r 0))) by lia.
    assert (Q2 : (0 <? height p (mk_edge x r 0)) = (0 <? height p (mk_edge l r 0))) by lia. rewrite Q1, Q2.
    assert (X1 : pd p * fst l < pd p * fst x) by (apply Z.mul_lt_mono_pos_l; lia). assert (X2 : pd p * fst x < pd p * fst r) by (apply Z.mul_lt_mono_pos_l; lia).
    destruct (0 <? height p (mk_edge l r 0)); rewrite ?andb_true_r, ?andb_false_r; [|reflexivity]. lia.
Qed.
Lemma ends_add : forall y, additive (g_ends y).
Proof.
  intros y l x r _ _ _. unfold g_ends, ends_at. cbn [left rigt]. destruct (same y l), (same y x), (same y r); reflexivity.
Qed.

(** ** What is to be shown for an operation *)
Definition same_tot (d d' : sdata) : Prop := forall g, additive g -> tot (by_ends g) (edges d') (count d') = tot (by_ends g) (edges d) (count d).
Lemma same_tot_cover : forall d d', same_tot d d' -> same_cover (edge_list d') (edge_list d).
Proof.
  intros d d' H. split; [|split].
  - intros p D. rewrite !odd_tot. exact (H (g_half p) (half_add p D)).
  - intros p D. rewrite !odd_tot. exact (H (g_beneath p) (beneath_add p D)).
  - intros x. rewrite !odd_tot. exact (H (g_ends x) (ends_add x)).
Qed.

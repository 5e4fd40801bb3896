From Coq Require Import ZArith QArith Bool Lia Lqa ZifyBool.
From Verif Require Import Matq_model Matq_spec Matq_proofs Matq_proofs2 Matq_proofs3 Matq_proofs4.
Local Open Scope Z_scope.

(** ** A line and a rounding cell.  The cell's centre is the origin, the line is
    bb + a*dy - b*dx = 0. *)
Local Open Scope Q_scope.

Lemma div_bounds p q lo hi : 0 < q -> lo * q <= p -> p < hi * q -> lo <= p / q /\ p / q < hi.
Proof.
  intros Q A B. split; [now apply Qle_shift_div_l|now apply Qlt_shift_div_r].
Qed.

Lemma cell_line (bb dx dy : Q) : dx < 0 ->
  (2 * bb - dy + dx <= 0 \/ 2 * bb + dy + dx < 0) ->
  (0 < 2 * bb - dy - dx \/ 0 < 2 * bb + dy - dx) ->
  exists a b, -(1 # 2) <= a /\ a < 1 # 2 /\ -(1 # 2) <= b /\ b < 1 # 2 /\ bb + a * dy - b * dx == 0.
Proof.
  intros DX B T.
  destruct (Qlt_le_dec 0 (2 * bb - dy + dx)) as [BL|BL].
  - (* bottom left positive *)
    assert (BR : 2 * bb + dy + dx < 0) by (destruct B; [lra|assumption]).
    exists ((bb + (1 # 2) * dx) / - dy), (- (1 # 2)).
    destruct (div_bounds (bb + (1 # 2) * dx) (- dy) (- (1 # 2)) (1 # 2)); try lra.
    repeat split; try lra. field. intro. lra.
  - destruct (Qlt_le_dec 0 (2 * bb - dy - dx)) as [TL|TL].
    + exists (- (1 # 2)), (((1 # 2) * dy - bb) / - dx).
      destruct (div_bounds ((1 # 2) * dy - bb) (- dx) (- (1 # 2)) (1 # 2)); try lra.
      repeat split; try lra. field. intro. lra.
    + assert (TR : 0 < 2 * bb + dy - dx) by (destruct T; [lra|assumption]).
      destruct (Qlt_le_dec 0 (2 * bb + dy + dx)) as [BR|BR].
      * exists ((- (1 # 2) * dx - bb) / dy), (- (1 # 2)).
        destruct (div_bounds (- (1 # 2) * dx - bb) dy (- (1 # 2)) (1 # 2)); try lra.
        repeat split; try lra. field. intro. lra.
      * set (bR := (- (1 # 2) * dy - bb) / - dx).
        destruct (div_bounds (- (1 # 2) * dy - bb) (- dx) (- (1 # 2)) (1 # 2)) as [H1 H2]; try lra.
        fold bR in H1, H2.
        assert (E : bR * - dx == - (1 # 2) * dy - bb) by (unfold bR; field; intro; lra).
        set (b := (1 # 2) * (bR + (1 # 2))).
        assert (Eb : 2 * b == bR + (1 # 2)) by (unfold b; ring).
        assert (P1 : 0 < (b - bR) * - dx) by (apply Qmult_lt_0_compat; lra).
        assert (P2 : 0 < ((1 # 2) - b) * - dx) by (apply Qmult_lt_0_compat; lra).
        exists ((b * dx - bb) / dy), b.
        destruct (div_bounds (b * dx - bb) dy (- (1 # 2)) (1 # 2)) as [H3 H4]; try lra.
        repeat split; try lra. field. intro. lra.
Qed.

Lemma no_cross_pos (bb dx dy a b : Q) : dx <= 0 ->
  0 < 2 * bb - dy + dx -> 0 <= 2 * bb + dy + dx ->
  -(1 # 2) <= a -> a < 1 # 2 -> -(1 # 2) <= b -> b < 1 # 2 -> ~ bb + a * dy - b * dx == 0.
Proof.
  intros DX BL BR A1 A2 B1 B2 E.
  assert (P1 : 0 < ((1 # 2) - a) * (2 * bb - dy + dx)) by (apply Qmult_lt_0_compat; lra).
  assert (P2 : 0 <= (a + (1 # 2)) * (2 * bb + dy + dx)) by (apply Qmult_le_0_compat; lra).
  assert (P3 : 0 <= (b + (1 # 2)) * - dx) by (apply Qmult_le_0_compat; lra).
  lra.
Qed.

Lemma no_cross_neg (bb dx dy a b : Q) : dx < 0 ->
  2 * bb - dy - dx <= 0 -> 2 * bb + dy - dx <= 0 ->
  -(1 # 2) <= a -> a < 1 # 2 -> -(1 # 2) <= b -> b < 1 # 2 -> ~ bb + a * dy - b * dx == 0.
Proof.
  intros DX TL TR A1 A2 B1 B2 E.
  assert (P1 : 0 <= ((1 # 2) - a) * - (2 * bb - dy - dx)) by (apply Qmult_le_0_compat; lra).
  assert (P2 : 0 <= (a + (1 # 2)) * - (2 * bb + dy - dx)) by (apply Qmult_le_0_compat; lra).
  assert (P3 : 0 < ((1 # 2) - b) * - dx) by (apply Qmult_lt_0_compat; lra).
  lra.
Qed.

(** far away *)
Lemma no_cross_far (bb dx dy a b : Q) : dx <= 0 ->
  dy - dx < 2 * bb -> - dy - dx < 2 * bb ->
  -(1 # 2) <= a -> a < 1 # 2 -> -(1 # 2) <= b -> b < 1 # 2 -> ~ bb + a * dy - b * dx == 0.
Proof. intros. apply no_cross_pos; lra. Qed.
Lemma no_cross_far' (bb dx dy a b : Q) : dx <= 0 ->
  2 * bb < dy + dx -> 2 * bb < - dy + dx ->
  -(1 # 2) <= a -> a < 1 # 2 -> -(1 # 2) <= b -> b < 1 # 2 -> ~ bb + a * dy - b * dx == 0.
Proof.
  intros DX TL TR A1 A2 B1 B2 E.
  assert (P1 : 0 < ((1 # 2) - a) * - (2 * bb - dy - dx)) by (apply Qmult_lt_0_compat; lra).
  assert (P2 : 0 <= (a + (1 # 2)) * - (2 * bb + dy - dx)) by (apply Qmult_le_0_compat; lra).
  assert (P3 : 0 <= ((1 # 2) - b) * - dx) by (apply Qmult_le_0_compat; lra).
  lra.
Qed.

Local Open Scope Z_scope.

(** ** from integers *)
Lemma iZ_le a b : (a <= b)%Z -> (iZ a <= iZ b)%Q.
Proof. intros. now rewrite <- Zle_Qle. Qed.
Lemma iZ_lt a b : (a < b)%Z -> (iZ a < iZ b)%Q.
Proof. intros. now rewrite <- Zlt_Qlt. Qed.
Ltac izs := rewrite ?inject_Z_plus, ?iZ_sub, ?inject_Z_opp, ?inject_Z_mult.
Ltac izin H := rewrite ?inject_Z_plus, ?iZ_sub, ?inject_Z_opp, ?inject_Z_mult in H.

Definition bbz (v l k : vec2) : Z :=
  (fst v - fst l) * (snd k - snd l) - (snd v - snd l) * (fst k - fst l).
Definition crosses (v l k : vec2) : Prop :=
  exists x y, on_segment x y k l /\ in_cell x y (fst v) (snd v).

Section Edge.
Variables v l k : vec2.
Notation bb := (bbz v l k).
Notation dx := (fst k - fst l).
Notation dy := (snd k - snd l).

(** a crossing gives an offset where the line function vanishes *)
Lemma crosses_offset : crosses v l k ->
  exists a b : Q, (-(1 # 2) <= a /\ a < 1 # 2 /\ -(1 # 2) <= b /\ b < 1 # 2 /\
    iZ bb + a * iZ dy - b * iZ dx == 0)%Q.
Proof.
  intros (x & y & (t & T & X & Y) & C1 & C2 & C3 & C4).
  exists (x - iZ (fst v))%Q, (y - iZ (snd v))%Q. repeat split; try lra.
  unfold bbz. rewrite !iZ_sub, !inject_Z_mult, !iZ_sub, X, Y. ring.
Qed.

Lemma crosses_x : crosses v l k -> ~ (fst v < fst l /\ fst v < fst k) /\ ~ (fst l < fst v /\ fst k < fst v).
Proof.
  intros (x & y & (t & T & X & Y) & C1 & C2 & C3 & C4).
  split; intros [A B].
  - assert (A' : (iZ (fst v + 1) <= iZ (fst l))%Q) by (apply iZ_le; lia).
    assert (B' : (iZ (fst v + 1) <= iZ (fst k))%Q) by (apply iZ_le; lia).
    rewrite inject_Z_plus in A', B'. change (iZ 1) with 1%Q in *.
    assert (P1 : (0 <= t * (iZ (fst l) - iZ (fst v) - 1))%Q) by (apply Qmult_le_0_compat; lra).
    assert (P2 : (0 <= (1 - t) * (iZ (fst k) - iZ (fst v) - 1))%Q) by (apply Qmult_le_0_compat; lra).
    lra.
  - assert (A' : (iZ (fst l + 1) <= iZ (fst v))%Q) by (apply iZ_le; lia).
    assert (B' : (iZ (fst k + 1) <= iZ (fst v))%Q) by (apply iZ_le; lia).
    rewrite inject_Z_plus in A', B'. change (iZ 1) with 1%Q in *.
    assert (P1 : (0 <= t * (iZ (fst v) - iZ (fst l) - 1))%Q) by (apply Qmult_le_0_compat; lra).
    assert (P2 : (0 <= (1 - t) * (iZ (fst v) - iZ (fst k) - 1))%Q) by (apply Qmult_le_0_compat; lra).
    lra.
Qed.
Lemma crosses_y : crosses v l k -> ~ (snd v < snd l /\ snd v < snd k) /\ ~ (snd l < snd v /\ snd k < snd v).
Proof.
  intros (x & y & (t & T & X & Y) & C1 & C2 & C3 & C4).
  split; intros [A B].
  - assert (A' : (iZ (snd v + 1) <= iZ (snd l))%Q) by (apply iZ_le; lia).
    assert (B' : (iZ (snd v + 1) <= iZ (snd k))%Q) by (apply iZ_le; lia).
    rewrite inject_Z_plus in A', B'. change (iZ 1) with 1%Q in *.
    assert (P1 : (0 <= t * (iZ (snd l) - iZ (snd v) - 1))%Q) by (apply Qmult_le_0_compat; lra).
    assert (P2 : (0 <= (1 - t) * (iZ (snd k) - iZ (snd v) - 1))%Q) by (apply Qmult_le_0_compat; lra).
    lra.
  - assert (A' : (iZ (snd l + 1) <= iZ (snd v))%Q) by (apply iZ_le; lia).
    assert (B' : (iZ (snd k + 1) <= iZ (snd v))%Q) by (apply iZ_le; lia).
    rewrite inject_Z_plus in A', B'. change (iZ 1) with 1%Q in *.
    assert (P1 : (0 <= t * (iZ (snd v) - iZ (snd l) - 1))%Q) by (apply Qmult_le_0_compat; lra).
    assert (P2 : (0 <= (1 - t) * (iZ (snd v) - iZ (snd k) - 1))%Q) by (apply Qmult_le_0_compat; lra).
    lra.
Qed.

(** a grid point on the segment crosses *)
Lemma crosses_k : v = k -> crosses v l k.
Proof.
  intros ->. exists (iZ (fst k)), (iZ (snd k)). split.
  - exists 0%Q. split; [lra|]. split; ring.
  - unfold in_cell. lra.
Qed.
Lemma crosses_l : v = l -> crosses v l k.
Proof.
  intros ->. exists (iZ (fst l)), (iZ (snd l)). split.
  - exists 1%Q. split; [lra|]. split; ring.
  - unfold in_cell. lra.
Qed.

(** integer in half open cell around an integer *)
Lemma int_cell (a c : Z) (p : Q) : (iZ c - (1 # 2) <= p)%Q -> (p < iZ c + (1 # 2))%Q ->
  ((p <= iZ a)%Q /\ a <= c) \/ ((iZ a <= p)%Q /\ c <= a) -> a = c.
Proof.
  intros A B [[C D]|[C D]].
  - assert (~ a < c); [|lia]. intros L.
    assert (iZ (a + 1) <= iZ c)%Q by (apply iZ_le; lia).
    rewrite inject_Z_plus in H. change (iZ 1) with 1%Q in *. lra.
  - assert (~ c < a); [|lia]. intros L.
    assert (iZ (c + 1) <= iZ a)%Q by (apply iZ_le; lia).
    rewrite inject_Z_plus in H. change (iZ 1) with 1%Q in *. lra.
Qed.

Hypothesis Ord : fst k <= fst l.
(** v in the bounding box of the edge *)
Hypothesis Bx : fst k <= fst v <= fst l.
Hypothesis By : (snd k <= snd v <= snd l) \/ (snd l <= snd v <= snd k).

Lemma offset_crosses a b : dx <> 0 -> (-(1 # 2) <= a)%Q -> (a < 1 # 2)%Q -> (-(1 # 2) <= b)%Q -> (b < 1 # 2)%Q ->
  (iZ bb + a * iZ dy - b * iZ dx == 0)%Q -> crosses v l k.
Proof.
  intros DX A1 A2 B1 B2 E.
  assert (DN : (iZ (fst k) - iZ (fst l) < 0)%Q).
  { rewrite <- iZ_sub. change 0%Q with (iZ 0). apply iZ_lt. lia. }
  set (x := (iZ (fst v) + a)%Q). set (y := (iZ (snd v) + b)%Q).
  set (t := ((x - iZ (fst k)) / (iZ (fst l) - iZ (fst k)))%Q).
  assert (X : (x == iZ (fst k) + t * (iZ (fst l) - iZ (fst k)))%Q).
  { unfold t. field. intro. lra. }
  assert (Y : (y == iZ (snd k) + t * (iZ (snd l) - iZ (snd k)))%Q).
  { unfold bbz in E. rewrite !iZ_sub, !inject_Z_mult, !iZ_sub in E.
    assert (F : ((y - iZ (snd k)) * (iZ (fst l) - iZ (fst k)) ==
                 (x - iZ (fst k)) * (iZ (snd l) - iZ (snd k)))%Q).
    { unfold x, y. lra. }
    unfold t. apply (Qmult_inj_r _ _ (iZ (fst l) - iZ (fst k))%Q); [intro; lra|].
    assert (G : ((iZ (snd k) + (x - iZ (fst k)) / (iZ (fst l) - iZ (fst k)) * (iZ (snd l) - iZ (snd k))) * (iZ (fst l) - iZ (fst k)) == iZ (snd k) * (iZ (fst l) - iZ (fst k)) + (x - iZ (fst k)) * (iZ (snd l) - iZ (snd k)))%Q).
    { field. intro. lra. }
    rewrite G, <- F. ring. }
  assert (CX : (iZ (fst v) - (1 # 2) <= x)%Q /\ (x < iZ (fst v) + (1 # 2))%Q) by (unfold x; lra).
  assert (CY : (iZ (snd v) - (1 # 2) <= y)%Q /\ (y < iZ (snd v) + (1 # 2))%Q) by (unfold y; lra).
  clearbody x y t. clear E.
  destruct (Qlt_le_dec t 0) as [T0|T0].
  { (* before k *)
    assert (P : (0 < - t * (iZ (fst l) - iZ (fst k)))%Q) by (apply Qmult_lt_0_compat; lra).
    apply crosses_k. rewrite (surjective_pairing v), (surjective_pairing k). f_equal; symmetry.
    - apply (int_cell _ _ x); [tauto|tauto|]. left. split; [lra|lia].
    - apply (int_cell _ _ y); [tauto|tauto|]. destruct By as [Y1|Y1].
      + left. split; [|lia].
        assert (L : (iZ (snd k) <= iZ (snd l))%Q) by (apply iZ_le; lia).
        assert (P' : (0 <= - t * (iZ (snd l) - iZ (snd k)))%Q) by (apply Qmult_le_0_compat; lra). lra.
      + right. split; [|lia].
        assert (L : (iZ (snd l) <= iZ (snd k))%Q) by (apply iZ_le; lia).
        assert (P' : (0 <= - t * (iZ (snd k) - iZ (snd l)))%Q) by (apply Qmult_le_0_compat; lra). lra. }
  destruct (Qlt_le_dec 1 t) as [T1|T1].
  { (* behind l *)
    assert (P : (0 < (t - 1) * (iZ (fst l) - iZ (fst k)))%Q) by (apply Qmult_lt_0_compat; lra).
    apply crosses_l. rewrite (surjective_pairing v), (surjective_pairing l). f_equal; symmetry.
    - apply (int_cell _ _ x); [tauto|tauto|]. right. split; [lra|lia].
    - apply (int_cell _ _ y); [tauto|tauto|]. destruct By as [Y1|Y1].
      + right. split; [|lia].
        assert (L : (iZ (snd k) <= iZ (snd l))%Q) by (apply iZ_le; lia).
        assert (P' : (0 <= (t - 1) * (iZ (snd l) - iZ (snd k)))%Q) by (apply Qmult_le_0_compat; lra). lra.
      + left. split; [|lia].
        assert (L : (iZ (snd l) <= iZ (snd k))%Q) by (apply iZ_le; lia).
        assert (P' : (0 <= (t - 1) * (iZ (snd k) - iZ (snd l)))%Q) by (apply Qmult_le_0_compat; lra). lra. }
  exists x, y. split; [|unfold in_cell; tauto].
  exists t. split; [split; assumption|]. split; assumption.
Qed.

Lemma vertical_crosses : dx = 0 -> k <> l -> crosses v l k.
Proof.
  intros DX N.
  assert (DY : dy <> 0).
  { intros H. apply N. rewrite (surjective_pairing k), (surjective_pairing l). f_equal; lia. }
  assert (VX : fst v = fst k) by lia.
  exists (iZ (fst v)), (iZ (snd v)). split; [|unfold in_cell; lra].
  set (d := snd l - snd k). set (n := snd v - snd k).
  assert (D0 : ~ (iZ (snd l) - iZ (snd k) == 0)%Q) by (rewrite <- iZ_sub; apply iZ_nz; lia).
  exists ((iZ (snd v) - iZ (snd k)) / (iZ (snd l) - iZ (snd k)))%Q. split; [|split].
  - destruct By as [Y1|Y1].
    + assert ((0 <= iZ (snd v) - iZ (snd k))%Q /\ (iZ (snd v) <= iZ (snd l))%Q /\ (0 < iZ (snd l) - iZ (snd k))%Q).
      { rewrite <- !iZ_sub. change 0%Q with (iZ 0). split; [apply iZ_le; lia|]. split; [apply iZ_le; lia|apply iZ_lt; lia]. }
      split; [apply Qle_shift_div_l|apply Qle_shift_div_r]; lra.
    + assert ((0 <= iZ (snd k) - iZ (snd v))%Q /\ (iZ (snd l) <= iZ (snd v))%Q /\ (0 < iZ (snd k) - iZ (snd l))%Q).
      { rewrite <- !iZ_sub. change 0%Q with (iZ 0). split; [apply iZ_le; lia|]. split; [apply iZ_le; lia|apply iZ_lt; lia]. }
      assert (E : ((iZ (snd v) - iZ (snd k)) / (iZ (snd l) - iZ (snd k)) == (iZ (snd k) - iZ (snd v)) / (iZ (snd k) - iZ (snd l)))%Q).
      { field. split; intro; lra. }
      rewrite E. split; [apply Qle_shift_div_l|apply Qle_shift_div_r]; lra.
  - rewrite VX. assert (E : (iZ (fst l) - iZ (fst k) == 0)%Q) by (rewrite <- iZ_sub; replace (fst l - fst k) with 0 by lia; reflexivity).
    rewrite E. ring.
  - field. exact D0.
Qed.

End Edge.

Lemma cp_sign_pos x : 0 < x -> cp_sign x = 1.
Proof. unfold cp_sign, cp_cmp, b2z. destruct (Z.ltb_spec x 0), (Z.ltb_spec 0 x); lia. Qed.
Lemma cp_sign_neg x : x < 0 -> cp_sign x = -1.
Proof. unfold cp_sign, cp_cmp, b2z. destruct (Z.ltb_spec x 0), (Z.ltb_spec 0 x); lia. Qed.

(** the parts of the specification, by case *)
Lemma spec_out v l k r : ~ crosses v l k -> r <> 0 ->
  (0 < bbz v l k -> r = 1) -> (bbz v l k < 0 -> r = -1) ->
  (bbz v l k = 0 -> fst v < fst k \/ (fst k = fst l /\ snd v < Z.min (snd k) (snd l)) -> r = -1) ->
  (bbz v l k = 0 -> fst l < fst v \/ (fst k = fst l /\ Z.max (snd k) (snd l) < snd v) -> r = 1) ->
  edge_rnd_spec v l k r.
Proof.
  intros N R P M Z1 Z2. unfold edge_rnd_spec. fold (bbz v l k). fold (crosses v l k).
  split; [tauto|]. split; [intros; apply P; lia|]. split; [intros; apply M; lia|]. split; auto.
Qed.
Lemma spec_in v l k : crosses v l k -> edge_rnd_spec v l k 0.
Proof. intros C. unfold edge_rnd_spec. fold (crosses v l k). tauto. Qed.

Lemma sat_ret A (a : A) rng (Q : A -> Prop) : Q a -> sat (Ok a) rng Q.
Proof. auto. Qed.

Lemma edge_rnd_sat v l k : vec_int v -> vec_int l -> vec_int k -> k <> l -> fst k <= fst l ->
  sat (cmp_edge_rnd (fst v) (snd v) (fst l) (snd l) (fst k) (snd k))
      (vec_range v /\ vec_range l /\ vec_range k) (edge_rnd_spec v l k).
Proof.
  intros IV IL IK NE O. set (rng := _ /\ _).
  assert (RD : rng -> Z.abs (fst v - fst l) <= 2147483646 /\ Z.abs (snd v - snd l) <= 2147483646 /\
                      Z.abs (fst k - fst l) <= 2147483646 /\ Z.abs (snd k - snd l) <= 2147483646).
  { unfold rng, vec_range, in_range. change (2 ^ 30) with 1073741824. intros G. lia. }
  assert (RI : rng -> is_int (fst v - fst l) /\ is_int (snd v - snd l) /\ is_int (fst k - fst l) /\ is_int (snd k - snd l)).
  { intros G. apply RD in G. unfold is_int. lia. }
  unfold cmp_edge_rnd, right_cross3_z, dim_sub.
  apply sat_bind. apply sat_bind, sat_ck32; [tauto|intros I1]. apply sat_bind, sat_ck32; [tauto|intros I2].
  apply sat_bind, sat_ck32; [tauto|intros I3]. apply sat_bind, sat_ck32; [tauto|intros I4].
  apply cross_z_sat; [tauto|]. intros IB. fold (bbz v l k) in *.
  assert (DXQ : (iZ (fst k - fst l) <= 0)%Q) by (change 0%Q with (iZ 0); apply iZ_le; lia).
  assert (VB : bbz v l k = 0 -> fst k = fst l -> fst v = fst l).
  { intros B E. unfold bbz in B. rewrite E, Z.sub_diag, Z.mul_0_r, Z.sub_0_r in B.
    apply Z.mul_eq_0 in B. destruct B as [B|B]; [lia|].
    elim NE. rewrite (surjective_pairing k), (surjective_pairing l). f_equal; lia. }
  unfold W.
  destruct (Z.leb_spec 4294967296 (bbz v l k)) as [FP|FP].
  { apply sat_ret, spec_out; try lia. intros C. destruct (crosses_offset _ _ _ C) as (a & b & A1 & A2 & B1 & B2 & E).
    revert E. apply no_cross_far; auto.
    - assert (H : (iZ (snd k - snd l - (fst k - fst l)) < iZ (2 * bbz v l k))%Q) by (apply iZ_lt; unfold is_int in *; lia).
      rewrite (iZ_sub (snd k - snd l)), inject_Z_mult in H. change (iZ 2) with 2%Q in H. exact H.
    - assert (H : (iZ (- (snd k - snd l) - (fst k - fst l)) < iZ (2 * bbz v l k))%Q) by (apply iZ_lt; unfold is_int in *; lia).
      rewrite (iZ_sub (- (snd k - snd l))), inject_Z_mult, inject_Z_opp in H. change (iZ 2) with 2%Q in H. exact H. }
  destruct (Z.leb_spec (bbz v l k) (Z.opp 4294967296)) as [FM|FM].
  { apply sat_ret, spec_out; try lia. intros C. destruct (crosses_offset _ _ _ C) as (a & b & A1 & A2 & B1 & B2 & E).
    revert E. apply no_cross_far'; auto.
    - assert (H : (iZ (2 * bbz v l k) < iZ (snd k - snd l + (fst k - fst l)))%Q) by (apply iZ_lt; unfold is_int in *; lia).
      rewrite (inject_Z_plus (snd k - snd l)), inject_Z_mult in H. change (iZ 2) with 2%Q in H. exact H.
    - assert (H : (iZ (2 * bbz v l k) < iZ (- (snd k - snd l) + (fst k - fst l)))%Q) by (apply iZ_lt; unfold is_int in *; lia).
      rewrite (inject_Z_plus (- (snd k - snd l))), inject_Z_mult, inject_Z_opp in H. change (iZ 2) with 2%Q in H. exact H. }
  destruct ((fst v <? fst l) && (fst v <? fst k)) eqn:EX1.
  { apply sat_ret, spec_out.
    - intros C. apply crosses_x in C. lia.
    - destruct (Z.eqb_spec (bbz v l k) 0); [lia|].
      destruct (Z.lt_total 0 (bbz v l k)) as [P|[P|P]]; [rewrite cp_sign_pos|lia|rewrite cp_sign_neg]; lia.
    - intros P. destruct (Z.eqb_spec (bbz v l k) 0); [lia|]. now apply cp_sign_pos.
    - intros P. destruct (Z.eqb_spec (bbz v l k) 0); [lia|]. now apply cp_sign_neg.
    - intros ->. reflexivity.
    - intros Z0. specialize (VB Z0). rewrite Z0. cbn. lia. }
  destruct ((fst l <? fst v) && (fst k <? fst v)) eqn:EX2.
  { apply sat_ret, spec_out.
    - intros C. apply crosses_x in C. lia.
    - destruct (Z.eqb_spec (bbz v l k) 0); [lia|].
      destruct (Z.lt_total 0 (bbz v l k)) as [P|[P|P]]; [rewrite cp_sign_pos|lia|rewrite cp_sign_neg]; lia.
    - intros P. destruct (Z.eqb_spec (bbz v l k) 0); [lia|]. now apply cp_sign_pos.
    - intros P. destruct (Z.eqb_spec (bbz v l k) 0); [lia|]. now apply cp_sign_neg.
    - intros Z0. specialize (VB Z0). rewrite Z0. cbn. lia.
    - intros ->. reflexivity. }
  destruct ((snd v <? snd l) && (snd v <? snd k)) eqn:EY1.
  { apply sat_ret, spec_out.
    - intros C. apply crosses_y in C. lia.
    - destruct (Z.eqb_spec (bbz v l k) 0); [lia|].
      destruct (Z.lt_total 0 (bbz v l k)) as [P|[P|P]]; [rewrite cp_sign_pos|lia|rewrite cp_sign_neg]; lia.
    - intros P. destruct (Z.eqb_spec (bbz v l k) 0); [lia|]. now apply cp_sign_pos.
    - intros P. destruct (Z.eqb_spec (bbz v l k) 0); [lia|]. now apply cp_sign_neg.
    - intros ->. reflexivity.
    - intros Z0. specialize (VB Z0). rewrite Z0. cbn. lia. }
  destruct ((snd l <? snd v) && (snd k <? snd v)) eqn:EY2.
  { apply sat_ret, spec_out.
    - intros C. apply crosses_y in C. lia.
    - destruct (Z.eqb_spec (bbz v l k) 0); [lia|].
      destruct (Z.lt_total 0 (bbz v l k)) as [P|[P|P]]; [rewrite cp_sign_pos|lia|rewrite cp_sign_neg]; lia.
    - intros P. destruct (Z.eqb_spec (bbz v l k) 0); [lia|]. now apply cp_sign_pos.
    - intros P. destruct (Z.eqb_spec (bbz v l k) 0); [lia|]. now apply cp_sign_neg.
    - intros Z0. specialize (VB Z0). rewrite Z0. cbn. lia.
    - intros ->. reflexivity. }
  assert (BX : fst k <= fst v <= fst l) by lia.
  assert (BY : (snd k <= snd v <= snd l) \/ (snd l <= snd v <= snd k)) by lia.
  clear EX1 EX2 EY1 EY2.
  apply sat_bind, sat_ck32; [tauto|intros _]. apply sat_bind, sat_ck32; [tauto|intros _].
  unfold ub64. replace (fits64 (bbz v l k * 2)) with true by (unfold fits64; lia). cbn [bind].
  set (dx := fst k - fst l) in *. set (dy := snd k - snd l) in *. set (bb := bbz v l k) in *.
  unfold dimw_add, dimw_sub.
  assert (L4 : is_llong (bb * 2 + dy) /\ is_llong (bb * 2 - dy) /\ is_llong (bb * 2 - dy + dx) /\ is_llong (bb * 2 + dy + dx) /\ is_llong (bb * 2 - dy - dx) /\ is_llong (bb * 2 + dy - dx)).
  { unfold is_llong, is_int in *. lia. }
  assert (Q2 : forall z, (iZ (z * 2) == 2 * iZ z)%Q) by (intros; rewrite inject_Z_mult; change (iZ 2) with 2%Q; ring).
  assert (PL : forall z, (iZ (bb * 2 + z) == 2 * iZ bb + iZ z)%Q) by (intros; rewrite inject_Z_plus, Q2; reflexivity).
  assert (QBL : (iZ (bb * 2 - dy + dx) == 2 * iZ bb - iZ dy + iZ dx)%Q) by (rewrite inject_Z_plus, iZ_sub, Q2; reflexivity).
  assert (QBR : (iZ (bb * 2 + dy + dx) == 2 * iZ bb + iZ dy + iZ dx)%Q) by (rewrite !inject_Z_plus, Q2; reflexivity).
  assert (QTL : (iZ (bb * 2 - dy - dx) == 2 * iZ bb - iZ dy - iZ dx)%Q) by (rewrite !iZ_sub, Q2; reflexivity).
  assert (QTR : (iZ (bb * 2 + dy - dx) == 2 * iZ bb + iZ dy - iZ dx)%Q) by (rewrite !iZ_sub, inject_Z_plus, Q2; reflexivity).
  apply sat_bind, sat_ck64; [tauto|intros _]. apply sat_bind, sat_ck64; [tauto|intros _].
  apply sat_bind, sat_ck64; [tauto|intros _].
  assert (VD : dx = 0 -> bb = 0).
  { intros H. subst bb. unfold bbz. subst dx. rewrite H. replace (fst v - fst l) with 0 by lia. lia. }
  assert (DY0 : dx = 0 -> dy <> 0).
  { intros H G. apply NE. rewrite (surjective_pairing k), (surjective_pairing l). f_equal; lia. }
  destruct (Z.ltb_spec 0 (bb * 2 - dy + dx)) as [BL|BL].
  1: apply sat_bind; apply sat_bind; apply sat_ck64; [tauto|intros _]; cbn [sat].
  1: destruct (Z.leb_spec 0 (bb * 2 + dy + dx)) as [BR|BR].
  { apply sat_ret, spec_out; fold bb; try lia.
    intros C. destruct (crosses_offset _ _ _ C) as (a & b & A1 & A2 & B1 & B2 & E). fold bb dx dy in E.
    apply iZ_lt in BL. apply iZ_le in BR. rewrite QBL in BL. rewrite QBR in BR. change (iZ 0) with 0%Q in *.
    revert E. apply no_cross_pos; auto. }
  2: apply sat_bind, sat_ret.
  all: apply sat_bind, sat_ck64; [tauto|intros _].
  all: assert (FIN : (0 < bb * 2 - dy - dx \/ 0 < bb * 2 + dy - dx) -> crosses v l k);
    [intros TOP; destruct (Z.eq_dec dx 0) as [D0|D0]; [apply vertical_crosses; auto|];
     assert (DXN : (iZ dx < 0)%Q) by (change 0%Q with (iZ 0); apply iZ_lt; lia);
     assert (TQ : (0 < 2 * iZ bb - iZ dy - iZ dx \/ 0 < 2 * iZ bb + iZ dy - iZ dx)%Q)
       by (rewrite <- QTL, <- QTR; change 0%Q with (iZ 0); destruct TOP; [left|right]; now apply iZ_lt);
     destruct (cell_line (iZ bb) (iZ dx) (iZ dy)) as (a & b & A1 & A2 & B1 & B2 & E); auto;
     [rewrite <- QBL, <- QBR; change 0%Q with (iZ 0);
      first [right; apply iZ_lt; lia | left; apply iZ_le; lia]
     |apply (offset_crosses v l k O BX BY a b); auto]|].
  all: assert (NEG : bb * 2 - dy - dx <= 0 -> bb * 2 + dy - dx <= 0 -> edge_rnd_spec v l k (-1));
    [intros TL TR; assert (DXL : dx < 0) by lia; apply spec_out; fold bb; try lia;
     intros C; destruct (crosses_offset _ _ _ C) as (a & b & A1 & A2 & B1 & B2 & E); fold bb dx dy in E;
       apply iZ_le in TL; apply iZ_le in TR; rewrite QTL in TL; rewrite QTR in TR; change (iZ 0) with 0%Q in *;
       revert E; apply no_cross_neg; auto; change 0%Q with (iZ 0); apply iZ_lt; exact DXL|].
  all: destruct (Z.leb_spec (bb * 2 - dy - dx) 0) as [TL|TL];
    [apply sat_bind; apply sat_bind; apply sat_ck64; [tauto|intros _]; cbn [sat];
     destruct (Z.leb_spec (bb * 2 + dy - dx) 0) as [TR|TR]; apply sat_ret; [now apply NEG|apply spec_in, FIN; lia]
    |apply sat_bind, sat_ret, sat_ret, spec_in, FIN; lia].
Qed.

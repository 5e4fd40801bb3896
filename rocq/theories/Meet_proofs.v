From Coq Require Import ZArith QArith Bool List Lia Lqa ZifyBool.
From Verif Require Import Matq_model Matq_spec Matq_proofs Matq_proofs2 Matq_proofs3 Matq_proofs4 Matq_props Meet_model Meet_spec.
Import ListNotations.
Local Open Scope Z_scope.

Notation iZ := inject_Z.

Definition swp (v : vec2) : vec2 := (snd v, fst v).
Definition lswp (l : line) : line := (swp (fst l), swp (snd l)).

Lemma inside_swp x y l : inside x y l <-> inside y x (lswp l).
Proof. unfold inside, lswp, swp; cbn. split; intros (t & A & B & C); exists t; auto. Qed.

Lemma same_swp a b : same a b <-> same (lswp a) (lswp b).
Proof.
  destruct a as [[] []], b as [[] []]. unfold same, lswp, swp; cbn.
  split; (intros [H|H]; [left|right]; injection H; intros; congruence).
Qed.

Lemma meet_swp a b : meet a b <-> meet (lswp a) (lswp b).
Proof.
  unfold meet. rewrite <- same_swp. split; intros (N & x & y & A & B); split; auto; exists y, x;
    split; apply inside_swp; auto; destruct a as [[] []], b as [[] []]; assumption.
Qed.

Lemma iZ_lt a b : a < b <-> (iZ a < iZ b)%Q.
Proof. rewrite Zlt_Qlt. reflexivity. Qed.

(** points of a line that is not vertical *)
Lemma inside_x x y px py qx qy : px <> qx ->
  inside x y ((px, py), (qx, qy)) <->
  ((x - iZ px) * (iZ qy - iZ py) == (y - iZ py) * (iZ qx - iZ px))%Q /\
  (iZ (Z.min px qx) < x)%Q /\ (x < iZ (Z.max px qx))%Q.
Proof.
  intros N. unfold inside; cbn [fst snd]. split.
  - intros (t & (T0 & T1) & X & Y). split; [rewrite X, Y; ring|].
    destruct (Z_lt_ge_dec px qx) as [L|L].
    + rewrite Z.min_l, Z.max_r by lia. apply iZ_lt in L. split; nra.
    + assert (L' : qx < px) by lia. rewrite Z.min_r, Z.max_l by lia. apply iZ_lt in L'. split; nra.
  - intros (E & A & B).
    assert (D : ~ (iZ qx - iZ px == 0)%Q).
    { intros D. apply N. apply inject_Z_injective. lra. }
    exists ((x - iZ px) / (iZ qx - iZ px))%Q. split; [|split].
    + destruct (Z_lt_ge_dec px qx) as [L|L].
      * rewrite Z.min_l in A by lia. rewrite Z.max_r in B by lia. apply iZ_lt in L. split.
        -- apply Qlt_shift_div_l; lra.
        -- apply Qlt_shift_div_r; lra.
      * assert (L' : qx < px) by lia. rewrite Z.min_r in A by lia. rewrite Z.max_l in B by lia. apply iZ_lt in L'.
        assert (G : ((x - iZ px) / (iZ qx - iZ px) == (iZ px - x) / (iZ px - iZ qx))%Q) by (field; lra).
        rewrite G. split.
        -- apply Qlt_shift_div_l; lra.
        -- apply Qlt_shift_div_r; lra.
    + field. exact D.
    + assert (G : (y == iZ py + (y - iZ py) * (iZ qx - iZ px) / (iZ qx - iZ px))%Q) by (field; exact D).
      rewrite G at 1. rewrite <- E. field. exact D.
Qed.

Lemma iZ_eq0 z : z = 0 -> (iZ z == 0)%Q.
Proof. intros ->. reflexivity. Qed.

Lemma iZ_mul a b : (iZ (a * b) == iZ a * iZ b)%Q.
Proof. rewrite inject_Z_mult. reflexivity. Qed.

(** collinear lines have the same equation *)
Lemma same_equation x y px py qx qy rx ry sx sy : px <> qx -> rx <> sx ->
  (qx - px) * (sy - ry) = (qy - py) * (sx - rx) ->
  (qx - px) * (sy - py) - (qy - py) * (sx - px) = 0 ->
  ((x - iZ px) * (iZ qy - iZ py) == (y - iZ py) * (iZ qx - iZ px))%Q ->
  ((x - iZ rx) * (iZ sy - iZ ry) == (y - iZ ry) * (iZ sx - iZ rx))%Q.
Proof.
  intros N M P C L.
  assert (P' : ((iZ qx - iZ px) * (iZ sy - iZ ry) == (iZ qy - iZ py) * (iZ sx - iZ rx))%Q).
  { rewrite <- !iZ_sub, <- !iZ_mul, P. reflexivity. }
  assert (C' : ((iZ qx - iZ px) * (iZ sy - iZ py) - (iZ qy - iZ py) * (iZ sx - iZ px) == 0)%Q).
  { rewrite <- !iZ_sub, <- !iZ_mul, <- iZ_sub, C. reflexivity. }
  assert (D : ~ (iZ qx - iZ px == 0)%Q).
  { intros D. apply N. apply inject_Z_injective. lra. }
  apply (Qmult_inj_l _ _ (iZ qx - iZ px) D).
  set (X := iZ px) in *. set (Y := iZ py) in *. set (X' := iZ qx) in *. set (Y' := iZ qy) in *.
  set (R := iZ rx) in *. set (R' := iZ ry) in *. set (S := iZ sx) in *. set (S' := iZ sy) in *.
  (* (X'-X)(x-R)(S'-R') = (x-R)(Y'-Y)(S-R) *)
  assert (E1 : ((X' - X) * ((x - R) * (S' - R')) == (x - R) * ((Y' - Y) * (S - R)))%Q).
  { rewrite <- P'. ring. }
  rewrite E1.
  (* the end r of the second line is on the first one *)
  assert (C2 : ((X' - X) * (R' - Y) == (Y' - Y) * (R - X))%Q).
  { assert (G : ((X' - X) * (R' - Y) - (Y' - Y) * (R - X) ==
       ((X' - X) * (S' - Y) - (Y' - Y) * (S - X)) - ((X' - X) * (S' - R') - (Y' - Y) * (S - R)))%Q) by ring.
    rewrite C', P' in G. lra. }
  assert (E2 : ((X' - X) * (y - R') == (Y' - Y) * (x - R))%Q).
  { assert (G : ((X' - X) * (y - R') - (Y' - Y) * (x - R) ==
       ((y - Y) * (X' - X) - (x - X) * (Y' - Y)) - ((X' - X) * (R' - Y) - (Y' - Y) * (R - X)))%Q) by ring.
    rewrite <- L, C2 in G. lra. }
  transitivity (((X' - X) * (y - R')) * (S - R))%Q; [|ring]. rewrite E2. ring.
Qed.

(** what the comparisons say *)
Definition overlap1 (a1 a2 b1 b2 : Z) : Prop :=
  (b1 < a1 < b2) \/ (b1 < a2 < b2) \/ (a1 < b1 < a2) \/ (a1 < b2 < a2).

Lemma collinear_x px py qx qy rx ry sx sy : px <> qx -> rx <> sx ->
  (qx - px) * (sy - ry) = (qy - py) * (sx - rx) ->
  (qx - px) * (sy - py) - (qy - py) * (sx - px) = 0 ->
  meet ((px, py), (qx, qy)) ((rx, ry), (sx, sy)) <->
  overlap1 (Z.min px qx) (Z.max px qx) (Z.min rx sx) (Z.max rx sx).
Proof.
  intros N M P C.
  assert (SM : same ((px, py), (qx, qy)) ((rx, ry), (sx, sy)) <->
               Z.min px qx = Z.min rx sx /\ Z.max px qx = Z.max rx sx).
  { unfold same; cbn [fst snd]. split.
    - intros [H|H]; injection H; intros; subst; lia.
    - intros [A B].
      assert (U : (px = rx /\ qx = sx) \/ (px = sx /\ qx = rx)) by lia.
      destruct U as [[-> ->] | [-> ->]].
      + left. assert (qy = sy). { assert (G : (sx - rx) * (sy - qy) = 0) by nia. apply Z.mul_eq_0 in G. lia. }
        subst. assert (py = ry). { assert (G : (sx - rx) * (py - ry) = 0) by nia. apply Z.mul_eq_0 in G. lia. }
        subst. reflexivity.
      + right. assert (sy = py). { assert (G : (rx - sx) * (sy - py) = 0) by nia. apply Z.mul_eq_0 in G. lia. }
        subst. assert (qy = ry). { assert (G : (sx - rx) * (qy - ry) = 0) by nia. apply Z.mul_eq_0 in G. lia. }
        subst. reflexivity. }
  unfold meet, overlap1. rewrite SM. split.
  - intros (NS & x & y & A & B).
    apply (inside_x _ _ _ _ _ _ N) in A. apply (inside_x _ _ _ _ _ _ M) in B.
    destruct A as (_ & A1 & A2), B as (_ & B1 & B2).
    assert (Z.min px qx < Z.max rx sx) by (apply iZ_lt; lra).
    assert (Z.min rx sx < Z.max px qx) by (apply iZ_lt; lra). lia.
  - intros O. split; [lia|].
    set (lo := Z.max (Z.min px qx) (Z.min rx sx)). set (hi := Z.min (Z.max px qx) (Z.max rx sx)).
    assert (LH : lo < hi) by (unfold lo, hi; lia).
    set (x := ((iZ lo + iZ hi) / 2)%Q).
    assert (X1 : (iZ lo < x)%Q). { unfold x. apply Qlt_shift_div_l; [lra|]. apply iZ_lt in LH. lra. }
    assert (X2 : (x < iZ hi)%Q). { unfold x. apply Qlt_shift_div_r; [lra|]. apply iZ_lt in LH. lra. }
    assert (D : ~ (iZ qx - iZ px == 0)%Q).
    { intros D. apply N. apply inject_Z_injective. lra. }
    set (y := (iZ py + (x - iZ px) * (iZ qy - iZ py) / (iZ qx - iZ px))%Q).
    assert (L : ((x - iZ px) * (iZ qy - iZ py) == (y - iZ py) * (iZ qx - iZ px))%Q).
    { unfold y. field. exact D. }
    assert (LE : forall u v, u <= v -> (iZ u <= iZ v)%Q) by (intros u v; now rewrite Zle_Qle).
    exists x, y. split.
    + apply (inside_x _ _ _ _ _ _ N). split; [exact L|].
      pose proof (LE (Z.min px qx) lo ltac:(unfold lo; lia)). pose proof (LE hi (Z.max px qx) ltac:(unfold hi; lia)). clearbody x lo hi. split; lra.
    + apply (inside_x _ _ _ _ _ _ M). split; [exact (same_equation x y px py qx qy rx ry sx sy N M P C L)|].
      pose proof (LE (Z.min rx sx) lo ltac:(unfold lo; lia)). pose proof (LE hi (Z.max rx sx) ltac:(unfold hi; lia)). clearbody x lo hi. split; lra.
Qed.

(** parallel lines that are not collinear have no common point *)
Lemma off_line x y px py qx qy rx ry sx sy :
  (qx - px) * (sy - ry) = (qy - py) * (sx - rx) ->
  inside x y ((px, py), (qx, qy)) -> inside x y ((rx, ry), (sx, sy)) ->
  (qx - px) * (sy - py) - (qy - py) * (sx - px) = 0.
Proof.
  intros P (t & _ & X & Y) (u & _ & X' & Y'). cbn [fst snd] in *.
  apply inject_Z_injective. rewrite iZ_sub, !iZ_mul, !iZ_sub.
  assert (P' : ((iZ qx - iZ px) * (iZ sy - iZ ry) == (iZ qy - iZ py) * (iZ sx - iZ rx))%Q).
  { rewrite <- !iZ_sub, <- !iZ_mul, P. reflexivity. }
  assert (EX : (iZ sx - iZ px == t * (iZ qx - iZ px) + (1 - u) * (iZ sx - iZ rx))%Q).
  { assert (E1 : (x - iZ px == t * (iZ qx - iZ px))%Q) by (rewrite X; ring).
    assert (E2 : (iZ sx - x == (1 - u) * (iZ sx - iZ rx))%Q) by (rewrite X'; ring). rewrite <- E1, <- E2. ring. }
  assert (EY : (iZ sy - iZ py == t * (iZ qy - iZ py) + (1 - u) * (iZ sy - iZ ry))%Q).
  { assert (E1 : (y - iZ py == t * (iZ qy - iZ py))%Q) by (rewrite Y; ring).
    assert (E2 : (iZ sy - y == (1 - u) * (iZ sy - iZ ry))%Q) by (rewrite Y'; ring). rewrite <- E1, <- E2. ring. }
  rewrite EX, EY.
  transitivity ((1 - u) * ((iZ qx - iZ px) * (iZ sy - iZ ry) - (iZ qy - iZ py) * (iZ sx - iZ rx)))%Q; [ring|].
  rewrite P'. change (iZ 0) with 0%Q. ring.
Qed.

(** Proofs about the reduction pass: any planar arrangement, by a shear that makes different ends have different abscissas *)
From Coq Require Import ZArith NArith List Bool Lia.
From Verif Require Import Reduce_model Reduce_spec Reduce_proofs.
Import ListNotations.
Open Scope Z_scope.

Definition T (k M : Z) (v : Z * Z) : Z * Z := (k * (M * fst v + snd v), k * snd v).
Definition TE (k M : Z) (e : edge) : edge := mk_edge (T k M (left e)) (T k M (rigt e)) (member e).

Lemma T_inj : forall k M v w, 0 < k -> 0 < M -> T k M v = T k M w -> v = w.
Proof.
  intros k M [x y] [x' y'] K HM H. unfold T in H. simpl in H. inversion H as [[A B]].
  assert (y = y') by (apply (Z.mul_reg_l _ _ k); lia). subst. apply Z.mul_reg_l in A; [|lia].
  assert (x = x') by (apply (Z.mul_reg_l _ _ M); lia). subst. reflexivity.
Qed.

(** ** The run does not change *)
Lemma sign_scale : forall c x, 0 < c -> sign (c * x) = sign x.
Proof.
  intros c x C. destruct (Z.lt_trichotomy x 0) as [H|[->|H]].
  - rewrite !sign_neg by nia. reflexivity.
  - rewrite Z.mul_0_r. reflexivity.
  - rewrite !sign_pos by nia. reflexivity.
Qed.
Lemma cross_T : forall k M a o b, cross3_z (T k M a) (T k M o) (T k M b) = (k * k * M) * cross3_z a o b.
Proof. intros. unfold cross3_z, T. simpl. ring. Qed.
Lemma vec2_cmp_0 : forall a b, (vec2_cmp a b =? 0) = true <-> a = b.
Proof.
  intros [x y] [x' y']. unfold vec2_cmp, cp_cmp. simpl.
  destruct (Z.ltb_spec x x'), (Z.ltb_spec x' x), (Z.ltb_spec y y'), (Z.ltb_spec y' y); simpl; split; intros H'; try discriminate;
    try (inversion H'; lia); try (f_equal; lia); reflexivity.
Qed.
Lemma tcmp_T : forall k M E n e, 0 < k -> 0 < M ->
  tree_vertex_edge_cmp (fun i => TE k M (E i)) n e = tree_vertex_edge_cmp E n e.
Proof.
  intros k M E n e K HM. unfold tree_vertex_edge_cmp, vec2_edge_cmp_exact, TE. cbn [left rigt member].
  rewrite !cross_T, !sign_scale by nia.
  assert (Q : (vec2_cmp (T k M (left (E n))) (T k M (rigt (E e))) =? 0) = (vec2_cmp (left (E n)) (rigt (E e)) =? 0)).
  { apply eq_true_iff_eq. rewrite !vec2_cmp_0. split; [apply T_inj; auto|intros ->; auto]. }
  rewrite Q. reflexivity.
Qed.
Lemma insert_by_ext : forall f g l, (forall x, f x = g x) -> insert_by f l = insert_by g l.
Proof. intros f g l H. induction l as [|x l IH]; simpl; [reflexivity|]. rewrite H, IH. reflexivity. Qed.
Lemma reduce_T : forall k M E comb size b0 k0 res, 0 < k -> 0 < M ->
  reduce (fun i => TE k M (E i)) comb size b0 k0 res = reduce E comb size b0 k0 res.
Proof.
  intros k M E comb size b0 k0 res K HM. unfold reduce.
  assert (Q : forall l d, events (fun i => TE k M (E i)) comb size l d = events E comb size l d).
  { induction l as [|v l IH]; intros d; simpl; [reflexivity|].
    assert (QE : event (fun i => TE k M (E i)) comb size v d = event E comb size v d).
    { unfold event. rewrite (insert_by_ext (tree_vertex_edge_cmp (fun i => TE k M (E i)) (fst v)) (tree_vertex_edge_cmp E (fst v)));
        [reflexivity|]. intros x. apply tcmp_T; auto. }
    rewrite QE. destruct (event E comb size v d); auto. }
  rewrite Q. reflexivity.
Qed.

(** ** Order *)
Lemma shear_lt : forall (M : Z) (a b : Z * Z), Z.abs (snd a) + Z.abs (snd b) < M -> lex_lt a b -> M * fst a + snd a < M * fst b + snd b.
Proof. intros M [x y] [x' y'] B [H|(H1 & H2)]; simpl in *; nia. Qed.
Lemma lex_cases : forall a b : Z * Z, lex_lt a b \/ a = b \/ lex_lt b a.
Proof.
  intros [x y] [x' y']. unfold lex_lt. simpl.
  destruct (Z.lt_trichotomy x x') as [|[->|]]; auto. destruct (Z.lt_trichotomy y y') as [|[->|]]; auto.
Qed.

Definition yb (e : edge) : Z := Z.abs (snd (left e)) + Z.abs (snd (rigt e)).
Lemma bound_exists : forall (E : nat -> edge) (d : Z) (Y : Z) ids, exists M, 0 < M /\ forall e, In e ids -> Z.abs d * yb (E e) + Z.abs Y < M.
Proof.
  intros E d Y. induction ids as [|e ids (M & M0 & H)].
  - exists 1. split; [lia|intros e []].
  - exists (M + Z.abs d * yb (E e) + Z.abs Y + 1). assert (0 <= Z.abs d * yb (E e)) by (unfold yb; nia). split; [lia|].
    intros f [ <- | F]; [lia|specialize (H f F); lia].
Qed.

Lemma zf : forall a b, 0 = a * b -> 0 < b -> a = 0.
Proof. intros a b H B. symmetry in H. apply Z.mul_eq_0 in H. lia. Qed.

Lemma on_scale : forall c r r2 e, 0 < c -> px r = c * px r2 -> py r = c * py r2 -> pd r = c * pd r2 ->
  (on_edge r2 e -> on_edge r e) /\ (is_end r e -> is_end r2 e).
Proof.
  intros c r r2 e C C1 C2 C3. unfold on_edge, is_end, height, lex_le, pt, scale. cbn [fst snd]. rewrite C1, C2, C3.
  destruct (left e) as [a b], (rigt e) as [a' b']. cbn [fst snd]. destruct r2 as [x y d]. cbn [px py pd]. clear C1 C2 C3. split.
  - intros (H1 & H2 & H3). split; [|split].
    + replace ((a' - a) * (c * y - c * d * b) - (b' - b) * (c * x - c * d * a)) with (c * ((a' - a) * (y - d * b) - (b' - b) * (x - d * a))) by ring.
      rewrite H1. ring.
    + rewrite <- !Z.mul_assoc. destruct H2 as [H2|(H2 & H2')]; [left; apply Z.mul_lt_mono_pos_l; assumption|right].
      split; [f_equal; exact H2|apply Z.mul_le_mono_pos_l; assumption].
    + rewrite <- !Z.mul_assoc. destruct H3 as [H3|(H3 & H3')]; [left; apply Z.mul_lt_mono_pos_l; assumption|right].
      split; [f_equal; exact H3|apply Z.mul_le_mono_pos_l; assumption].
  - rewrite <- !Z.mul_assoc. intros [Q|Q]; [left|right]; inversion Q as [[Q1 Q2]]; f_equal; apply (Z.mul_reg_l _ _ c); lia.
Qed.

Section Shear.
Variables (E : nat -> edge) (ids : list nat) (p : point) (M : Z).
Hypothesis HP : planar E ids.
Hypothesis Hd : 0 < pd p.
Hypothesis HM0 : 0 < M.
Hypothesis HM : forall e, In e ids -> 2 * (pd p * yb (E e) + Z.abs (py p)) < M.
Let k := 2 * pd p.
Let E' := fun i => TE k M (E i).
Let q : Z * Z := (2 * (M * px p + py p), 2 * py p).

Lemma k0 : 0 < k. Proof. unfold k. lia. Qed.
Lemma isv_orig : forall v, isv E' ids v -> exists w, isv E ids w /\ v = T k M w.
Proof.
  intros v (e & I & [ -> | -> ]).
  - exists (left (E e)). split; [exists e; auto|reflexivity].
  - exists (rigt (E e)). split; [exists e; auto|reflexivity].
Qed.
Lemma isv_y : forall w, isv E ids w -> 2 * (pd p * Z.abs (snd w) + Z.abs (py p)) < M.
Proof. intros w (e & I & W); pose proof (HM e I) as H; unfold yb in H; rewrite Z.mul_add_distr_l in H; clear HM.
  assert (0 <= pd p * Z.abs (snd (left (E e)))) by (apply Z.mul_nonneg_nonneg; lia).
  assert (0 <= pd p * Z.abs (snd (rigt (E e)))) by (apply Z.mul_nonneg_nonneg; lia).
  set (u := pd p * Z.abs (snd (left (E e)))) in *. set (v := pd p * Z.abs (snd (rigt (E e)))) in *.
  destruct W as [ -> | -> ]; fold u v; lia. Qed.
Lemma vlt : forall a b, isv E ids a -> isv E ids b -> lex_lt a b -> fst (T k M a) < fst (T k M b).
Proof.
  intros a b A B L. pose proof (isv_y a A). pose proof (isv_y b B). pose proof k0. unfold T. simpl.
  assert (M * fst a + snd a < M * fst b + snd b) by (apply (shear_lt M); [nia|exact L]). nia.
Qed.
Lemma vinj : forall a b, isv E ids a -> isv E ids b -> fst (T k M a) = fst (T k M b) -> a = b.
Proof.
  intros a b A B H. destruct (lex_cases a b) as [L|[L|L]]; [|exact L|]; [pose proof (vlt a b A B L)|pose proof (vlt b a B A L)]; lia.
Qed.
Lemma plt1 : forall a, isv E ids a -> lex_lt (scale (pd p) a) (pt p) -> fst (T k M a) < fst q.
Proof.
  intros a A L. pose proof (isv_y a A).
  assert (M * fst (scale (pd p) a) + snd (scale (pd p) a) < M * fst (pt p) + snd (pt p)).
  { apply (shear_lt M); [|exact L]. unfold scale, pt. simpl. nia. }
  unfold T, q, k, scale, pt in *. cbn [fst snd] in *.
  replace (2 * pd p * (M * fst a + snd a)) with (2 * (M * (pd p * fst a) + pd p * snd a)) by ring. lia.
Qed.
Lemma plt2 : forall a, isv E ids a -> lex_lt (pt p) (scale (pd p) a) -> fst q < fst (T k M a).
Proof.
  intros a A L. pose proof (isv_y a A).
  assert (M * fst (pt p) + snd (pt p) < M * fst (scale (pd p) a) + snd (scale (pd p) a)).
  { apply (shear_lt M); [|exact L]. unfold scale, pt. simpl. nia. }
  unfold T, q, k, scale, pt in *. cbn [fst snd] in *.
  replace (2 * pd p * (M * fst a + snd a)) with (2 * (M * (pd p * fst a) + pd p * snd a)) by ring. lia.
Qed.

Lemma peq : forall a, scale (pd p) a = pt p -> fst (T k M a) = fst q.
Proof.
  intros a L. unfold scale, pt in L. inversion L as [[L1 L2]]. unfold T, q, k. cbn [fst snd]. rewrite <- L1, <- L2. ring.
Qed.

Lemma lr : forall e, In e ids -> xl (E' e) < xr (E' e).
Proof.
  intros e I. unfold E', TE, xl, xr. cbn [left rigt]. apply vlt; [exists e; auto|exists e; auto|]. destruct HP as (_ & H & _). apply H, I.
Qed.
Lemma ev_even : forall v, isv E' ids v -> exists j, fst v = 2 * j.
Proof. intros v V. destruct (isv_orig v V) as (w & W & ->). unfold T, k. cbn [fst snd]. exists (pd p * (M * fst w + snd w)). ring. Qed.
Lemma gx : forall v w, isv E' ids v -> isv E' ids w -> fst v = fst w -> v = w.
Proof.
  intros v w V W H. destruct (isv_orig v V) as (a & A & ->), (isv_orig w W) as (b & B & ->). rewrite (vinj a b A B H). reflexivity.
Qed.

(** the zero of the difference at a rational abscissa *)
Definition numb (e : edge) (X b : Z) : Z := snd (left e) * b * dx e + (X - b * xl e) * dy e.
Definition Dfb (f g : edge) (X b : Z) : Z := numb g X b * dx f - numb f X b * dx g.
Lemma Dfb_1 : forall f g X, Dfb f g X 1 = Df f g X.
Proof. intros. unfold Dfb, Df, numb, num. ring. Qed.
Lemma Dfb_lin : forall f g a b X Y, Dfb f g (a * X + b * Y) (a + b) = a * Df f g X + b * Df f g Y.
Proof. intros. unfold Dfb, Df, numb, num. ring. Qed.

Lemma dxdy : forall e, In e ids -> lex_lt (left (E e)) (rigt (E e)) /\ 0 < dx (E' e).
Proof.
  intros e I. split; [destruct HP as (_ & H & _); apply H, I|]. pose proof (lr e I). unfold xl, xr, dx in *. lia.
Qed.
Lemma dx_pos : forall e, In e ids -> 0 <= dx (E e) /\ (dx (E e) = 0 -> 0 < dy (E e)).
Proof. intros e I. destruct (dxdy e I) as ([L|(L1 & L2)] & _); unfold dx, dy; lia. Qed.

(** a point whose abscissa in the sheared plane is X/b, with c > 0 times the coordinates of the point on e *)
Lemma on_of : forall e r c X b, In e ids -> 0 < b -> 0 < c -> 0 < pd r -> b * xl (E' e) <= X <= b * xr (E' e) ->
  c * px r = X * dx (E' e) - numb (E' e) X b -> c * py r = M * numb (E' e) X b -> c * pd r = b * k * M * dx (E' e) ->
  on_edge r (E e) /\ (is_end r (E e) -> X = b * xl (E' e) \/ X = b * xr (E' e)).
Proof.
  intros e r c X b I Hb Hc Hr HX C1 C2 C3. pose proof k0 as K. destruct (dx_pos e I) as (Dx & Dy).
  destruct (dxdy e I) as (LL & D'). pose proof (lr e I) as Lr.
  assert (A1 : c * (px r - pd r * fst (left (E e))) = (X - b * xl (E' e)) * (k * M * dx (E e))).
  { replace (c * (px r - pd r * fst (left (E e)))) with (c * px r - c * pd r * fst (left (E e))) by ring.
    rewrite C1, C3. unfold numb, dx, dy, xl, E', TE, T. cbn [left rigt fst snd]. ring. }
  assert (A2 : c * (py r - pd r * snd (left (E e))) = (X - b * xl (E' e)) * (k * M * dy (E e))).
  { replace (c * (py r - pd r * snd (left (E e)))) with (c * py r - c * pd r * snd (left (E e))) by ring.
    rewrite C2, C3. unfold numb, dx, dy, xl, E', TE, T. cbn [left rigt fst snd]. ring. }
  assert (A3 : c * (pd r * fst (rigt (E e)) - px r) = (b * xr (E' e) - X) * (k * M * dx (E e))).
  { replace (c * (pd r * fst (rigt (E e)) - px r)) with (c * pd r * fst (rigt (E e)) - c * px r) by ring.
    rewrite C1, C3. unfold numb, dx, dy, xl, xr, E', TE, T. cbn [left rigt fst snd]. ring. }
  assert (A4 : c * (pd r * snd (rigt (E e)) - py r) = (b * xr (E' e) - X) * (k * M * dy (E e))).
  { replace (c * (pd r * snd (rigt (E e)) - py r)) with (c * pd r * snd (rigt (E e)) - c * py r) by ring.
    rewrite C2, C3. unfold numb, dx, dy, xl, xr, E', TE, T. cbn [left rigt fst snd]. ring. }
  assert (KM : 0 < k * M) by nia.
  assert (DD : 0 < dx (E e) \/ (dx (E e) = 0 /\ 0 < dy (E e))) by (destruct (Z.eq_dec (dx (E e)) 0); [right; auto|left; lia]).
  split.
  - split; [|split].
    + unfold height. fold (dx (E e)) (dy (E e)).
      assert (c * (dx (E e) * (py r - pd r * snd (left (E e))) - dy (E e) * (px r - pd r * fst (left (E e)))) = 0).
      { replace (c * (dx (E e) * (py r - pd r * snd (left (E e))) - dy (E e) * (px r - pd r * fst (left (E e)))))
          with (dx (E e) * (c * (py r - pd r * snd (left (E e)))) - dy (E e) * (c * (px r - pd r * fst (left (E e))))) by ring.
        rewrite A1, A2. ring. }
      nia.
    + unfold lex_le, scale, pt. simpl.
      destruct (Z.eq_dec X (b * xl (E' e))) as [Q|Q].
      * rewrite Q, Z.sub_diag, Z.mul_0_l in A1, A2. right. split; nia.
      * assert (P : 0 < (X - b * xl (E' e)) * (k * M)) by nia. destruct DD as [DD|(DD1 & DD2)].
        -- left. assert (0 < (X - b * xl (E' e)) * (k * M * dx (E e))) by nia. nia.
        -- right. rewrite DD1 in A1. assert (0 < (X - b * xl (E' e)) * (k * M * dy (E e))) by nia. split; nia.
    + unfold lex_le, scale, pt. simpl.
      destruct (Z.eq_dec X (b * xr (E' e))) as [Q|Q].
      * rewrite Q, Z.sub_diag, Z.mul_0_l in A3, A4. right. split; nia.
      * assert (P : 0 < (b * xr (E' e) - X) * (k * M)) by nia. destruct DD as [DD|(DD1 & DD2)].
        -- left. assert (0 < (b * xr (E' e) - X) * (k * M * dx (E e))) by nia. nia.
        -- right. rewrite DD1 in A3. assert (0 < (b * xr (E' e) - X) * (k * M * dy (E e))) by nia. split; nia.
  - intros [Q|Q]; unfold pt, scale in Q; inversion Q as [[Q1 Q2]].
    + left. rewrite Q1 in A1. rewrite Q2 in A2. rewrite Z.sub_diag, Z.mul_0_r in A1, A2. destruct DD as [DD|(DD1 & DD2)]; [apply zf in A1; [lia|nia]|apply zf in A2; [lia|nia]].
    + right. rewrite Q1 in A3. rewrite Q2 in A4. rewrite Z.sub_diag, Z.mul_0_r in A3, A4. destruct DD as [DD|(DD1 & DD2)]; [apply zf in A3; [lia|nia]|apply zf in A4; [lia|nia]].
Qed.

Lemma zero_b : forall f g X b, In f ids -> In g ids -> f <> g -> 0 < b ->
  b * xl (E' f) <= X <= b * xr (E' f) -> b * xl (E' g) <= X <= b * xr (E' g) -> Dfb (E' f) (E' g) X b = 0 ->
  (X = b * xl (E' f) \/ X = b * xr (E' f)) /\ (X = b * xl (E' g) \/ X = b * xr (E' g)).
Proof.
  intros f g X b F G N Hb HF HG Z0. pose proof k0 as K. destruct (dxdy f F) as (_ & Df'). destruct (dxdy g G) as (_ & Dg').
  set (r := mk_point (dx (E' g) * (X * dx (E' f) - numb (E' f) X b)) (dx (E' g) * (M * numb (E' f) X b)) (dx (E' g) * (b * k * M * dx (E' f)))).
  assert (Hr : 0 < pd r).
  { simpl. apply Z.mul_pos_pos; [lia|]. apply Z.mul_pos_pos; [|lia]. apply Z.mul_pos_pos; [|lia]. apply Z.mul_pos_pos; lia. }
  unfold Dfb in Z0. assert (ZZ : numb (E' g) X b * dx (E' f) = numb (E' f) X b * dx (E' g)) by lia.
  (* both are multiples of the same point: scale up *)
  destruct HP as (_ & _ & PL).
  set (r1 := mk_point (X * dx (E' f) - numb (E' f) X b) (M * numb (E' f) X b) (b * k * M * dx (E' f))).
  assert (Hr1 : 0 < pd r1).
  { simpl. apply Z.mul_pos_pos; [|lia]. apply Z.mul_pos_pos; [|lia]. apply Z.mul_pos_pos; lia. }
  destruct (on_of f r1 1 X b F Hb ltac:(lia) Hr1 HF) as (O1 & E1); [unfold r1; cbn [px]; ring|unfold r1; cbn [py]; ring|unfold r1; cbn [pd]; ring|].
  assert (TG : on_edge r (E g) /\ (is_end r (E g) -> X = b * xl (E' g) \/ X = b * xr (E' g))).
  { assert (C1 : px r = dx (E' f) * (X * dx (E' g) - numb (E' g) X b)).
    { unfold r. cbn [px]. replace (dx (E' f) * (X * dx (E' g) - numb (E' g) X b)) with (X * dx (E' f) * dx (E' g) - numb (E' g) X b * dx (E' f)) by ring.
      rewrite ZZ. ring. }
    assert (C2 : py r = dx (E' f) * (M * numb (E' g) X b)).
    { unfold r. cbn [py]. replace (dx (E' f) * (M * numb (E' g) X b)) with (M * (numb (E' g) X b * dx (E' f))) by ring. rewrite ZZ. ring. }
    set (r2 := mk_point (X * dx (E' g) - numb (E' g) X b) (M * numb (E' g) X b) (b * k * M * dx (E' g))).
    assert (Hr2 : 0 < pd r2).
    { simpl. apply Z.mul_pos_pos; [|lia]. apply Z.mul_pos_pos; [|lia]. apply Z.mul_pos_pos; lia. }
    destruct (on_of g r2 1 X b G Hb ltac:(lia) Hr2 HG) as (O2 & E2); [unfold r2; cbn [px]; ring|unfold r2; cbn [py]; ring|unfold r2; cbn [pd]; ring|].
    assert (C3 : pd r = dx (E' f) * pd r2) by (unfold r, r2; cbn [pd]; ring).
    destruct (on_scale (dx (E' f)) r r2 (E g) Df' C1 C2 C3) as (S1 & S2). split; [auto|intros Q; auto]. }
  destruct TG as (OG & EG).
  assert (TF : on_edge r (E f) /\ (is_end r (E f) -> X = b * xl (E' f) \/ X = b * xr (E' f))).
  { assert (C1 : px r = dx (E' g) * px r1) by reflexivity. assert (C2 : py r = dx (E' g) * py r1) by reflexivity.
    assert (C3 : pd r = dx (E' g) * pd r1) by reflexivity.
    destruct (on_scale (dx (E' g)) r r1 (E f) Dg' C1 C2 C3) as (S1 & S2). split; [auto|intros Q; auto]. }
  destruct TF as (OF & EF).
  destruct (PL f g r F G N Hr OF OG) as (X1 & X2). auto.
Qed.

Lemma h3b : forall f g X, In f ids -> In g ids -> f <> g -> both E' f g X -> Df (E' f) (E' g) X = 0 ->
  (X = xl (E' f) \/ X = xr (E' f)) /\ (X = xl (E' g) \/ X = xr (E' g)).
Proof.
  intros f g X F G N (B1 & B2) H. rewrite <- Dfb_1 in H.
  destruct (zero_b f g X 1 F G N ltac:(lia) ltac:(lia) ltac:(lia) H) as (A & B). lia.
Qed.
Lemma h3a : forall f g X Y, In f ids -> In g ids -> f <> g -> both E' f g X -> both E' f g Y -> 0 < Df (E' f) (E' g) X -> 0 <= Df (E' f) (E' g) Y.
Proof.
  intros f g X Y F G N (B1 & B2) (B3 & B4) H.
  destruct (Z.lt_ge_cases (Df (E' f) (E' g) Y) 0) as [C|C]; [exfalso|exact C].
  set (D1 := Df (E' f) (E' g) X) in *. set (D2 := - Df (E' f) (E' g) Y).
  assert (P2 : 0 < D2) by (unfold D2; lia).
  assert (Z0 : Dfb (E' f) (E' g) (D2 * X + D1 * Y) (D2 + D1) = 0).
  { rewrite Dfb_lin. fold D1. unfold D2. ring. }
  assert (NX : X <> Y) by (intros ->; unfold D2 in P2; fold D1 in P2; lia).
  destruct (zero_b f g (D2 * X + D1 * Y) (D2 + D1) F G N ltac:(lia)) as (A & _); [nia|nia|exact Z0|].
  destruct A as [A|A]; clear - A H P2 NX B1 B3; nia.
Qed.

Lemma closed_T : closed E ids -> closed E' ids.
Proof.
  intros C x. pose proof k0 as K.
  assert (SM : forall a b, same a b = true <-> a = b).
  { intros [a1 a2] [b1 b2]. unfold same. simpl. rewrite andb_true_iff, !Z.eqb_eq. split; [intros (-> & ->); auto|intros X; inversion X; auto]. }
  destruct (existsb (fun e => same x (left (E' e)) || same x (rigt (E' e))) ids) eqn:EX.
  - apply existsb_exists in EX. destruct EX as (e & I & H).
    assert (W : exists w, x = T k M w).
    { apply orb_true_iff in H. destruct H as [H|H]; apply SM in H; [exists (left (E e))|exists (rigt (E e))]; exact H. }
    destruct W as (w & ->).
    assert (Q : forall v, same (T k M w) (T k M v) = same w v).
    { intros v. apply eq_true_iff_eq. rewrite !SM. split; [apply T_inj; auto|intros ->; auto]. }
    rewrite (filter_ext (fun e => same (T k M w) (left (E' e))) (fun e => same w (left (E e)))) by (intros; apply Q).
    rewrite (filter_ext (fun e => same (T k M w) (rigt (E' e))) (fun e => same w (rigt (E e)))) by (intros; apply Q).
    apply C.
  - assert (NO : forall e, In e ids -> same x (left (E' e)) = false /\ same x (rigt (E' e)) = false).
    { intros e I. destruct (same x (left (E' e)) || same x (rigt (E' e))) eqn:Q; [|apply orb_false_iff in Q; exact Q].
      exfalso. assert (existsb (fun e => same x (left (E' e)) || same x (rigt (E' e))) ids = true) by (apply existsb_exists; eauto). congruence. }
    assert (FN : forall (h : nat -> bool) l, (forall e, In e l -> h e = false) -> filter h l = []).
    { intros h. induction l as [|e l IH]; intros H; [reflexivity|]. simpl. rewrite H by (left; auto). apply IH. intros; apply H; right; auto. }
    rewrite !FN by (intros e I; apply NO, I). reflexivity.
Qed.

Lemma ends_T : forall res, ends_of E ids res -> ends_of E' ids res.
Proof.
  intros res (N & I & O). split; [exact N|]. split; [exact I|]. intros a b c v w R. pose proof k0 as K.
  specialize (O a b c v w R).
  assert (Iv : In (fst v) ids) by (apply (I (fst v) (snd v)); rewrite <- surjective_pairing, R; apply in_or_app; right; left; auto).
  assert (Iw : In (fst w) ids) by (apply (I (fst w) (snd w)); rewrite <- surjective_pairing, R; apply in_or_app; right; right; apply in_or_app; right; left; auto).
  assert (EN : forall u, end_of E' u = T k M (end_of E u)) by (intros [u [|]]; reflexivity).
  unfold comes_before. rewrite !EN. destruct O as [O|(O1 & O2)].
  - left. left. apply vlt; [| |exact O]; unfold end_of; [exists (fst v)|exists (fst w)]; (split; [assumption|]); [destruct (snd v)|destruct (snd w)]; auto.
  - right. split; [rewrite O1; reflexivity|]. destruct O2 as [O2|(O2 & O3 & O4)]; [left; exact O2|right].
    split; [exact O2|]. split; [exact O3|].
    unfold height in *. cbn [px py pd] in *. unfold E', TE, T. cbn [left rigt fst snd].
    match goal with |- 0 < ?t => replace t with (k * k * M * ((fst (rigt (E (fst v))) - fst (left (E (fst v)))) * (snd (rigt (E (fst w))) - 1 * snd (left (E (fst v)))) -
      (snd (rigt (E (fst v))) - snd (left (E (fst v)))) * (fst (rigt (E (fst w))) - 1 * fst (left (E (fst v)))))) by ring end.
    apply Z.mul_pos_pos; [nia|exact O4].
Qed.

Lemma hgt_q : forall e, hgt q (E' e) = 2 * k * M * height p (E e).
Proof. intros e. unfold hgt, num, dx, dy, xl, q, E', TE, T, height, k. cbn [left rigt fst snd]. ring. Qed.

Lemma not_vertex : forall e, In e ids -> inside_edge p (E e) -> forall v, isv E' ids v -> fst v <> fst q.
Proof.
  intros e I (H1 & H2 & H3) v V Q. destruct (isv_orig v V) as (w & W & ->).
  assert (PW : pt p = scale (pd p) w).
  { destruct (lex_cases (scale (pd p) w) (pt p)) as [L|[L|L]]; [pose proof (plt1 w W L); lia|auto|pose proof (plt2 w W L); lia]. }
  assert (NE : ~ is_end p (E e)).
  { intros [X|X]; [rewrite X in H2; unfold lex_lt in H2|rewrite X in H3; unfold lex_lt in H3]; lia. }
  destruct W as (f & F & Wf). destruct (Nat.eq_dec e f) as [->|N].
  - apply NE. destruct Wf as [ -> | -> ]; [left|right]; exact PW.
  - destruct HP as (_ & LR & PL). specialize (LR f F).
    apply NE. apply (PL e f p I F N Hd).
    + split; [exact H1|]. split; [unfold lex_lt, lex_le in *; lia|unfold lex_lt, lex_le in *; lia].
    + unfold pt, scale in PW. inversion PW as [[P1 P2]].
      unfold on_edge, height, lex_le, lex_lt, pt, scale in *. cbn [fst snd] in *. rewrite P1, P2.
      destruct Wf as [ -> | -> ]; (split; [ring|]); split; try (right; lia); nia.
Qed.

Lemma beneath_q : forall f, In f ids ->
  (xl (E' f) <=? fst q) && (fst q <? xr (E' f)) && (0 <? hgt q (E' f)) = beneath p (E f).
Proof.
  intros f F. pose proof k0 as K. destruct (dxdy f F) as (LL & _).
  assert (Vl : isv E ids (left (E f))) by (exists f; auto). assert (Vr : isv E ids (rigt (E f))) by (exists f; auto).
  assert (A : xl (E' f) <= fst q <-> lex_le (scale (pd p) (left (E f))) (pt p)).
  { unfold xl, E', TE. cbn [left]. destruct (lex_cases (scale (pd p) (left (E f))) (pt p)) as [L|[L|L]].
    - pose proof (plt1 _ Vl L). unfold lex_lt, lex_le in *. split; intros; [lia|lia].
    - pose proof (peq _ L). rewrite <- L. unfold lex_le. split; intros; [right; lia|lia].
    - pose proof (plt2 _ Vl L). unfold lex_lt, lex_le in *. split; intros; lia. }
  assert (B : fst q < xr (E' f) <-> lex_lt (pt p) (scale (pd p) (rigt (E f)))).
  { unfold xr, E', TE. cbn [rigt]. destruct (lex_cases (pt p) (scale (pd p) (rigt (E f)))) as [L|[L|L]].
    - pose proof (plt2 _ Vr L). unfold lex_lt in *. split; intros; lia.
    - pose proof (peq _ (eq_sym L)). rewrite <- L. unfold lex_lt. split; intros; lia.
    - pose proof (plt1 _ Vr L). unfold lex_lt in *. split; intros; lia. }
  assert (C : 0 < hgt q (E' f) <-> 0 < height p (E f)) by (rewrite hgt_q; split; intros; nia).
  apply eq_true_iff_eq. unfold beneath. rewrite !andb_true_iff, !Z.leb_le, !Z.ltb_lt, A, B, C.
  unfold lex_le, lex_lt, scale, pt, height in *. cbn [fst snd] in *.
  split; intros ((P1 & P2) & P3); (split; [|exact P3]).
  - split; [lia|]. destruct P2 as [P2|(P2 & P4)]; [exact P2|exfalso].
    rewrite P2 in *. nia.
  - split.
    + destruct (Z.eq_dec (pd p * fst (left (E f))) (px p)) as [Q|Q]; [right; split; [exact Q|]|left; lia].
      rewrite <- Q in *. nia.
    + left. exact P2.
Qed.
End Shear.

Theorem reduce_ok : forall E ids comb n b0 k0 res,
  planar E ids -> closed E ids -> ends_of E ids res -> (forall e, In e ids -> (member (E e) < 2 ^ n)%N) ->
  exists out, reduce E comb (2 ^ n) b0 k0 res = Some out
  /\ (exists K, out = filter (fun v => K (fst v)) res
      /\ forall e p, In e ids -> 0 < pd p -> inside_edge p (E e) ->
        K e = xorb (comb (inside E ids p)) (comb (N.lxor (inside E ids p) (member (E e))))).
Proof.
  intros E ids comb n b0 k0 res HP HC HE Hm.
  assert (BYP : forall p, 0 < pd p -> exists K, reduce E comb (2 ^ n) b0 k0 res = Some (filter (fun v => K (fst v)) res)
    /\ forall e, In e ids -> inside_edge p (E e) -> K e = xorb (comb (inside E ids p)) (comb (N.lxor (inside E ids p) (member (E e))))).
  { intros p Hd. destruct (bound_exists E (2 * pd p) (2 * py p) ids) as (M & M0 & HM).
    assert (HM' : forall e, In e ids -> 2 * (pd p * yb (E e) + Z.abs (py p)) < M) by (intros e I; specialize (HM e I); unfold yb in *; nia).
    set (k := 2 * pd p). set (E' := fun i => TE k M (E i)).
    assert (K0 : 0 < k) by (unfold k; lia).
    assert (R := reduce_generic E' ids (proj1 HP) (lr E ids p M HP Hd M0 HM') (ev_even E ids p M) (gx E ids p M Hd M0 HM')
      (h3a E ids p M HP Hd M0 HM') (h3b E ids p M HP Hd M0 HM') comb n res Hm (ends_T E ids p M Hd M0 HM' res HE) (closed_T E ids p M Hd M0 HC) b0 k0).
    exists (K E' ids comb). split; [rewrite <- (reduce_T k M) by auto; exact R|].
    intros e I IN. unfold K.
    assert (Q := B_inside E' ids (proj1 HP) (lr E ids p M HP Hd M0 HM') (ev_even E ids p M) (gx E ids p M Hd M0 HM')
      (h3a E ids p M HP Hd M0 HM') (h3b E ids p M HP Hd M0 HM') comb n res Hm (ends_T E ids p M Hd M0 HM' res HE) (closed_T E ids p M Hd M0 HC) e
      (2 * (M * px p + py p), 2 * py p) I).
    rewrite Q; clear Q R.
    - assert (X : xor_all (map (m E') (filter (fun f => (xl (E' f) <=? fst (2 * (M * px p + py p), 2 * py p)) && (fst (2 * (M * px p + py p), 2 * py p) <? xr (E' f)) &&
          (0 <? hgt (2 * (M * px p + py p), 2 * py p) (E' f))) ids)) = inside E ids p); [|rewrite X; reflexivity].
      unfold inside. f_equal. unfold m, E', TE. cbn [member]. f_equal.
      assert (FE : forall l (h1 h2 : nat -> bool), (forall e, In e l -> h1 e = h2 e) -> filter h1 l = filter h2 l).
      { induction l as [|a l IH]; intros h1 h2 H; [reflexivity|]. simpl. rewrite (H a) by (left; auto). rewrite (IH h1 h2) by (intros; apply H; right; auto). reflexivity. }
      apply FE. intros f F. apply (beneath_q E ids p M HP Hd M0 HM' f F).
    - destruct IN as (_ & L1 & L2). split; [apply (plt1 E ids p M Hd M0 HM'); [exists e; auto|exact L1]|apply (plt2 E ids p M Hd M0 HM'); [exists e; auto|exact L2]].
    - pose proof (hgt_q E p M e) as HQ. rewrite (proj1 IN) in HQ. etransitivity; [exact HQ|ring].
    - apply (not_vertex E ids p M HP Hd M0 HM' e I IN). }
  destruct (BYP (mk_point 0 0 1) ltac:(simpl; lia)) as (K0 & R0 & _).
  exists (filter (fun v => K0 (fst v)) res). split; [exact R0|]. exists K0. split; [reflexivity|].
  intros e p I Hd IN. destruct (BYP p Hd) as (K1 & R1 & H1). rewrite <- (H1 e I IN).
  rewrite R0 in R1. inversion R1 as [R2].
  assert (Ie : In (e, false) res) by (apply HE; exact I).
  assert (A : In (e, false) (filter (fun v => K0 (fst v)) res) <-> In (e, false) (filter (fun v => K1 (fst v)) res)) by (rewrite R2; tauto).
  rewrite !filter_In in A. simpl in A. destruct (K0 e), (K1 e); auto; [symmetry|]; tauto.
Qed.

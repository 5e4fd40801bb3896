(** The reduction pass leaves an even number of edge ends at each point, so the construction of paths succeeds after it *)
From Coq Require Import ZArith NArith List Bool Lia Arith Permutation Sorted ZifyBool.
From Verif Require Import Reduce_model Reduce_spec Reduce_proofs Reduce_proofs2 Reduce_proofs3 Poly_model Poly_spec Poly_proofs Poly_proofs6 Poly_proofs7.
Import ListNotations.
Open Scope Z_scope.

Lemma parity_xor : forall (k p q : nat -> bool) l, parity k (filter (fun e => xorb (p e) (q e)) l) = xorb (parity k (filter p l)) (parity k (filter q l)).
Proof.
  intros k p q. unfold parity. induction l as [|e l IH]; [reflexivity|]. cbn [filter].
  destruct (p e), (q e); cbn [xorb map fold_right]; rewrite IH;
    destruct (k e), (fold_right xorb false (map k (filter p l))), (fold_right xorb false (map k (filter q l))); reflexivity.
Qed.
Lemma xor_xor : forall (m : nat -> N) (p q : nat -> bool) l, xor_all (map m (filter (fun e => xorb (p e) (q e)) l)) = N.lxor (xor_all (map m (filter p l))) (xor_all (map m (filter q l))).
Proof.
  intros m p q. unfold xor_all. induction l as [|e l IH]; [reflexivity|]. cbn [filter].
  destruct (p e), (q e); cbn [xorb map fold_right]; rewrite IH; clear IH;
    set (a := fold_right N.lxor 0%N (map m (filter p l))); set (b := fold_right N.lxor 0%N (map m (filter q l))); apply N.bits_inj; intros i; rewrite ?N.lxor_spec;
    destruct (N.testbit (m e) i), (N.testbit a i), (N.testbit b i); reflexivity.
Qed.
Lemma filter_ext_in : forall (h1 h2 : nat -> bool) l, (forall e, In e l -> h1 e = h2 e) -> filter h1 l = filter h2 l.
Proof. intros h1 h2. induction l as [|e l IH]; intros H; [reflexivity|]. cbn [filter]. rewrite (H e) by (left; auto). rewrite IH by (intros; apply H; right; auto). reflexivity. Qed.

Section Kept.
Variables (E : nat -> edge) (ids : list nat).
Hypothesis HN : NoDup ids.
Hypothesis Hlr : forall e, In e ids -> xl (E e) < xr (E e).
Hypothesis Hev : forall v, isv E ids v -> exists k, fst v = 2 * k.
Hypothesis Hgx : forall v w, isv E ids v -> isv E ids w -> fst v = fst w -> v = w.
Hypothesis H3a : forall f g X Y, In f ids -> In g ids -> f <> g -> both E f g X -> both E f g Y -> 0 < Df (E f) (E g) X -> 0 <= Df (E f) (E g) Y.
Hypothesis H3b : forall f g X, In f ids -> In g ids -> f <> g -> both E f g X -> Df (E f) (E g) X = 0 ->
  (X = xl (E f) \/ X = xr (E f)) /\ (X = xl (E g) \/ X = xr (E g)).
Variables (comb : N -> bool) (n : N) (res : list vertex).
Hypothesis Hm : forall e, In e ids -> (member (E e) < 2 ^ n)%N.
Hypothesis Hres : ends_of E ids res.
Hypothesis Hcl : closed E ids.

Definition col (X : Z) (e : nat) : bool := (xl (E e) <? X) && (X <? xr (E e)).
Lemma col_in : forall X e, In e (filter (col X) ids) <-> In e ids /\ xl (E e) < X < xr (E e).
Proof. intros X e. rewrite filter_In. unfold col. rewrite andb_true_iff, !Z.ltb_lt. tauto. Qed.
Lemma B_col : forall X e, (forall v, isv E ids v -> fst v <> X) -> In e (filter (col X) ids) ->
  B E ids e = under (ltb E) (m E) (filter (col X) ids) e.
Proof.
  intros X e NV Ie. unfold B, under.
  destruct (sorted_cut E X res) as (pre & post & R & A1 & A2).
  { intros a b c v w R. destruct (order E ids Hgx res Hres _ _ _ _ _ R) as [Y|(Y & _)]; [lia|unfold evx; rewrite Y; lia]. }
  { intros v V. apply NV, (isv_end E ids res Hres), V. }
  destruct (run E ids HN Hlr Hev Hgx H3a H3b comb n res Hm Hres Hcl (fun _ => 0%N) (fun _ => false) pre post R) as (d & _ & (I1 & I2 & _) & _ & F).
  specialize (F X A1 A2).
  assert (Sin : forall f, In f (state d) <-> In f (filter (col X) ids)).
  { intros f. rewrite I1, col_in. unfold active. split.
    - intros (Y1 & Y2). assert (If : In f ids) by (apply (res_in E ids res Hres f false); rewrite R; apply in_or_app; auto). split; [exact If|].
      split; [apply (A1 _ Y1)|]. assert (Q : In (f, true) (pre ++ post)) by (rewrite <- R; apply (res_in E ids res Hres), If).
      apply in_app_or in Q. destruct Q as [Q|Q]; [contradiction|]. specialize (A2 _ Q). unfold evx, end_of in A2. cbn [fst snd] in A2.
      pose proof (NV _ (isv_r E ids f If)). unfold xr. lia.
    - intros (If & Y1 & Y2). split.
      + assert (Q : In (f, false) (pre ++ post)) by (rewrite <- R; apply (res_in E ids res Hres), If).
        apply in_app_or in Q. destruct Q as [Q|Q]; [exact Q|]. specialize (A2 _ Q). unfold evx, end_of in A2. cbn [fst snd] in A2. unfold xl in Y1. lia.
      + intros Q. specialize (A1 _ Q). unfold evx, end_of in A1. cbn [fst snd] in A1. unfold xr in Y2. lia. }
  assert (Se : In e (state d)) by (apply Sin, Ie).
  fold (B E ids e). rewrite (F e Se). unfold U. apply xor_set.
  - apply NoDup_filter, (sorted_nodup E), I2.
  - apply NoDup_filter, NoDup_filter, HN.
  - intros f. rewrite !filter_In, Sin, filter_In. tauto.
Qed.
Lemma parity_col : forall X, (forall v, isv E ids v -> fst v <> X) ->
  parity (K E ids comb) (filter (col X) ids) = xorb (comb (xor_all (map (m E) (filter (col X) ids)))) (comb 0%N).
Proof.
  intros X NV. rewrite <- (tele (ltb E) (m E) comb (length (filter (col X) ids)) (filter (col X) ids) eq_refl).
  - apply parity_ext. intros e I. unfold K. rewrite (B_col X e NV I). reflexivity.
  - apply NoDup_filter, HN.
  - intros e f Ie If Nef. apply col_in in Ie, If. apply (lt_anti E ids Hlr Hev H3a H3b); try tauto; [congruence|]. unfold overlap. lia.
  - intros e f g Ie If Ig L1 L2. apply col_in in Ie, If, Ig. apply (lt_trans E ids Hlr Hev H3a H3b e f g X); tauto.
  - intros e _. apply lt_irrefl.
Qed.

Lemma kept_even_gen : even_ends E (filter (K E ids comb) ids).
Proof.
  intros x. set (k := K E ids comb).
  assert (SW : forall h, length (filter h (filter k ids)) = length (filter k (filter h ids))).
  { intros h. rewrite !filter_filter. f_equal. apply filter_ext_in. intros e _. apply andb_comm. }
  rewrite !SW. set (pl := fun e => same x (left (E e))). set (pr := fun e => same x (rigt (E e))).
  apply Nat.even_spec. rewrite <- Nat.negb_odd, Nat.odd_add, !odd_parity. apply negb_true_iff. rewrite <- parity_xor.
  destruct (existsb (fun e => pl e || pr e) ids) eqn:EX.
  - apply existsb_exists in EX. destruct EX as (e0 & I0 & H0).
    assert (V : isv E ids x) by (apply orb_true_iff in H0; unfold pl, pr in H0; rewrite !same_iff in H0; exists e0; auto).
    destruct (Hev x V) as (j & J).
    assert (Q : forall h, (forall e, In e ids -> h e = xorb (col (2 * j - 1) e) (col (2 * j + 1) e)) -> forall e, In e ids -> h e = xorb (col (2 * j - 1) e) (col (2 * j + 1) e)) by auto.
    assert (PX : forall e, In e ids -> xorb (pl e) (pr e) = xorb (col (2 * j - 1) e) (col (2 * j + 1) e)).
    { intros e I. specialize (Hlr e I). destruct (Hev _ (isv_l E ids e I)) as (a & A). destruct (Hev _ (isv_r E ids e I)) as (b & B).
      assert (L : pl e = (xl (E e) =? 2 * j)).
      { apply eq_true_iff_eq. unfold pl. rewrite same_iff, Z.eqb_eq. unfold xl. split; [intros <-; exact J|intros Y; apply Hgx; [exact V|apply isv_l, I|lia]]. }
      assert (R : pr e = (xr (E e) =? 2 * j)).
      { apply eq_true_iff_eq. unfold pr. rewrite same_iff, Z.eqb_eq. unfold xr. split; [intros <-; exact J|intros Y; apply Hgx; [exact V|apply isv_r, I|lia]]. }
      rewrite L, R. unfold col, xl, xr in *. rewrite A, B in *.
      destruct (Z.eqb_spec (2 * a) (2 * j)), (Z.eqb_spec (2 * b) (2 * j)), (Z.ltb_spec (2 * a) (2 * j - 1)), (Z.ltb_spec (2 * j - 1) (2 * b)), (Z.ltb_spec (2 * a) (2 * j + 1)), (Z.ltb_spec (2 * j + 1) (2 * b)); try reflexivity; exfalso; lia. }
    rewrite (filter_ext_in _ _ ids PX), parity_xor, !parity_col.
    + assert (XX : N.lxor (xor_all (map (m E) (filter (col (2 * j - 1)) ids))) (xor_all (map (m E) (filter (col (2 * j + 1)) ids))) = 0%N).
      { rewrite <- xor_xor, <- (filter_ext_in _ _ ids PX), xor_xor. unfold pl, pr. fold (xor_all (map (m E) (filter (fun e => same x (left (E e))) ids))). unfold m. rewrite (Hcl x). apply N.lxor_nilpotent. }
      apply N.lxor_eq in XX. rewrite XX. apply xorb_nilpotent.
    + intros v W. destruct (Hev v W) as (i & ->). lia.
    + intros v W. destruct (Hev v W) as (i & ->). lia.
  - assert (FN : filter (fun e => xorb (pl e) (pr e)) ids = []).
    { assert (Z : forall l, (forall e, In e l -> xorb (pl e) (pr e) = false) -> filter (fun e => xorb (pl e) (pr e)) l = []).
      { induction l as [|e l IH]; intros H; [reflexivity|]. cbn [filter]. rewrite H by (left; auto). apply IH. intros; apply H; right; auto. }
      apply Z. intros e I. destruct (pl e || pr e) eqn:O; [|apply orb_false_iff in O; destruct O as (-> & ->); reflexivity].
      exfalso. assert (existsb (fun e => pl e || pr e) ids = true) by (apply existsb_exists; eauto). congruence. }
    rewrite FN. reflexivity.
Qed.
End Kept.

Lemma even_ends_T : forall k M E l, 0 < k -> 0 < M -> even_ends (fun i => TE k M (E i)) l -> even_ends E l.
Proof.
  intros k M E l K0 M0 H x. specialize (H (T k M x)).
  assert (Q : forall v, same (T k M x) (T k M v) = same x v).
  { intros v. apply eq_true_iff_eq. rewrite !same_iff. split; [apply T_inj; auto|intros ->; auto]. }
  rewrite (filter_ext (fun e => same (T k M x) (left (TE k M (E e)))) (fun e => same x (left (E e)))) in H by (intros; apply Q).
  rewrite (filter_ext (fun e => same (T k M x) (rigt (TE k M (E e)))) (fun e => same x (rigt (E e)))) in H by (intros; apply Q).
  exact H.
Qed.
Lemma kept_even : forall E ids comb n b0 k0 res, planar E ids -> closed E ids -> ends_of E ids res -> (forall e, In e ids -> (member (E e) < 2 ^ n)%N) ->
  exists K, reduce E comb (2 ^ n) b0 k0 res = Some (filter (fun v => K (fst v)) res) /\ even_ends E (filter K ids).
Proof.
  intros E ids comb n b0 k0 res HP HC HE Hm. set (p := mk_point 0 0 1). assert (Hd : 0 < pd p) by reflexivity.
  destruct (bound_exists E (2 * pd p) (2 * py p) ids) as (M & M0 & HM).
  assert (HM' : forall e, In e ids -> 2 * (pd p * yb (E e) + Z.abs (py p)) < M) by (intros e I; specialize (HM e I); unfold yb in *; nia).
  set (k := 2 * pd p). set (E' := fun i => TE k M (E i)).
  assert (K0 : 0 < k) by (unfold k; lia).
  exists (K E' ids comb). split.
  - rewrite <- (reduce_T k M) by auto.
    exact (reduce_generic E' ids (proj1 HP) (lr E ids p M HP Hd M0 HM') (ev_even E ids p M) (gx E ids p M Hd M0 HM')
      (h3a E ids p M HP Hd M0 HM') (h3b E ids p M HP Hd M0 HM') comb n res Hm (ends_T E ids p M Hd M0 HM' res HE) (closed_T E ids p M Hd M0 HC) b0 k0).
  - apply (even_ends_T k M E); [exact K0|exact M0|].
    exact (kept_even_gen E' ids (proj1 HP) (lr E ids p M HP Hd M0 HM') (ev_even E ids p M) (gx E ids p M Hd M0 HM')
      (h3a E ids p M HP Hd M0 HM') (h3b E ids p M HP Hd M0 HM') comb n res Hm (ends_T E ids p M Hd M0 HM' res HE) (closed_T E ids p M Hd M0 HC)).
Qed.

(** ** Sublists *)
Lemma filter_split2 : forall A (q : A -> bool) l a v b w c, filter q l = a ++ v :: b ++ w :: c -> exists a' b' c', l = a' ++ v :: b' ++ w :: c'.
Proof.
  assert (S1 : forall A (q : A -> bool) l a v b, filter q l = a ++ v :: b -> exists a' b', l = a' ++ v :: b' /\ filter q b' = b).
  { intros A q. induction l as [|x l IH]; intros a v b H; [destruct a; discriminate|]. cbn [filter] in H. destruct (q x).
    - destruct a as [|y a]; injection H as -> H; [exists [], l; auto|]. destruct (IH _ _ _ H) as (a' & b' & -> & Q). exists (y :: a'), b'. auto.
    - destruct (IH _ _ _ H) as (a' & b' & -> & Q). exists (x :: a'), b'. auto. }
  intros A q l a v b w c H. destruct (S1 _ _ _ _ _ _ H) as (a' & r & -> & Q). destruct (S1 _ _ _ _ _ _ Q) as (b' & c' & -> & _). exists a', b', c'. reflexivity.
Qed.
Lemma planar_sub : forall E ids K, planar E ids -> planar E (filter K ids).
Proof.
  intros E ids K (P1 & P2 & P3). split; [apply NoDup_filter, P1|]. split.
  - intros e I. apply filter_In in I. apply P2, I.
  - intros e f p Ie If. apply filter_In in Ie, If. apply P3; tauto.
Qed.
Lemma ends_sub : forall E ids K res, ends_of E ids res -> ends_of E (filter K ids) (filter (fun v => K (fst v)) res).
Proof.
  intros E ids K res (P1 & P2 & P3). split; [apply NoDup_filter, P1|]. split.
  - intros e s. rewrite !filter_In, P2. cbn [fst]. tauto.
  - intros a b c v w Q. destruct (filter_split2 _ _ _ _ _ _ _ _ Q) as (a' & b' & c' & Q'). exact (P3 _ _ _ _ _ Q').
Qed.
Lemma rigt_sub : forall E (K : nat -> bool) res, rigt_order E res -> rigt_order E (filter (fun v => K (fst v)) res).
Proof. intros E K res H a b c v w Q. destruct (filter_split2 _ _ _ _ _ _ _ _ Q) as (a' & b' & c' & Q'). exact (H _ _ _ _ _ Q'). Qed.
Lemma filter_length_le : forall A (q : A -> bool) l, (length (filter q l) <= length l)%nat.
Proof. intros A q. induction l as [|x l IH]; cbn [filter]; [lia|]. destruct (q x); cbn [length]; lia. Qed.

Theorem reduce_poly : forall E ids comb n b0 k0 res fuel q0 h0 p0,
  planar E ids -> closed E ids -> ends_of E ids res -> rigt_order E res -> (forall e, In e ids -> (member (E e) < 2 ^ n)%N) ->
  (length ids <= fuel)%nat -> 2 * Z.of_nat (length ids) + 3 < 2 ^ 32 ->
  exists out r, reduce E comb (2 ^ n) b0 k0 res = Some out /\ poly E fuel q0 h0 p0 out = Done r
  /\ NoDup (points r)
  /\ Forall (fun w => NoDup w /\ (3 <= length w)%nat /\ forall i, In i w -> (i < length (points r))%nat) (paths r)
  /\ (exists b, Permutation (path_edges (points r) (paths r)) (map (fun e => directed (E e) (b e)) (filter (fun e => existsb (vertex_eqb (e, LEFT)) out) ids)))
  /\ forall p, 0 < pd p -> (forall e, In e ids -> pd p * fst (left (E e)) <> px p /\ pd p * fst (rigt (E e)) <> px p) ->
     winding p (path_edges (points r) (paths r)) = if xorb (comb (inside E ids p)) (comb 0%N) then 1 else 0.
Proof.
  intros E ids comb n b0 k0 res fuel q0 h0 p0 HP HC HE HRo Hm HF HS.
  destruct (kept_even E ids comb n b0 k0 res HP HC HE Hm) as (K & RED & EV).
  set (out := filter (fun v => K (fst v)) res) in *.
  assert (KE : forall e, In e ids -> existsb (vertex_eqb (e, LEFT)) out = K e).
  { intros e I. apply eq_true_iff_eq. rewrite existsb_exists. split.
    - intros (v & V & Q). apply filter_In in V. destruct V as (_ & V). unfold vertex_eqb in Q. apply andb_true_iff in Q. destruct Q as (Q & _).
      apply Nat.eqb_eq in Q. cbn [fst] in Q. rewrite Q. exact V.
    - intros Q. exists (e, LEFT). split; [apply filter_In; split; [apply HE, I|exact Q]|]. unfold vertex_eqb. rewrite Nat.eqb_refl. reflexivity. }
  assert (LK := filter_length_le nat K ids).
  destruct (poly_total E (filter K ids) out fuel q0 h0 p0 (planar_sub E ids K HP) EV (ends_sub E ids K res HE) (rigt_sub E K res HRo) ltac:(lia) ltac:(lia))
    as (r & b & P & N1 & F1 & PE & BI).
  exists out, r. split; [exact RED|]. split; [exact P|]. split; [exact N1|]. split; [|split].
  - assert (T3 := three_points E (filter K ids) b (points r) (paths r) (planar_sub E ids K HP) N1 F1 PE).
    rewrite Forall_forall in *. intros w W. destruct (F1 w W) as (X1 & X2 & X3). split; [exact X1|]. split; [apply T3, W|exact X3].
  - exists b. rewrite (filter_ext_in _ _ ids KE). exact PE.
  - intros p Hd HV. unfold path_edges. rewrite (winding_perm p _ _ PE), (winding_ok E (filter K ids) b p (planar_sub E ids K HP) Hd); [| |exact BI].
    + rewrite <- (region_ok E ids comb n b0 k0 res out HP HC HE Hm RED p Hd HV). rewrite filter_filter.
      rewrite (filter_ext_in (fun v => K v && beneath p (E v)) (fun e => beneath p (E e) && existsb (vertex_eqb (e, LEFT)) out) ids); [reflexivity|].
      intros e I. rewrite KE by exact I. apply andb_comm.
    + intros e I. apply filter_In in I. apply HV, I.
Qed.

(** Proofs about the triangulation: cutting off triangles *)
From Coq Require Import ZArith List Bool Lia Arith ZifyBool.
From Verif Require Import List_model Reduce_model Poly_model Tri_model Tri_spec Tri_proofs Tri_proofs2.
Import ListNotations.
Open Scope Z_scope.

(** What removing vertices of R does *)
Record shrunk (d : tdata) (L : list nat) (p : vx) (M R : list vx) (d' : tdata) (L' : list nat) (R' : list vx) : Prop := {
  k_fr : frame d d';
  k_on : forall u, on d' L' u <-> on d L u /\ (In u R -> In u R');
  k_sub : incl R' R;
  k_stp : forall b u, on d L u -> ~ In u (p :: M ++ R) -> stp d' b u = stp d b u
}.
Lemma shrunk_refl : forall d L p M R, shrunk d L p M R d L R.
Proof. intros d L p M R. constructor; [apply frame_refl|tauto|apply incl_refl|reflexivity]. Qed.
Lemma shrunk_trans : forall d L p M R d1 L1 R1 d2 L2 R2, shrunk d L p M R d1 L1 R1 -> shrunk d1 L1 p M R1 d2 L2 R2 -> shrunk d L p M R d2 L2 R2.
Proof.
  intros d L p M R d1 L1 R1 d2 L2 R2 H1 H2. constructor.
  - eapply frame_trans; [apply H1|apply H2].
  - intros u. rewrite (k_on _ _ _ _ _ _ _ _ H2), (k_on _ _ _ _ _ _ _ _ H1). pose proof (k_sub _ _ _ _ _ _ _ _ H2 u). pose proof (k_sub _ _ _ _ _ _ _ _ H1 u). tauto.
  - eapply incl_tran; [apply H2|apply H1].
  - intros b u Ou Nu. rewrite (k_stp _ _ _ _ _ _ _ _ H2), (k_stp _ _ _ _ _ _ _ _ H1); auto.
    + apply (k_on _ _ _ _ _ _ _ _ H1). split; [exact Ou|]. intros X. exfalso. apply Nu. right. apply in_or_app. right. exact X.
    + intros X. apply Nu. destruct X as [X|X]; [left; exact X|right]. apply in_app_iff in X. apply in_or_app. destruct X as [X|X]; [left; exact X|right]. apply (k_sub _ _ _ _ _ _ _ _ H1), X.
Qed.

Lemma split_last : forall (p : vx) M, exists A, p :: M = A ++ [last M p].
Proof.
  intros p M. destruct M as [|a M] using rev_ind; [exists []; reflexivity|]. exists (p :: M). rewrite last_last. reflexivity.
Qed.
Lemma seg_form : forall p M (R : list vx), exists A, p :: M ++ R = A ++ last M p :: R.
Proof. intros p M R. destruct (split_last p M) as (A & Q). exists A. change (p :: M ++ R) with ((p :: M) ++ R). rewrite Q, <- app_assoc. reflexivity. Qed.

Section Facts.
Variables (P : vx -> Prop) (d : tdata) (L : list nat) (bk : bool) (p : vx) (M : list vx) (q x : vx) (C : list vx) (z : vx).
Hypothesis G : seg P d L bk p M (q :: x :: C) z.
Let y := last M p.
Lemma drop_facts : on d L y /\ on d L q /\ on d L x /\ stp d bk y = q /\ stp d bk q = x /\ stp d (negb bk) q = y /\ stp d (negb bk) x = q /\ y <> q /\ x <> q /\ y <> x /\ valid d q = true /\ q <> z /\ ~ In q (x :: C) /\ ~ In q (p :: M) /\ In y (p :: M).
Proof.
  destruct (seg_form p M (q :: x :: C)) as (A & E). fold y in E. pose proof (s_on _ _ _ _ _ _ _ _ G) as O. pose proof (s_nd _ _ _ _ _ _ _ _ G) as N. pose proof (s_pth _ _ _ _ _ _ _ _ G) as T.
  assert (Y : In y (p :: M)) by (destruct (split_last p M) as (A' & E'); rewrite E'; apply in_or_app; right; left; reflexivity).
  assert (NN : ~ In q (p :: M) /\ ~ In q (x :: C)).
  { change (p :: M ++ q :: x :: C) with ((p :: M) ++ q :: x :: C) in N. apply NoDup_remove_2 in N. rewrite in_app_iff in N. tauto. }
  assert (QZ : q <> z).
  { destruct (s_last _ _ _ _ _ _ _ _ G) as (R1 & E1). intros ->. apply (proj2 NN). destruct R1 as [|r R1]; [discriminate|]. cbn [app] in E1. injection E1 as _ ->. apply in_or_app. right. left. reflexivity. }
  assert (VQ : valid d q = true) by (apply (s_val _ _ _ _ _ _ _ _ G); [right; apply in_or_app; right; left; reflexivity|exact QZ]).
  rewrite E in O, N, T. apply Forall_app in O. destruct O as (_ & O). inversion O as [|? ? Oy O2]; subst. inversion O2 as [|? ? Oq O3]; subst. inversion O3 as [|? ? Ox O4]; subst.
  apply pth_cut in T. destruct T as (_ & T1 & T2 & _).
  assert (Nyx : y <> x). { apply NoDup_remove_2 in N. rewrite in_app_iff in N. intros Z. apply N. right. right. left. symmetry. exact Z. }
  assert (W : wf d L) by apply G.
  repeat match goal with |- _ /\ _ => split end; auto; try tauto.
  - rewrite <- T1. apply (stp_inv d L W), Oy.
  - rewrite <- T2. apply (stp_inv d L W), Oq.
  - intros Z. apply (proj1 NN). rewrite <- Z. exact Y.
  - intros Z. apply (proj2 NN). left. exact Z.
Qed.
End Facts.

Section Drop.
Variables (P Q : vx -> Prop) (d : tdata) (L : list nat) (bk : bool) (p : vx) (M : list vx) (q x : vx) (C : list vx) (z : vx) (d' : tdata) (L' : list nat).
Hypothesis G : seg P d L bk p M (q :: x :: C) z.
Hypothesis Rm : removed d L q d' L'.
Hypothesis QP : forall u, on d L u -> u <> q -> Q u -> P u.
Let y := last M p.
Hypothesis New : Q x -> Q y -> valid d x = true -> xy d x = xy d y -> vertex_eq_buddy d y = Some x /\ vertex_eq_buddy d x = Some y.
Lemma seg_drop : seg Q d' L' bk p M (x :: C) z /\ shrunk d L p M (q :: x :: C) d' L' (x :: C).
Proof.
  destruct (drop_facts P d L bk p M q x C z G) as (Oy & Oq & Ox & T1 & T2 & T3 & T4 & N1 & N2 & N3 & Vq & Nqz & Nq1 & Nq2 & Iy). pose proof (r_fr _ _ _ _ _ Rm) as Fr. assert (W : wf d L) by apply G.
  assert (SUB : forall u, In u (p :: M ++ x :: C) -> In u (p :: M ++ q :: x :: C)).
  { intros u U. change (p :: M ++ x :: C) with ((p :: M) ++ x :: C) in U. change (p :: M ++ q :: x :: C) with ((p :: M) ++ q :: x :: C). apply in_app_iff in U. apply in_or_app. destruct U; [left|right; right]; assumption. }
  assert (NQ : ~ In q (p :: M ++ x :: C)) by (change (p :: M ++ x :: C) with ((p :: M) ++ x :: C); rewrite in_app_iff; tauto).
  assert (Zin : In z (x :: C)).
  { destruct (s_last _ _ _ _ _ _ _ _ G) as (R1 & E1). destruct R1 as [|r R1]; [discriminate|]. cbn [app] in E1. injection E1 as _ ->. apply in_or_app. right. left. reflexivity. }
  assert (Oz : on d L z). { pose proof (s_on _ _ _ _ _ _ _ _ G) as O. rewrite Forall_forall in O. apply O, SUB. right. apply in_or_app. right. exact Zin. }
  assert (Op : on d L p). { pose proof (s_on _ _ _ _ _ _ _ _ G) as O. inversion O; assumption. }
  assert (Npq : p <> q) by (intros Z; apply Nq2; left; exact Z).
  split.
  - constructor.
    + apply Rm.
    + apply (eb_remove P Q d L q d' L' W Oq Rm (s_eb _ _ _ _ _ _ _ _ G) QP). intros b X Y QX QY XV YV XY VX VY EQ. subst X Y.
      assert (B : b = bk \/ b = negb bk) by (destruct b, bk; auto). destruct B as [-> | ->].
      * rewrite T2, T3 in *. apply (r_bud _ _ _ _ _ Rm); auto. apply New; auto.
      * rewrite negb_involutive in *. rewrite T2, T3 in *. apply (r_bud _ _ _ _ _ Rm); auto. apply New; auto.
    + apply Forall_forall. intros u U. apply (r_on _ _ _ _ _ Rm). split; [|intros ->; apply NQ, U].
      pose proof (s_on _ _ _ _ _ _ _ _ G) as O. rewrite Forall_forall in O. apply O, SUB, U.
    + pose proof (s_nd _ _ _ _ _ _ _ _ G) as N. change (p :: M ++ q :: x :: C) with ((p :: M) ++ q :: x :: C) in N. apply NoDup_remove_1 in N. exact N.
    + apply (pth_mid d L q d' L' bk (p :: M) (x :: C) Rm W); apply G.
    + destruct (s_last _ _ _ _ _ _ _ _ G) as (R1 & E1). destruct R1 as [|r R1]; [discriminate|]. cbn [app] in E1. injection E1 as _ E1. exists R1. exact E1.
    + intros u U NZ. rewrite (valid_frame d d' _ Fr). apply (s_val _ _ _ _ _ _ _ _ G); [apply SUB, U|exact NZ].
    + rewrite (valid_frame d d' _ Fr), !(xy_frame d d' _ Fr), (lv_frame d d' _ _ Fr). destruct (s_z _ _ _ _ _ _ _ _ G) as [Z|(Z1 & Z2 & Z3 & Z4 & Z5)]; [left; exact Z|right].
      split; [exact Z1|split; [exact Z2|split; [|split]]].
      * rewrite (r_stp _ _ _ _ _ Rm) by auto. rewrite Z3, veq_ne; auto.
      * apply (r_bud _ _ _ _ _ Rm); auto.
      * exact Z5.
    + destruct (s_m _ _ _ _ _ _ _ _ G) as [(Z1 & Z2)|(p' & Z1 & Z2 & Z3)]; [left; split; [exact Z1|rewrite (en_frame d d' _ _ Fr); exact Z2]|right].
      exists p'. rewrite !(xy_frame d d' _ Fr), (en_frame d d' _ _ Fr). repeat split; assumption.
  - constructor.
    + exact Fr.
    + intros u. rewrite (r_on _ _ _ _ _ Rm). split; intros (Ou & H); (split; [exact Ou|]).
      * intros [U|U]; [exfalso; apply H; symmetry; exact U|exact U].
      * intros ->. apply Nq1, H. left. reflexivity.
    + intros u U. right. exact U.
    + intros b u Ou Nu. rewrite (r_stp _ _ _ _ _ Rm); [|exact Ou|intros ->; apply Nu; right; apply in_or_app; right; left; reflexivity].
      rewrite veq_ne; [reflexivity|]. intros Z. assert (U : u = stp d (negb b) q) by (rewrite <- Z; symmetry; apply (stp_inv d L W), Ou). apply Nu.
      assert (B : b = bk \/ b = negb bk) by (destruct b, bk; auto). destruct B as [-> | ->].
      * rewrite T3 in U. rewrite U. apply (in_or_app (p :: M)). left. exact Iy.
      * rewrite negb_involutive, T2 in U. rewrite U. apply (in_or_app (p :: M)). right. right. left. reflexivity.
Qed.
End Drop.

Section Two.
Variables (d : tdata) (L : list nat) (bk : bool) (p : vx) (M : list vx) (z : vx) (d' : tdata).
Lemma y_en : forall P R, seg P d L bk p M R z -> last M p = en d bk (fst (last M p)) /\ xy d (last M p) = xy d p.
Proof.
  intros P R G. destruct (s_m _ _ _ _ _ _ _ _ G) as [(-> & E)|(p' & -> & X & E)]; cbn [last]; split; auto.
Qed.
Lemma x_val : forall P q x C, seg P d L bk p M (q :: x :: C) z -> x = en d bk (fst x) -> valid d x = true.
Proof.
  intros P q x C G E. destruct (vx_dec x z) as [-> |N].
  - destruct (s_z _ _ _ _ _ _ _ _ G) as [(_ & Z)|(Z & _)]; [|exact Z]. exfalso. rewrite E in Z at 1. exact (en_ne_lv _ _ _ Z).
  - apply (s_val _ _ _ _ _ _ _ _ G); [|exact N]. right. apply in_or_app. right. right. left. reflexivity.
Qed.
Lemma rem2_seg : forall P q x C, seg P d L bk p M (q :: x :: C) z -> vertex_remove2 q d = Done d' ->
  exists d1 L1, removed d L q d1 L1 /\
  (vertex_eq_buddy d q <> Some x /\ removed d L q d' L1 \/
   exists L', vertex_eq_buddy d q = Some x /\ xy d x = xy d q /\ x = en d bk (fst x) /\ x <> z /\ on d1 L1 x /\ removed d1 L1 x d' L').
Proof.
  intros P q x C G H. destruct (seg_form p M (q :: x :: C)) as (A & E).
  pose proof (s_on _ _ _ _ _ _ _ _ G) as O. pose proof (s_nd _ _ _ _ _ _ _ _ G) as N. pose proof (s_pth _ _ _ _ _ _ _ _ G) as T.
  destruct (drop_facts P d L bk p M q x C z G) as (Oy & Oq & Ox & _ & _ & _ & _ & _ & _ & _ & Vq & Nqz & _ & Nqp & _). destruct (y_en P _ G) as (Y1 & Y2).
  rewrite E in O, N, T.
  destruct (rem2_case d L bk A (last M p) q x C (s_wf _ _ _ _ _ _ _ _ G) N O T Vq) with (d' := d') as (d1 & L1 & R1 & K).
  - intros _. apply (x_val P q x C G).
  - right. intros Z. rewrite Y1 in Z at 1. exact (en_ne_lv _ _ _ Z).
  - exact H.
  - exists d1, L1. split; [exact R1|]. destruct K as [K|(L' & K1 & K2 & K3 & K4 & K5)]; [left; exact K|right]. exists L'. repeat match goal with |- _ /\ _ => split end; auto; try apply K4.
    intros Z. subst x. destruct (s_z _ _ _ _ _ _ _ _ G) as [(_ & Z)|(_ & _ & _ & Z & _)].
    + rewrite K3 in Z at 1. exact (en_ne_lv _ _ _ Z).
    + pose proof (eq_buddy_sym d L q z (s_wf _ _ _ _ _ _ _ _ G) (proj1 Oq) K1) as Z2. apply Nqp. left. congruence.
Qed.
(** q, and the vertex at the same place that may follow, is removed *)
Lemma rem_q : forall (Q : vx -> Prop) q M2 w C, seg all d L bk p M (q :: M2 ++ w :: C) z -> vertex_remove2 q d = Done d' -> xy d q <> xy d p -> xy d w <> xy d q ->
  M2 = [] \/ (exists q', M2 = [q'] /\ xy d q' = xy d q /\ vertex_eq_buddy d q = Some q') ->
  (Q w -> Q (last M p) -> valid d w = true -> xy d w = xy d (last M p) -> vertex_eq_buddy d (last M p) = Some w /\ vertex_eq_buddy d w = Some (last M p)) ->
  exists L', seg Q d' L' bk p M (w :: C) z /\ shrunk d L p M (q :: M2 ++ w :: C) d' L' (w :: C) /\ tris d' = tris d
    /\ forall u x, on d L u -> on d L x -> In u (w :: C) -> In x (w :: C) -> vertex_eq_buddy d u = Some x -> vertex_eq_buddy d' u = Some x.
Proof.
  intros Q q M2 w C G H Nq Nw HM New. destruct (y_en all _ G) as (Y1 & Y2). destruct HM as [->|(q' & -> & X & B)]; cbn [app] in *.
  - destruct (rem2_seg all q w C G H) as (d1 & L1 & R1 & [(_ & R)|(L' & _ & K & _)]); [|contradiction].
    destruct (drop_facts all d L bk p M q w C z G) as (_ & _ & _ & _ & _ & _ & _ & _ & _ & _ & _ & _ & Nq1 & _).
    destruct (seg_drop all Q d L bk p M q w C z d' L1 G R) as (G' & S'); [intros; exact I|exact New|]. exists L1. repeat match goal with |- _ /\ _ => split end; auto; [apply R|].
    intros u x Ou Ox Iu Ix. apply (r_bud _ _ _ _ _ R); auto; intros ->; contradiction.
  - destruct (rem2_seg all q q' (w :: C) G H) as (d1 & L1 & R1 & [(K & _)|(L' & K1 & K2 & K3 & K4 & K5 & R2)]); [contradiction|].
    destruct (drop_facts all d L bk p M q q' (w :: C) z G) as (_ & _ & _ & _ & _ & _ & _ & _ & _ & _ & _ & _ & Nq1 & _).
    destruct (seg_drop all all d L bk p M q q' (w :: C) z d1 L1 G R1) as (G1 & S1); [intros; exact I|intros _ _ _ Z; exfalso; congruence|].
    pose proof (k_fr _ _ _ _ _ _ _ _ S1) as Fr.
    destruct (drop_facts all d1 L1 bk p M q' w C z G1) as (Oy1 & _ & Ow1 & _ & _ & _ & _ & _ & _ & Nyw & _ & _ & Nq2 & Nq3 & Iy).
    assert (Oy : on d L (last M p)) by (apply (k_on _ _ _ _ _ _ _ _ S1) in Oy1; tauto). assert (Ow : on d L w) by (apply (k_on _ _ _ _ _ _ _ _ S1) in Ow1; tauto).
    assert (Nyq : last M p <> q) by (apply (r_on _ _ _ _ _ R1) in Oy1; tauto). assert (Nwq : w <> q) by (apply (r_on _ _ _ _ _ R1) in Ow1; tauto).
    destruct (seg_drop all Q d1 L1 bk p M q' w C z d' L' G1 R2) as (G2 & S2); [intros; exact I| |].
    + intros Qw Qy Vw X2. rewrite (valid_frame d d1 _ Fr) in Vw. rewrite !(xy_frame d d1 _ Fr) in X2. destruct (New Qw Qy Vw X2) as (B1 & B2). split; apply (r_bud _ _ _ _ _ R1); auto.
    + exists L'. split; [exact G2|split; [exact (shrunk_trans _ _ _ _ _ _ _ _ _ _ _ S1 S2)|split]]; [rewrite (r_tri _ _ _ _ _ R2); apply R1|].
      intros u x Ou Ox Iu Ix Bu. assert (U : u <> q /\ x <> q) by (split; intros ->; apply Nq1; right; assumption). assert (U' : u <> q' /\ x <> q') by (split; intros ->; contradiction).
      apply (r_bud _ _ _ _ _ R2); try tauto; try (apply (r_on _ _ _ _ _ R1); tauto). apply (r_bud _ _ _ _ _ R1); tauto.
Qed.
End Two.

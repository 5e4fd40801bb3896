(** Proofs about the triangulation: the ring of vertices *)
From Coq Require Import ZArith List Bool Lia Arith ZifyBool.
From Verif Require Import List_model Reduce_model Poly_model Tri_model Tri_spec.
Import ListNotations.
Open Scope Z_scope.

Lemma veq : forall a b : vx, vertex_eqb a b = true <-> a = b.
Proof.
  intros [a s] [b t]. unfold vertex_eqb. cbn [fst snd]. rewrite andb_true_iff, Nat.eqb_eq, Bool.eqb_true_iff. split; [intros (-> & ->); reflexivity|intros Q; injection Q; auto].
Qed.
Lemma veq_refl : forall a : vx, vertex_eqb a a = true.
Proof. intros a. apply veq. reflexivity. Qed.
Lemma veq_ne : forall a b : vx, a <> b -> vertex_eqb a b = false.
Proof. intros a b N. destruct (vertex_eqb a b) eqn:Q; [|reflexivity]. apply veq in Q. contradiction. Qed.
Lemma vx_dec : forall a b : vx, {a = b} + {a <> b}.
Proof. decide equality; [apply bool_dec|apply Nat.eq_dec]. Qed.

(** what the removal of vertices does not change *)
Definition frame (d d' : tdata) : Prop := tline d' = tline d /\ geo d' = geo d /\ fresh d' = fresh d /\ tback d' = tback d /\ inner d' = inner d
  /\ idx d' = idx d /\ rmost d' = rmost d /\ tpts d' = tpts d.
Lemma frame_refl : forall d, frame d d.
Proof. intros d. repeat split. Qed.
Lemma frame_trans : forall a b c, frame a b -> frame b c -> frame a c.
Proof. unfold frame. intros a b c H1 H2. intuition congruence. Qed.

Lemma other_other : forall v, other_end (other_end v) = v.
Proof. intros [e s]. unfold other_end. cbn [fst snd]. rewrite negb_involutive. reflexivity. Qed.
Lemma other_ne : forall v, other_end v <> v.
Proof. intros [e s] Q. injection Q as Q. destruct s; discriminate. Qed.
Lemma en_or_lv : forall d b v, (v = en d b (fst v) /\ other_end v = lv d b (fst v)) \/ (v = lv d b (fst v) /\ other_end v = en d b (fst v)).
Proof. intros d b [e s]. unfold en, lv, other_end. cbn [fst snd]. destruct s, (tback d e), b; auto. Qed.
Lemma en_ne_lv : forall d b e, en d b e <> lv d b e.
Proof. intros d b e Q. injection Q as Q. destruct (tback d e), b; discriminate. Qed.
Lemma other_en : forall d b e, other_end (en d b e) = lv d b e.
Proof. reflexivity. Qed.
Lemma other_lv : forall d b e, other_end (lv d b e) = en d b e.
Proof. intros d b e. unfold other_end, lv, en. cbn [fst snd]. rewrite negb_involutive. reflexivity. Qed.
Lemma en_neg : forall d b e, en d (negb b) e = lv d b e.
Proof. intros d b e. unfold en, lv. destruct (tback d e), b; reflexivity. Qed.
Lemma lv_neg : forall d b e, lv d (negb b) e = en d b e.
Proof. intros d b e. unfold en, lv. destruct (tback d e), b; reflexivity. Qed.
Lemma stp_en : forall d b e, dis d (lv d b e) = false -> stp d b (en d b e) = lv d b e.
Proof. intros d b e H. unfold stp. change (fst (en d b e)) with e. rewrite H. unfold en. cbn [snd]. rewrite Bool.eqb_reflx. reflexivity. Qed.
Lemma stp_en_dis : forall d b e, dis d (lv d b e) = true -> stp d b (en d b e) = ent d b (edge_step d e b).
Proof. intros d b e H. unfold stp. change (fst (en d b e)) with e. rewrite H, andb_false_r. reflexivity. Qed.
Lemma stp_lv : forall d b e, stp d b (lv d b e) = ent d b (edge_step d e b).
Proof. intros d b e. unfold stp, lv. cbn [fst snd]. replace (Bool.eqb (negb (xorb (tback d e) b)) (xorb (tback d e) b)) with false; [reflexivity|]. destruct (tback d e), b; reflexivity. Qed.
Lemma ent_fst : forall d b e, fst (ent d b e) = e.
Proof. intros d b e. unfold ent. destruct (dis d (en d b e)); reflexivity. Qed.

Lemma w_inv' : forall d L e b, wf d L -> In e L -> edge_step d (edge_step d e (negb b)) b = e.
Proof. intros d L e b W I. rewrite <- (negb_involutive b) at 2. apply (w_inv d L W), I. Qed.
Section Wf.
Variables (d : tdata) (L : list nat).
Hypothesis W : wf d L.
Lemma ent_on : forall b e, In e L -> on d L (ent d b e).
Proof.
  intros b e I. unfold ent. destruct (dis d (en d b e)) eqn:Q; [|split; [exact I|exact Q]]. split; [exact I|].
  rewrite <- other_en. apply (w_en d L W); [exact I|exact Q].
Qed.
Lemma stp_on : forall b v, on d L v -> on d L (stp d b v).
Proof.
  intros b v (I & _). unfold stp. destruct (Bool.eqb _ _ && negb _) eqn:Q; [|apply ent_on, (w_in d L W), I].
  apply andb_prop in Q. destruct Q as (_ & Q). split; [exact I|]. apply negb_true_iff, Q.
Qed.
Lemma stp_inv : forall b v, on d L v -> stp d (negb b) (stp d b v) = v.
Proof.
  intros b v (I & O). destruct (en_or_lv d b v) as [(Q & _)|(Q & _)].
  - destruct (dis d (lv d b (fst v))) eqn:D.
    + rewrite Q at 1. rewrite stp_en_dis by exact D. set (f := edge_step d (fst v) b).
      assert (F : edge_step d f (negb b) = fst v) by apply (w_inv d L W), I.
      assert (R : ent d (negb b) (fst v) = v).
      { unfold ent. rewrite en_neg, D, lv_neg. symmetry. exact Q. }
      unfold ent at 1. destruct (dis d (en d b f)) eqn:D2.
      * rewrite <- en_neg, stp_en_dis by (rewrite lv_neg; exact D2). rewrite F. exact R.
      * rewrite <- lv_neg, stp_lv, F. exact R.
    + rewrite Q at 1. rewrite stp_en by exact D. rewrite <- en_neg, stp_en; [rewrite lv_neg; symmetry; exact Q|]. rewrite lv_neg, <- Q. exact O.
  - rewrite Q at 1. rewrite stp_lv. set (f := edge_step d (fst v) b).
    assert (F : edge_step d f (negb b) = fst v) by apply (w_inv d L W), I.
    assert (R : ent d (negb b) (fst v) = v).
    { unfold ent. rewrite en_neg, <- Q, O. reflexivity. }
    unfold ent at 1. destruct (dis d (en d b f)) eqn:D2.
    * rewrite <- en_neg, stp_en_dis by (rewrite lv_neg; exact D2). rewrite F. exact R.
    * rewrite <- lv_neg, stp_lv, F. exact R.
Qed.
Lemma stp_inv' : forall b v, on d L v -> stp d b (stp d (negb b) v) = v.
Proof. intros b v O. rewrite <- (negb_involutive b) at 1. apply stp_inv, O. Qed.
Lemma stp_raw_lv : forall b e, step_raw d (lv d b e) b = en d b (edge_step d e b).
Proof. intros b e. unfold step_raw, lv. cbn [fst snd]. replace (xorb (xorb (negb (xorb (tback d e) b)) (tback d e)) b) with true; [reflexivity|]. destruct (tback d e), b; reflexivity. Qed.
Lemma stp_raw_en : forall b e, step_raw d (en d b e) b = lv d b e.
Proof. intros b e. unfold step_raw, en. cbn [fst snd]. replace (xorb (xorb (xorb (tback d e) b) (tback d e)) b) with false; [reflexivity|]. destruct (tback d e), b; reflexivity. Qed.
Lemma loop_stops : forall n b v, dis d (step_raw d v b) = false -> step_loop (S n) d v b = Done (step_raw d v b).
Proof. intros n b v H. cbn [step_loop]. rewrite H. destruct (valid d (step_raw d v b)); reflexivity. Qed.
Lemma loop_skips : forall n b v, In (fst (step_raw d v b)) L -> dis d (step_raw d v b) = true -> step_loop (S n) d v b = step_loop n d (step_raw d v b) b.
Proof. intros n b v I H. cbn [step_loop]. rewrite (w_val d L W _ I H), H, (w_en d L W _ I H). reflexivity. Qed.
Lemma list_step_ok : forall b v, on d L v -> valid d v = true -> list_step d v b = Done (stp d b v).
Proof.
  intros b v (I & O) V. unfold list_step. rewrite V. cbn [check].
  assert (LV : forall n, step_loop (S (S n)) d (lv d b (fst v)) b = Done (ent d b (edge_step d (fst v) b))).
  { intros n. set (f := edge_step d (fst v) b). assert (F : In f L) by apply (w_in d L W), I. unfold ent. destruct (dis d (en d b f)) eqn:D.
    - rewrite loop_skips by (rewrite stp_raw_lv; assumption). rewrite stp_raw_lv. fold f. rewrite loop_stops; rewrite stp_raw_en; [reflexivity|].
      rewrite <- other_en. apply (w_en d L W); assumption.
    - rewrite loop_stops; rewrite stp_raw_lv; [reflexivity|exact D]. }
  destruct (en_or_lv d b v) as [(Q & _)|(Q & _)].
  - rewrite Q. cbn [fst]. destruct (dis d (lv d b (fst v))) eqn:D.
    + rewrite loop_skips; rewrite stp_raw_en; [|exact I|exact D]. rewrite stp_en_dis by exact D. apply LV.
    + rewrite loop_stops; rewrite stp_raw_en; [rewrite stp_en by exact D; reflexivity|exact D].
  - rewrite Q. rewrite stp_lv. apply (LV 1%nat).
Qed.
Lemma same_xy : forall u v, In (fst u) L -> In (fst v) L -> valid d u = true -> valid d v = true -> same_idx d u v = vec2_eq (xy d u) (xy d v).
Proof.
  intros u v Iu Iv Vu Vv. unfold valid in *. unfold same_idx. destruct (idx d u) as [i|] eqn:Qi; [|discriminate]. destruct (idx d v) as [j|] eqn:Qj; [|discriminate].
  pose proof (w_xy d L W u i Iu Qi) as X. pose proof (w_xy d L W v j Iv Qj) as Y. apply eq_true_iff_eq. rewrite Nat.eqb_eq. unfold vec2_eq. rewrite andb_true_iff, !Z.eqb_eq. split.
  - intros ->. rewrite X in Y. injection Y as ->. auto.
  - intros (A & B). assert (E : xy d u = xy d v) by (destruct (xy d u), (xy d v); cbn [fst snd] in *; congruence). rewrite <- E in Y.
    apply (proj1 (NoDup_nth_error (tpts d)) (w_pts d L W)); [apply nth_error_Some; congruence|congruence].
Qed.
End Wf.

Lemma chain_self : forall (h : heap) (q : nat) (b : bool) (x : nat), (if b then prev (remove h q) x else next (remove h q) x)
  = if (x =? (if b then next h q else prev h q))%nat then (if b then prev h q else next h q) else if (x =? q)%nat then q else if b then prev h x else next h x.
Proof.
  intros h q b x. unfold remove, chain, set_next, set_prev. cbn [next prev]. unfold upd. destruct b; reflexivity.
Qed.
Lemma In_remove : forall (e x : nat) L, In x (List.remove Nat.eq_dec e L) <-> In x L /\ x <> e.
Proof. intros e x L. split; [apply in_remove|intros (A & B); apply in_in_remove; auto]. Qed.

Lemma NoDup_rem : forall (e : nat) L, NoDup L -> NoDup (List.remove Nat.eq_dec e L).
Proof.
  intros e. induction L as [|x L IH]; intros H; [constructor|]. inversion H; subst. cbn [List.remove]. destruct (Nat.eq_dec e x); [auto|]. constructor; [|auto].
  rewrite In_remove. tauto.
Qed.

(** Removing one vertex *)
Record removed (d : tdata) (L : list nat) (v : vx) (d' : tdata) (L' : list nat) : Prop := {
  r_wf : wf d' L';
  r_fr : frame d d';
  r_tri : tris d' = tris d;
  r_on : forall u, on d' L' u <-> on d L u /\ u <> v;
  r_stp : forall b u, on d L u -> u <> v -> stp d' b u = if vertex_eqb (stp d b u) v then stp d b v else stp d b u;
  r_bud : forall u x, on d L u -> on d L x -> u <> v -> x <> v -> vertex_eq_buddy d u = Some x -> vertex_eq_buddy d' u = Some x;
  r_in : forall f, In f L -> f <> fst v -> In f L'
}.
Lemma buddy_form : forall d v, exists b, v = lv d b (fst v) /\ vertex_buddy d v = en d b (edge_step d (fst v) b).
Proof.
  intros d [e s]. exists (negb (xorb s (tback d e))). unfold vertex_buddy, lv, en. cbn [fst snd]. split.
  - destruct s, (tback d e); reflexivity.
  - f_equal. apply xorb_comm.
Qed.
Lemma buddy_of : forall d b e, vertex_buddy d (lv d b e) = en d b (edge_step d e b).
Proof.
  intros d b e. unfold vertex_buddy, lv, en. cbn [fst snd]. replace (negb (xorb (negb (xorb (tback d e) b)) (tback d e))) with b by (destruct (tback d e), b; reflexivity).
  f_equal. apply xorb_comm.
Qed.
Lemma remove1 : forall d L v d', wf d L -> on d L v -> valid d v = true -> vertex_remove v d = Done d' -> exists L', removed d L v d' L'.
Proof.
  intros d L v d' W (I & O) V R. set (e := fst v) in *. unfold vertex_remove in R. set (d1 := t_dis (vupd (dis d) v true) d) in *.
  assert (DIS1 : forall u, dis d1 u = if vertex_eqb u v then true else dis d u) by (intros u; reflexivity).
  assert (EN1 : forall b f, en d1 b f = en d b f) by reflexivity. assert (LV1 : forall b f, lv d1 b f = lv d b f) by reflexivity.
  assert (ENT1 : forall b f, f <> e -> ent d1 b f = ent d b f).
  { intros b f N. unfold ent. rewrite !EN1, !LV1, DIS1, veq_ne; [reflexivity|]. intros Q. apply N. unfold e. rewrite <- Q. reflexivity. }
  assert (DO : dis d1 (other_end v) = dis d (other_end v)).
  { rewrite DIS1, veq_ne; [reflexivity|apply other_ne]. }
  rewrite DO in R. destruct (dis d (other_end v)) eqn:DV.
  - (* the edge is removed *)
    set (d2 := t_ring (remove (ring d1) (fst v)) d1) in *.
    assert (FR : frame d2 d' /\ tris d' = tris d2 /\ dis d' = dis d2 /\ ring d' = ring d2).
    { destruct (inner d2 (fst v)); [destruct (negb (member_of (fst v) (tline d2))); [|discriminate]|]; injection R as <-; repeat split. }
    destruct FR as (F1 & F2 & F3 & F4). clear R. destruct F1 as (G1 & G2 & G3 & G4 & G5 & G6 & G7 & G8).
    assert (ES : forall f b, edge_step d' f b = if (f =? edge_step d e (negb b))%nat then edge_step d e b else if (f =? e)%nat then e else edge_step d f b).
    { intros f b. unfold edge_step at 1. rewrite F4. unfold d2, t_ring, d1. cbn [ring t_dis]. rewrite chain_self. unfold edge_step. destruct b; reflexivity. }
    assert (EN' : forall b f, en d' b f = en d b f) by (intros b f; unfold en; rewrite G4; reflexivity).
    assert (LV' : forall b f, lv d' b f = lv d b f) by (intros b f; unfold lv; rewrite G4; reflexivity).
    assert (DIS' : forall u, dis d' u = if vertex_eqb u v then true else dis d u) by (intros u; rewrite F3; apply DIS1).
    assert (DISn : forall u, fst u <> e -> dis d' u = dis d u).
    { intros u N. rewrite DIS', veq_ne; [reflexivity|]. intros ->. apply N. reflexivity. }
    assert (ENT' : forall b f, f <> e -> ent d' b f = ent d b f).
    { intros b f N. unfold ent. rewrite EN', LV', DISn by exact N. reflexivity. }
    assert (ONLY : forall u, on d L u -> fst u = e -> u = v).
    { intros u (_ & Ou) Q. destruct (vx_dec u v) as [|N]; [assumption|]. exfalso. assert (u = other_end v); [|congruence].
      destruct u as [f s], v as [g t]. unfold other_end. cbn [fst snd] in *. unfold e in Q. subst f. destruct s, t; cbn [negb]; congruence. }
    assert (STV : forall b, stp d b v = ent d b (edge_step d e b)).
    { intros b. destruct (en_or_lv d b v) as [(Q & Q2)|(Q & Q2)]; rewrite Q; cbn [fst]; [rewrite stp_en_dis; [reflexivity|]|apply stp_lv]. rewrite <- Q2. exact DV. }
    exists (List.remove Nat.eq_dec e L). constructor.
    + constructor.
      * apply NoDup_rem, (w_nd d L W).
      * intros f b If. rewrite In_remove in *. destruct If as (If & Nf). rewrite ES. destruct (Nat.eqb_spec f (edge_step d e (negb b))) as [Q|Q].
        -- split; [apply (w_in d L W), I|]. intros Q2. apply Nf. rewrite Q. rewrite <- Q2 at 1. apply (w_inv d L W), I.
        -- rewrite (proj2 (Nat.eqb_neq f e) Nf). split; [apply (w_in d L W), If|]. intros Q2. apply Q. rewrite <- Q2. symmetry. apply (w_inv d L W), If.
      * intros f b If. rewrite In_remove in If. destruct If as (If & Nf). rewrite (ES f b). rewrite (proj2 (Nat.eqb_neq f e) Nf). destruct (Nat.eqb_spec f (edge_step d e (negb b))) as [Q|Q].
        -- rewrite ES, negb_involutive, Nat.eqb_refl. congruence.
        -- rewrite ES, negb_involutive. destruct (Nat.eqb_spec (edge_step d f b) (edge_step d e b)) as [Q2|Q2].
           ++ exfalso. apply Nf. rewrite <- (w_inv d L W f b If), Q2. apply (w_inv d L W), I.
           ++ destruct (Nat.eqb_spec (edge_step d f b) e) as [Q3|Q3]; [exfalso; apply Q; rewrite <- Q3; symmetry; apply (w_inv d L W), If|apply (w_inv d L W), If].
      * intros u Iu. rewrite In_remove in Iu. destruct Iu as (Iu & Nu). rewrite !DISn by exact Nu. apply (w_en d L W), Iu.
      * intros u Iu. rewrite In_remove in Iu. destruct Iu as (Iu & Nu). rewrite DISn by exact Nu. unfold valid. rewrite G6. apply (w_val d L W), Iu.
      * intros u i Iu. rewrite In_remove in Iu. unfold xy. rewrite G6, G8, G2. apply (w_xy d L W), Iu.
      * rewrite G8. apply (w_pts d L W).
      * intros f If. rewrite In_remove in If. rewrite G2. apply (w_ne d L W), If.
    + unfold frame. rewrite G1, G2, G3, G4, G5, G6, G7, G8. repeat split.
    + rewrite F2. reflexivity.
    + intros u. unfold on at 1. rewrite In_remove. split.
      * intros ((Iu & Nu) & Du). rewrite DISn in Du by exact Nu. split; [split; assumption|]. intros ->. apply Nu. reflexivity.
      * intros ((Iu & Du) & Nu). assert (Nf : fst u <> e) by (intros Q; apply Nu, ONLY; [split; assumption|exact Q]). split; [split; assumption|]. rewrite DISn by exact Nf. exact Du.
    + intros b u Ou Nu. assert (Nf : fst u <> e) by (intros Q; apply Nu, ONLY; assumption).
      unfold stp at 1 2 4. rewrite G4, LV', DISn by exact Nf. destruct (Bool.eqb _ _ && negb _) eqn:Q.
      * rewrite veq_ne; [reflexivity|]. intros Q2. apply Nf. unfold e. rewrite <- Q2. reflexivity.
      * rewrite ES, (proj2 (Nat.eqb_neq (fst u) e) Nf). destruct (Nat.eqb_spec (fst u) (edge_step d e (negb b))) as [Q2|Q2].
        -- assert (Q3 : edge_step d (fst u) b = e) by (rewrite Q2; apply (w_inv' d L), I; exact W).
           rewrite Q3. assert (Q4 : ent d b e = v) by (apply ONLY; [apply (ent_on d L W), I|apply ent_fst]).
           rewrite Q4, veq_refl, STV. apply ENT'. intros Q5. apply Nf. rewrite Q2. rewrite <- Q5 at 1. apply (w_inv d L W), I.
        -- assert (Q3 : edge_step d (fst u) b <> e) by (intros Q3; apply Q2; rewrite <- Q3; symmetry; apply (w_inv d L W), Ou).
           rewrite ENT' by exact Q3. rewrite veq_ne; [reflexivity|]. intros Q4. apply Q3. unfold e. rewrite <- Q4. symmetry. apply ent_fst.
    + intros u x Ou Ox Nu Nx Bu. assert (Nf : fst u <> e) by (intros Q; apply Nu, ONLY; assumption). assert (Nfx : fst x <> e) by (intros Q; apply Nx, ONLY; assumption).
      unfold vertex_eq_buddy in *. destruct (buddy_form d u) as (b & Q1 & Q2). rewrite Q2 in Bu.
      destruct (vec2_eq (xy d u) (xy d (en d b (edge_step d (fst u) b)))) eqn:Q3; [|discriminate]. injection Bu as Bu.
      assert (Q4 : edge_step d' (fst u) b = edge_step d (fst u) b).
      { rewrite ES, (proj2 (Nat.eqb_neq (fst u) e) Nf). destruct (Nat.eqb_spec (fst u) (edge_step d e (negb b))) as [Q4|Q4]; [|reflexivity].
        exfalso. apply Nfx. rewrite <- Bu. cbn [fst en]. rewrite Q4. apply (w_inv' d L); assumption. }
      assert (Q5 : vertex_buddy d' u = x) by (rewrite Q1, <- LV', buddy_of, EN', Q4; exact Bu).
      rewrite Q5. unfold xy in *. rewrite G2. change (geo d2) with (geo d). rewrite <- Bu, Q3. reflexivity.
    + intros f If Nf. apply In_remove. split; assumption.
  - (* only the vertex is removed *)
    injection R as <-. exists L. constructor.
    + constructor; try apply W.
      * intros u Iu. rewrite !DIS1. destruct (vertex_eqb u v) eqn:Q.
        -- apply veq in Q. subst u. intros _. rewrite veq_ne by apply other_ne. exact DV.
        -- intros Du. rewrite veq_ne; [apply (w_en d L W); assumption|]. intros Q2. rewrite <- Q2, other_other in DV. congruence.
      * intros u Iu. rewrite DIS1. destruct (vertex_eqb u v) eqn:Q; [apply veq in Q; subst u; intros _; exact V|apply (w_val d L W), Iu].
    + repeat split.
    + reflexivity.
    + intros u. unfold on. rewrite DIS1. destruct (vertex_eqb u v) eqn:Q.
      * apply veq in Q. subst u. split; [intros (_ & X); discriminate|intros (_ & X); contradiction].
      * assert (u <> v) by (intros ->; rewrite veq_refl in Q; discriminate). tauto.
    + intros b u (Iu & Ou) Nu.
      assert (ENTe : ent d1 b e = if vertex_eqb (en d b e) v then lv d b e else en d b e).
      { unfold ent. rewrite EN1, LV1, DIS1. destruct (vertex_eqb (en d b e) v) eqn:Q; [reflexivity|].
        assert (Q2 : en d b e = other_end v). { destruct (en_or_lv d b v) as [(A & B)|(A & B)]; [exfalso; fold e in A; rewrite <- A, veq_refl in Q; discriminate|symmetry; exact B]. }
        rewrite Q2, DV. reflexivity. }
      assert (ENTd : ent d b e = en d b e).
      { unfold ent. destruct (en_or_lv d b v) as [(A & B)|(A & B)]; fold e in A, B; [rewrite <- A, O; reflexivity|rewrite <- B, DV; reflexivity]. }
      assert (ES : forall f, edge_step d1 f b = edge_step d f b) by reflexivity.
      destruct (Nat.eq_dec (fst u) e) as [Q|Q].
      * assert (Qu : u = other_end v).
        { clear - Q Nu. unfold e in Q. destruct u as [f s], v as [g t]. unfold other_end. cbn [fst snd] in *. subst f. destruct s, t; cbn [negb]; congruence. }
        rewrite Qu. destruct (en_or_lv d b v) as [(A & B)|(A & B)]; fold e in A, B; rewrite B.
        -- (* v entering, u leaving *)
           rewrite <- (LV1 b e), stp_lv, LV1, stp_lv, ES. destruct (Nat.eq_dec (edge_step d e b) e) as [Q2|Q2].
           ++ rewrite Q2, ENTe, ENTd, <- A, veq_refl. rewrite A at 1. rewrite stp_en; [reflexivity|]. rewrite <- B. exact DV.
           ++ rewrite ENT1 by exact Q2. rewrite veq_ne; [reflexivity|]. intros Q3. apply Q2. unfold e at 2. rewrite <- Q3. symmetry. apply ent_fst.
        -- (* u entering, v leaving *)
           rewrite <- (EN1 b e), stp_en_dis by (rewrite LV1, DIS1, <- A, veq_refl; reflexivity). rewrite EN1, stp_en by (rewrite <- A; exact O). rewrite <- A, veq_refl. rewrite A at 1. rewrite stp_lv, ES.
           destruct (Nat.eq_dec (edge_step d e b) e) as [Q2|Q2]; [rewrite Q2, ENTe, ENTd|apply ENT1, Q2].
           rewrite veq_ne; [reflexivity|]. rewrite <- B. apply other_ne.
      * unfold stp at 1 2 4. rewrite LV1, DIS1. change (tback d1) with (tback d). rewrite (veq_ne (lv d b (fst u)) v) by (intros Q2; apply Q; unfold e; rewrite <- Q2; reflexivity).
        destruct (Bool.eqb _ _ && negb _) eqn:Q3.
        -- rewrite veq_ne; [reflexivity|]. intros Q2. apply Q. unfold e. rewrite <- Q2. reflexivity.
        -- rewrite ES. destruct (Nat.eq_dec (edge_step d (fst u) b) e) as [Q2|Q2].
           ++ rewrite Q2, ENTe, ENTd. destruct (vertex_eqb (en d b e) v) eqn:Q4; [|reflexivity]. apply veq in Q4. rewrite <- Q4. rewrite stp_en; [reflexivity|].
              rewrite <- other_en, Q4. exact DV.
           ++ rewrite ENT1 by exact Q2. rewrite veq_ne; [reflexivity|]. intros Q4. apply Q2. unfold e. rewrite <- Q4. symmetry. apply ent_fst.
    + intros u x _ _ _ _ Bu. exact Bu.
    + intros f If _. exact If.
Qed.

(** Proofs about the triangulation: cutting off triangles succeeds *)
From Coq Require Import ZArith List Bool Lia Arith ZifyBool.
From Verif Require Import List_model Reduce_model Poly_model Tri_model Tri_spec Tri_proofs Tri_proofs2 Tri_proofs3 Tri_proofs4.
Import ListNotations.
Open Scope Z_scope.

(** the edges that the algorithm added are not on the sweep line *)
Definition in_ok (d : tdata) : Prop := forall e, inner d e = true -> member_of e (tline d) = false.
Lemma in_frame : forall d d', frame d d' -> in_ok d -> in_ok d'.
Proof. intros d d' (F1 & _ & _ & _ & F2 & _) H e. rewrite F1, F2. apply H. Qed.
Lemma remove_done : forall v d, in_ok d -> exists d', vertex_remove v d = Done d' /\ in_ok d'.
Proof.
  intros v d H. unfold vertex_remove. set (d1 := t_dis (vupd (dis d) v true) d). destruct (dis d1 (other_end v)); [|exists d1; split; [reflexivity|exact H]].
  set (d2 := t_ring (remove (ring d1) (fst v)) d1). destruct (inner d2 (fst v)) eqn:I; [|exists d2; split; [reflexivity|exact H]].
  change (tline d2) with (tline d). rewrite (H (fst v) I). eexists. split; [reflexivity|exact H].
Qed.
Lemma remove2_done : forall v d, in_ok d -> exists d', vertex_remove2 v d = Done d' /\ in_ok d'.
Proof.
  intros v d H. unfold vertex_remove2. destruct (remove_done v d H) as (d1 & R1 & H1). rewrite R1. cbn [bind]. destruct (vertex_eq_buddy d v) as [w|]; [apply remove_done, H1|]. exists d1. auto.
Qed.
(** not more than two consecutive vertices are at the same place *)
Lemma neq_done : forall d L v bk, wf d L -> EB all d L -> on d L v -> valid d v = true -> exists r, step_neq d v bk = Done r.
Proof.
  intros d L v bk W H O V. unfold step_neq. cbn [neq_loop]. rewrite (list_step_ok d L W bk v O V). cbn [bind]. destruct (vertex_eqb v (stp d bk v)) eqn:Q1; [eexists; reflexivity|].
  assert (N1 : stp d bk v <> v) by (intros Z; rewrite Z, veq_refl in Q1; discriminate). pose proof (stp_on d L W bk v O) as O1.
  destruct (same_idx d (stp d bk v) v) eqn:Q2; cbn [negb]; [|eexists; reflexivity].
  assert (VV : forall u w, same_idx d u w = true -> valid d w = true -> valid d u = true).
  { intros u w Z Vw. unfold same_idx in Z. unfold valid in *. destruct (idx d u); [reflexivity|]. destruct (idx d w); discriminate. }
  pose proof (VV _ _ Q2 V) as V1. rewrite (list_step_ok d L W bk _ O1 V1). cbn [bind]. destruct (vertex_eqb v (stp d bk (stp d bk v))) eqn:Q3; [eexists; reflexivity|].
  pose proof (stp_on d L W bk _ O1) as O2. destruct (same_idx d (stp d bk (stp d bk v)) (stp d bk v)) eqn:Q4; cbn [negb]; [|eexists; reflexivity]. exfalso.
  pose proof (VV _ _ Q4 V1) as V2. rewrite (same_xy d L W) in Q2, Q4 by first [apply O|apply O1|apply O2|assumption]. apply vec2_eqb in Q2, Q4.
  pose proof (H bk v O I I N1 V V1 Q2) as B1. apply (eq_buddy_sym d L _ _ W (proj1 O)) in B1.
  assert (B2 : vertex_eq_buddy d (stp d bk v) = Some (stp d bk (stp d bk v))).
  { apply (H bk _ O1 I I); auto. intros Z. rewrite Z in *. apply N1. apply (stp_inj d L bk); auto. }
  rewrite B1 in B2. injection B2 as B2. rewrite <- B2, veq_refl in Q3. discriminate.
Qed.

Section Total.
Variables (bk : bool) (p : vx) (M : list vx) (z : vx).
Lemma flush_done : forall fuel q d L R, seg all d L bk p M R z -> in_ok d ->
  match q with None => True | Some q => (exists C, R = q :: C) /\ q <> z /\ xy d q <> xy d p end -> (2 * length R + match q with None => 1 | Some _ => 0 end < fuel)%nat ->
  exists d', flush fuel p q bk d = Done d'.
Proof.
  induction fuel as [|fuel IH]; [intros; lia|]. intros q d L R G IO Hq HF.
  assert (W : wf d L) by apply G. assert (ON : forall u, In u (p :: M ++ R) -> on d L u) by (intros u; apply Forall_forall, G).
  assert (Op : on d L p) by (apply ON; left; reflexivity). pose proof (s_nd _ _ _ _ _ _ _ _ G) as ND. pose proof (s_pth _ _ _ _ _ _ _ _ G) as PT. pose proof (s_val _ _ _ _ _ _ _ _ G) as VAL.
  destruct (s_last _ _ _ _ _ _ _ _ G) as (R0 & EL). assert (Zin : In z R) by (rewrite EL; apply in_or_app; right; left; reflexivity).
  assert (Npz : p <> z). { intros Z. inversion ND as [|? ? N1 _]. apply N1. apply in_or_app. right. rewrite Z. exact Zin. }
  assert (Vp : valid d p = true) by (apply VAL; [left; reflexivity|exact Npz]).
  assert (SAME : forall u v, on d L u -> on d L v -> valid d u = true -> valid d v = true -> same_idx d u v = vec2_eq (xy d u) (xy d v)) by (intros u v (Iu & _) (Iv & _); apply (same_xy d L W); assumption).
  assert (DIF : forall u v, on d L u -> on d L v -> valid d u = true -> valid d v = true -> xy d u <> xy d v -> same_idx d u v = false).
  { intros u v Ou Ov Vu Vv Z. rewrite SAME by assumption. destruct (vec2_eq (xy d u) (xy d v)) eqn:Q; [|reflexivity]. apply vec2_eqb in Q. contradiction. }
  cbn [flush]. destruct q as [q|].
  - destruct Hq as ((C & ->) & Nqz & Xq). assert (Oq : on d L q) by (apply ON; right; apply in_or_app; right; left; reflexivity).
    assert (Vq : valid d q = true) by (apply VAL; [right; apply in_or_app; right; left; reflexivity|exact Nqz]).
    destruct (neq_done d L q bk W (s_eb _ _ _ _ _ _ _ _ G) Oq Vq) as (r & SN). rewrite SN. cbn [bind]. destruct r as [w|]; [|eexists; reflexivity].
    destruct (valid d w) eqn:Vw; cbn [negb]; [|eexists; reflexivity].
    destruct C as [|x C]; [exfalso; apply Nqz; destruct R0 as [|r [|]]; try discriminate EL; injection EL as EL; exact EL|].
    destruct (drop_facts _ d L bk p M q x C z G) as (Oy & _ & Ox & _ & T2 & _ & _ & _ & Nxq & _ & _ & _ & _ & _ & _).
    assert (WQ : exists M2 C2, x :: C = M2 ++ w :: C2 /\ (M2 = [] \/ (exists q', M2 = [q'] /\ xy d q' = xy d q /\ vertex_eq_buddy d q = Some q')) /\ xy d w <> xy d q).
    { destruct (neq_inv d L q bk w W Oq Vq SN) as [(E & Nw & SI)|(N1 & S1 & E & Nw & SI)]; rewrite T2 in *.
      - exists [], C. rewrite E. split; [reflexivity|split; [left; reflexivity|]]. rewrite E in SI, Vw. rewrite SAME in SI by assumption. intros Z. rewrite Z in SI. rewrite (proj2 (vec2_eqb _ _) eq_refl) in SI. discriminate.
      - assert (Vx : valid d x = true). { unfold same_idx in S1. unfold valid in *. destruct (idx d x); [reflexivity|]. destruct (idx d q); discriminate. }
        rewrite SAME in S1 by assumption. apply vec2_eqb in S1. assert (Nxz : x <> z). { intros ->. destruct (s_z _ _ _ _ _ _ _ _ G) as [(Z & _)|(_ & Z & _)]; congruence. }
        destruct C as [|x2 C]; [exfalso; apply Nxz; destruct R0 as [|r [|r2 [|]]]; try discriminate EL; injection EL as _ EL; exact EL|].
        assert (T3 : stp d bk x = x2). { destruct (seg_form p M (q :: x :: x2 :: C)) as (A & E'). rewrite E' in PT. apply pth_cut in PT. apply PT. }
        assert (Ow : on d L w) by (rewrite E; apply (stp_on d L W), Ox).
        rewrite T3 in E. subst x2. exists [x], C. split; [reflexivity|split; [right; exists x; split; [reflexivity|split; [exact S1|]]|]].
        + rewrite <- T2. apply (s_eb _ _ _ _ _ _ _ _ G); rewrite ?T2; auto; exact I.
        + rewrite SAME in SI by assumption. intros Z. rewrite S1, Z in SI. rewrite (proj2 (vec2_eqb _ _) eq_refl) in SI. discriminate. }
    destruct WQ as (M2 & C2 & E & HM & Xw). rewrite E in *. clear x C E Ox T2 Nxq Oy.
    assert (LEN : (length (w :: C2) < length (q :: M2 ++ w :: C2))%nat) by (cbn [length]; rewrite app_length; cbn [length]; lia).
    assert (Ow : on d L w) by (apply ON; right; apply in_or_app; right; right; apply in_or_app; right; left; reflexivity).
    assert (Nwp : w <> p). { intros ->. inversion ND as [|? ? N1 _]. apply N1. apply in_or_app. right. right. apply in_or_app. right. left. reflexivity. }
    destruct (y_en d L bk p M z all _ G) as (Y1 & Y2).
    rewrite (DIF p q), (DIF w q), (DIF q w) by (auto; congruence). cbn [negb andb].
    set (i := if bk then - cross3_z (xy d p) (xy d q) (xy d w) else cross3_z (xy d p) (xy d q) (xy d w)).
    destruct (i <? 0) eqn:I1; [eexists; reflexivity|]. destruct (i =? 0) eqn:I2; cbn [check].
    + destruct (same_idx d p w) eqn:SI; [|eexists; reflexivity].
      rewrite SAME in SI by assumption. apply vec2_eqb in SI.
      destruct (remove2_done q d IO) as (d1 & RM & IO1). rewrite RM. cbn [bind]. destruct (vx_dec w z) as [Z|Nwz].
      * subst w. destruct (s_z _ _ _ _ _ _ _ _ G) as [(Z & _)|(_ & _ & Z3 & Z4 & ->)]; [congruence|]. cbn [last] in *.
        destruct (rem_q d L bk p [] z d1 all q M2 z C2 G RM Xq Xw HM) as (L1 & G1 & S1 & Tr & _).
        { intros _ _ _ _. split; [|exact Z4]. apply (eq_buddy_sym d L z p W); [apply Ow|exact Z4]. }
        pose proof (k_fr _ _ _ _ _ _ _ _ S1) as Fr. assert (Oz1 : on d1 L1 z) by (pose proof (s_on _ _ _ _ _ _ _ _ G1) as O1; inversion O1 as [|? ? ? O2]; inversion O2; assumption).
        rewrite (list_step_ok d1 L1 (s_wf _ _ _ _ _ _ _ _ G1) bk z Oz1) by (rewrite (valid_frame d d1 _ Fr); exact Vw). cbn [bind].
        destruct (s_z _ _ _ _ _ _ _ _ G1) as [(Z & _)|(_ & _ & Z3' & _)]; [rewrite (valid_frame d d1 _ Fr) in Z; congruence|]. rewrite Z3', veq_refl. eexists. reflexivity.
      * destruct C2 as [|x C].
        { exfalso. apply Nwz. assert (EL2 : exists l, p :: M ++ q :: M2 ++ [w] = l ++ [z]) by (exists (p :: M ++ R0); rewrite EL; cbn [app]; rewrite <- app_assoc; reflexivity).
          destruct EL2 as (l & EL2). assert (Ew : p :: M ++ q :: M2 ++ [w] = (p :: M ++ q :: M2) ++ [w]) by (cbn [app]; rewrite <- app_assoc; reflexivity). rewrite Ew in EL2. apply app_inj_tail in EL2. apply EL2. }
        destruct (rem_q d L bk p M z d1 (fun u => u <> w) q M2 w (x :: C) G RM Xq Xw HM) as (L1 & G1 & S1 & Tr & BU); [intros Z; contradiction|].
        pose proof (k_fr _ _ _ _ _ _ _ _ S1) as Fr. destruct (drop_facts _ d1 L1 bk p M w x C z G1) as (Oy1 & Ow1 & Ox1 & U1 & U2 & _ & _ & _ & Nxw & _).
        rewrite (list_step_ok d1 L1 (s_wf _ _ _ _ _ _ _ _ G1) bk w Ow1) by (rewrite (valid_frame d d1 _ Fr); exact Vw). cbn [bind].
        rewrite U2. pose proof (s_nd _ _ _ _ _ _ _ _ G1) as ND1. rewrite (veq_ne x p) by (intros ->; inversion ND1 as [|? ? N1 _]; apply N1; apply in_or_app; right; right; left; reflexivity).
        destruct (remove2_done w d1 IO1) as (d2 & RM2 & IO2). rewrite RM2. cbn [bind].
        assert (Ox : on d L x) by (apply (k_on _ _ _ _ _ _ _ _ S1) in Ox1; tauto).
        assert (T3 : stp d bk w = x). { destruct (seg_form p M (q :: M2 ++ w :: x :: C)) as (A & E'). rewrite E' in PT. apply pth_cut in PT. destruct PT as (_ & PT). change (last M p :: q :: M2 ++ w :: x :: C) with ((last M p :: q :: M2) ++ w :: x :: C) in PT. apply pth_cut in PT. apply PT. }
        destruct (rem_w d1 L1 bk p M z d2 w x C G1 RM2) as (L2 & R2 & G2 & S2 & Tr2 & K).
        { rewrite !(xy_frame d d1 _ Fr). symmetry. exact SI. }
        { intros Vx X. rewrite (valid_frame d d1 _ Fr) in Vx. rewrite !(xy_frame d d1 _ Fr) in X. apply BU; auto; [left; reflexivity|right; left; reflexivity|]. rewrite <- T3. apply (s_eb _ _ _ _ _ _ _ _ G); rewrite ?T3; auto; exact I. }
        apply (IH None d2 L2 R2 G2 IO2 I). destruct K as [-> |(-> & _)]; cbn [length] in *; lia.
    + destruct (same_idx d p w) eqn:SI; cbn [negb].
      { exfalso. rewrite SAME in SI by assumption. apply vec2_eqb in SI. clear - SI I1 I2. subst i. rewrite SI in *. unfold cross3_z in *. destruct bk; lia. }
      assert (Xpw : xy d w <> xy d p). { rewrite SAME in SI by assumption. intros Z. rewrite Z in SI. rewrite (proj2 (vec2_eqb _ _) eq_refl) in SI. discriminate. }
      match goal with |- context [t_tris (tris d ++ [?x])] => set (t := x) in * end.
      set (d0 := t_tris (tris d ++ [t]) d) in *. destruct (remove2_done q d0) as (d1 & RM & IO1); [exact IO|]. rewrite RM. cbn [bind].
      pose proof (seg_tris all d L bk p M _ z (tris d ++ [t]) G) as G0. fold d0 in G0.
      destruct (rem_q d0 L bk p M z d1 all q M2 w C2 G0 RM Xq Xw HM) as (L1 & G1 & S1 & Tr & _).
      { intros _ _ _ Z. exfalso. apply Xpw. change (xy d w = xy d (last M p)) in Z. congruence. }
      pose proof (k_fr _ _ _ _ _ _ _ _ S1) as Fr0. assert (Fr : frame d d1) by exact Fr0.
      assert (Nwz : w <> z). { intros ->. destruct (s_z _ _ _ _ _ _ _ _ G) as [(Z & _)|(_ & Z & _)]; congruence. }
      apply (IH (Some w) d1 L1 (w :: C2) G1 IO1); [|lia]. split; [exists C2; reflexivity|split; [exact Nwz|]]. rewrite !(xy_frame d d1 _ Fr). exact Xpw.
  - destruct (neq_done d L p bk W (s_eb _ _ _ _ _ _ _ _ G) Op Vp) as (r & SN). rewrite SN. cbn [bind]. destruct r as [q|]; [|eexists; reflexivity].
    destruct (valid d q) eqn:Vq; cbn [negb]; [|eexists; reflexivity].
    apply (IH (Some q) d L R G IO); [|lia]. assert (NE : exists r C, R = r :: C) by (destruct R0 as [|r R0]; cbn [app] in EL; eauto). destruct NE as (r & C & ER).
    assert (Or : on d L r) by (apply ON; right; apply in_or_app; right; rewrite ER; left; reflexivity).
    assert (Q : q = r /\ xy d q <> xy d p).
    { destruct (s_m _ _ _ _ _ _ _ _ G) as [(EM & Een)|(p' & EM & X & Een)].
      - rewrite EM, ER in PT. cbn [app] in PT. destruct PT as (T1 & _). destruct (neq_inv d L p bk q W Op Vp SN) as [(E & Nw & SI)|(N1 & S1 & E & Nw & SI)]; rewrite T1 in *.
        + split; [exact E|]. rewrite E in SI, Vq |- *. rewrite SAME in SI by assumption. intros Z. rewrite Z in SI. rewrite (proj2 (vec2_eqb _ _) eq_refl) in SI. discriminate.
        + exfalso. assert (Vr : valid d r = true). { unfold same_idx in S1. unfold valid in *. destruct (idx d r); [reflexivity|]. destruct (idx d p); discriminate. }
          rewrite SAME in S1 by assumption. apply vec2_eqb in S1.
          assert (B : vertex_eq_buddy d p = Some r) by (rewrite <- T1; apply (s_eb _ _ _ _ _ _ _ _ G); rewrite ?T1; auto; exact I).
          destruct (eq_buddy_stp d p r B (proj2 Or)) as (b & Q1 & Q2 & Q3). destruct (bool_dec b bk) as [->|Nb].
          * rewrite Q1 in Een at 1. exact (en_ne_lv _ _ _ (eq_sym Een)).
          * assert (b = negb bk) by (clear - Nb; destruct b, bk; cbn; congruence). subst b. apply Nw. rewrite E, <- Q3. apply (stp_inv' d L W), Op.
      - rewrite EM, ER in PT. cbn [app] in PT. destruct PT as (T1 & T2 & _).
        assert (Op' : on d L p') by (apply ON; right; rewrite EM; left; reflexivity).
        assert (Np'z : p' <> z). { intros ->. rewrite EM in ND. inversion ND as [|? ? _ N2]; inversion N2 as [|? ? N3 _]. contradiction. }
        assert (Vp' : valid d p' = true) by (apply VAL; [right; rewrite EM; left; reflexivity|exact Np'z]).
        destruct (neq_inv d L p bk q W Op Vp SN) as [(E & Nw & SI)|(N1 & S1 & E & Nw & SI)]; rewrite T1 in *.
        + exfalso. rewrite E in SI. rewrite SAME in SI by assumption. rewrite X in SI. rewrite (proj2 (vec2_eqb _ _) eq_refl) in SI. discriminate.
        + rewrite T2 in E. split; [exact E|]. rewrite E in SI, Vq |- *. rewrite SAME in SI by assumption. intros Z. rewrite Z, X in SI. rewrite (proj2 (vec2_eqb _ _) eq_refl) in SI. discriminate. }
    destruct Q as (-> & Xr). split; [exists C; exact ER|split; [|exact Xr]]. intros ->. destruct (s_z _ _ _ _ _ _ _ _ G) as [(Z & _)|(_ & Z & _)]; congruence.
Qed.
End Total.

(** Proofs about the triangulation: the function that cuts off triangles *)
From Coq Require Import ZArith List Bool Lia Arith ZifyBool.
From Verif Require Import List_model Reduce_model Poly_model Tri_model Tri_spec Tri_proofs Tri_proofs2 Tri_proofs3.
Import ListNotations.
Open Scope Z_scope.

Definition cc (c : vec2 -> vec2 -> Z) (bk : bool) (a b : vec2) : Z := if bk then c b a else c a b.
Fixpoint csum (c : vec2 -> vec2 -> Z) (bk : bool) (l : list vec2) : Z :=
  match l with a :: (b :: _) as r => cc c bk a b + csum c bk r | _ => 0 end.
Lemma csum_app : forall c bk A u B, csum c bk (A ++ u :: B) = csum c bk (A ++ [u]) + csum c bk (u :: B).
Proof.
  intros c bk A u B. induction A as [|a [|b A] IH]; cbn [app csum] in *; lia.
Qed.
Lemma csum_rev : forall c l, csum c true l = along c (rev l).
Proof.
  assert (A : forall c l u m, along c (l ++ u :: m) = along c (l ++ [u]) + along c (u :: m)) by (intros c l u m; induction l as [|a [|b l] IH]; cbn [app along] in *; lia).
  intros c. induction l as [|a [|b l] IH]; [reflexivity|reflexivity|]. change (csum c true (a :: b :: l)) with (cc c true a b + csum c true (b :: l)). rewrite IH. cbn [rev]. rewrite <- app_assoc. cbn [app]. rewrite (A c (rev l) b [a]). cbn [cc along]. lia.
Qed.
Lemma csum_fore : forall c l, csum c false l = along c l.
Proof. intros c. induction l as [|a [|b l] IH]; [reflexivity|reflexivity|]. change (csum c false (a :: b :: l)) with (c a b + csum c false (b :: l)). rewrite IH. reflexivity. Qed.
Lemma odd_same : forall c a, odd_fun c -> c a a = 0.
Proof. intros c a H. specialize (H a a). lia. Qed.
Lemma cc_odd : forall c bk a b, odd_fun c -> cc c bk a b = - cc c bk b a.
Proof. intros c bk a b H. unfold cc. destruct bk; apply H. Qed.
Lemma cc_same : forall c bk a, odd_fun c -> cc c bk a a = 0.
Proof. intros c bk a H. unfold cc. destruct bk; apply odd_same, H. Qed.

Lemma seg_weak : forall (P Q : vx -> Prop) d L bk p M R z, seg P d L bk p M R z -> (forall u, on d L u -> Q u -> P u) -> seg Q d L bk p M R z.
Proof.
  intros P Q d L bk p M R z G H. constructor; try apply G. intros b u Ou Qu Qs. apply (s_eb _ _ _ _ _ _ _ _ G); auto. apply H; [|exact Qs]. apply (stp_on d L (s_wf _ _ _ _ _ _ _ _ G)), Ou.
Qed.
(** a vertex at the same place as p is removed *)
Lemma rem_w : forall d L bk p M z d' w x C, seg (fun u => u <> w) d L bk p M (w :: x :: C) z -> vertex_remove2 w d = Done d' -> xy d w = xy d p ->
  (valid d x = true -> xy d x = xy d w -> vertex_eq_buddy d w = Some x) ->
  exists L' R', seg all d' L' bk p M R' z /\ shrunk d L p M (w :: x :: C) d' L' R' /\ tris d' = tris d /\ (R' = x :: C \/ (R' = C /\ xy d x = xy d w)).
Proof.
  intros d L bk p M z d' w x C G H X H0. destruct (y_en d L bk p M z _ _ G) as (Y1 & Y2).
  destruct (drop_facts _ d L bk p M w x C z G) as (Oy & Ow & Ox & T1 & T2 & _ & _ & Nyw & Nxw & Nyx & Vw & Nwz & Nw1 & Nw2 & Iy).
  destruct (rem2_seg d L bk p M z d' _ w x C G H) as (d1 & L1 & R1 & [(K & R)|(L' & K1 & K2 & K3 & K4 & K5 & R2)]).
  - exists L1, (x :: C). destruct (seg_drop _ all d L bk p M w x C z d' L1 G R) as (G' & S').
    + intros u _ N _. exact N.
    + intros _ _ Vx Z. exfalso. apply K, H0; congruence.
    + repeat match goal with |- _ /\ _ => split end; auto. apply R.
  - destruct (seg_drop _ (fun u => u <> x) d L bk p M w x C z d1 L1 G R1) as (G1 & S1).
    + intros u _ N _. exact N.
    + intros Z. contradiction.
    + pose proof (k_fr _ _ _ _ _ _ _ _ S1) as Fr. destruct C as [|x2 C].
      { exfalso. destruct (s_last _ _ _ _ _ _ _ _ G1) as (R0 & E). destruct R0 as [|r [|r2 R0]]; [|discriminate E|discriminate E]. injection E as E. contradiction. }
      destruct (drop_facts _ d1 L1 bk p M x x2 C z G1) as (Oy1 & Ox1 & Ox2 & U1 & U2 & _ & _ & Nyx1 & Nx2 & Nyx2 & Vx & _ & _ & _ & _).
      assert (T3 : stp d bk x = x2). { pose proof (s_pth _ _ _ _ _ _ _ _ G) as T. destruct (seg_form p M (w :: x :: x2 :: C)) as (A & E). rewrite E in T. apply pth_cut in T. apply T. }
      destruct (seg_drop _ all d1 L1 bk p M x x2 C z d' L' G1 R2) as (G2 & S2).
      * intros u _ N _. exact N.
      * intros _ _ V2 Z. exfalso. rewrite (valid_frame d d1 _ Fr) in V2. rewrite !(xy_frame d d1 _ Fr) in Z.
        assert (B1 : vertex_eq_buddy d x = Some x2).
        { rewrite <- T3. apply (s_eb _ _ _ _ _ _ _ _ G); rewrite ?T3; auto.
          - intros Q. apply Nw1. right. left. exact Q.
          - rewrite (valid_frame d d1 _ Fr) in Vx. exact Vx.
          - congruence. }
        pose proof (eq_buddy_sym d L w x (s_wf _ _ _ _ _ _ _ _ G) (proj1 Ow) K1) as B2. apply Nw1. right. left. congruence.
      * exists L', (x2 :: C). split; [exact G2|split; [exact (shrunk_trans _ _ _ _ _ _ _ _ _ _ _ S1 S2)|split]]; [rewrite (r_tri _ _ _ _ _ R2); apply R1|right; split; [reflexivity|exact K2]].
Qed.

Lemma neq_inv : forall d L v bk w, wf d L -> on d L v -> valid d v = true -> step_neq d v bk = Done (Some w) ->
  (w = stp d bk v /\ w <> v /\ same_idx d w v = false)
  \/ (stp d bk v <> v /\ same_idx d (stp d bk v) v = true /\ w = stp d bk (stp d bk v) /\ w <> v /\ same_idx d w (stp d bk v) = false).
Proof.
  intros d L v bk w W O V H. unfold step_neq in H. cbn [neq_loop] in H. rewrite (list_step_ok d L W bk v O V) in H. cbn [bind] in H.
  destruct (vertex_eqb v (stp d bk v)) eqn:Q1; [discriminate|]. assert (N1 : stp d bk v <> v) by (intros Z; rewrite Z, veq_refl in Q1; discriminate).
  destruct (same_idx d (stp d bk v) v) eqn:Q2; cbn [negb] in H.
  - assert (V2 : valid d (stp d bk v) = true). { unfold same_idx in Q2. unfold valid in *. destruct (idx d (stp d bk v)); [reflexivity|]. destruct (idx d v); discriminate. }
    rewrite (list_step_ok d L W bk _ (stp_on d L W bk v O) V2) in H. cbn [bind] in H. destruct (vertex_eqb v (stp d bk (stp d bk v))) eqn:Q3; [discriminate|].
    destruct (same_idx d (stp d bk (stp d bk v)) (stp d bk v)) eqn:Q4; cbn [negb] in H; [discriminate|]. injection H as <-. right. repeat split; auto. intros Z. rewrite Z, veq_refl in Q3. discriminate.
  - injection H as <-. left. repeat split; auto.
Qed.
Lemma idx_xy : forall d L v, wf d L -> In (fst v) L -> valid d v = true -> nth_error (tpts d) (idx_or d v) = Some (xy d v).
Proof. intros d L v W I V. unfold valid in V. unfold idx_or. destruct (idx d v) as [i|] eqn:Q; [|discriminate]. apply (w_xy d L W); assumption. Qed.

Lemma csum_head : forall c bk d p M, exists K, forall X, csum c bk (map (xy d) (p :: M ++ X)) = K + csum c bk (xy d (last M p) :: map (xy d) X).
Proof.
  intros c bk d p M. destruct (split_last p M) as (A & EA). exists (csum c bk (map (xy d) A ++ [xy d (last M p)])). intros X. change (p :: M ++ X) with ((p :: M) ++ X). rewrite EA, <- app_assoc, map_app. cbn [app map]. apply csum_app.
Qed.
Lemma seg_tris : forall P d L bk p M R z x, seg P d L bk p M R z -> seg P (t_tris x d) L bk p M R z.
Proof.
  intros P d L bk p M R z x G. destruct G as [W A1 A2 A3 A4 A5 A6 A7 A8]. constructor; [|exact A1|exact A2|exact A3|idtac|exact A5|exact A6|exact A7|exact A8].
  - destruct W. constructor; assumption.
  - apply (pth_ext d); [reflexivity|exact A4].
Qed.
Lemma shrunk_tris : forall d L p M R d' L' R' x, shrunk (t_tris x d) L p M R d' L' R' -> shrunk d L p M R d' L' R'.
Proof. intros d L p M R d' L' R' x S. destruct S as [F O I K]. constructor; assumption. Qed.

Section Flush.
Variables (bk : bool) (p : vx) (M : list vx) (z : vx).
Lemma flush_ok : forall fuel q d L R d', seg all d L bk p M R z ->
  match q with None => True | Some q => (exists C, R = q :: C) /\ q <> z /\ xy d q <> xy d p end -> flush fuel p q bk d = Done d' ->
  exists L' R' new, seg all d' L' bk p M R' z /\ shrunk d L p M R d' L' R' /\ tris d' = tris d ++ new /\ Forall (tri_ok (tpts d)) new
  /\ forall c, odd_fun c -> csum c bk (map (xy d) (p :: M ++ R)) = csum c bk (map (xy d) (p :: M ++ R')) + tsum c (tpts d) new.
Proof.
  induction fuel as [|fuel IH]; [discriminate|]. intros q d L R d' G Hq H.
  assert (STOP : exists L' R' new, seg all d L' bk p M R' z /\ shrunk d L p M R d L' R' /\ tris d = tris d ++ new /\ Forall (tri_ok (tpts d)) new
    /\ forall c, odd_fun c -> csum c bk (map (xy d) (p :: M ++ R)) = csum c bk (map (xy d) (p :: M ++ R')) + tsum c (tpts d) new).
  { exists L, R, []. repeat match goal with |- _ /\ _ => split end; auto; [apply shrunk_refl|rewrite app_nil_r; reflexivity|]. intros c _. cbn [tsum]. lia. }
  assert (W : wf d L) by apply G. assert (ON : forall u, In u (p :: M ++ R) -> on d L u) by (intros u; apply Forall_forall, G).
  assert (Op : on d L p) by (apply ON; left; reflexivity). pose proof (s_nd _ _ _ _ _ _ _ _ G) as ND. pose proof (s_pth _ _ _ _ _ _ _ _ G) as PT. pose proof (s_val _ _ _ _ _ _ _ _ G) as VAL.
  destruct (s_last _ _ _ _ _ _ _ _ G) as (R0 & EL). assert (Zin : In z R) by (rewrite EL; apply in_or_app; right; left; reflexivity).
  assert (Npz : p <> z). { intros Z. inversion ND as [|? ? N1 _]. apply N1. apply in_or_app. right. rewrite Z. exact Zin. }
  assert (Vp : valid d p = true) by (apply VAL; [left; reflexivity|exact Npz]).
  assert (SAME : forall u v, on d L u -> on d L v -> valid d u = true -> valid d v = true -> same_idx d u v = vec2_eq (xy d u) (xy d v)) by (intros u v (Iu & _) (Iv & _); apply (same_xy d L W); assumption).
  cbn [flush] in H. destruct q as [q|].
  - (* the vertices p and q are known *)
    destruct Hq as ((C & ->) & Nqz & Xq). assert (Oq : on d L q) by (apply ON; right; apply in_or_app; right; left; reflexivity).
    assert (Vq : valid d q = true) by (apply VAL; [right; apply in_or_app; right; left; reflexivity|exact Nqz]).
    destruct (step_neq d q bk) as [[w|]| |] eqn:SN; try discriminate; cbn [bind] in H; [|injection H as <-; exact STOP].
    destruct (valid d w) eqn:Vw; cbn [negb] in H; [|injection H as <-; exact STOP].
    destruct C as [|x C]; [exfalso; apply Nqz; destruct R0 as [|r [|]]; try discriminate EL; injection EL as EL; exact EL|].
    destruct (drop_facts _ d L bk p M q x C z G) as (Oy & _ & Ox & _ & T2 & _ & _ & _ & Nxq & _ & _ & _ & _ & _ & _).
    (* what follows q *)
    assert (WQ : exists M2 C2, x :: C = M2 ++ w :: C2 /\ (M2 = [] \/ (exists q', M2 = [q'] /\ xy d q' = xy d q /\ vertex_eq_buddy d q = Some q')) /\ xy d w <> xy d q).
    { destruct (neq_inv d L q bk w W Oq Vq SN) as [(E & Nw & SI)|(N1 & S1 & E & Nw & SI)]; rewrite T2 in *.
      - exists [], C. rewrite E. split; [reflexivity|split; [left; reflexivity|]]. rewrite E in SI, Vw. rewrite SAME in SI by assumption. intros Z. rewrite Z in SI. rewrite (proj2 (vec2_eqb _ _) eq_refl) in SI. discriminate.
      - assert (Vx : valid d x = true). { unfold same_idx in S1. unfold valid in *. destruct (idx d x); [reflexivity|]. destruct (idx d q); discriminate. }
        rewrite SAME in S1 by assumption. apply vec2_eqb in S1. assert (Nxz : x <> z). { intros ->. destruct (s_z _ _ _ _ _ _ _ _ G) as [(Z & _)|(_ & Z & _)]; congruence. }
        destruct C as [|x2 C]; [exfalso; apply Nxz; destruct R0 as [|r [|r2 [|]]]; try discriminate EL; injection EL as _ EL; exact EL|].
        assert (T3 : stp d bk x = x2). { destruct (seg_form p M (q :: x :: x2 :: C)) as (A & E'). rewrite E' in PT. apply pth_cut in PT. apply PT. }
        assert (Ow : on d L w) by (rewrite E; apply (stp_on d L W), Ox).
        rewrite T3 in E. subst x2. exists [x], C. split; [reflexivity|split; [right; exists x; split; [reflexivity|split; [exact S1|]]|]].
        + rewrite <- T2. apply (s_eb _ _ _ _ _ _ _ _ G); rewrite ?T2; auto; exact I.
        + rewrite SAME in SI by assumption. intros Z. rewrite S1, Z in SI. rewrite (proj2 (vec2_eqb _ _) eq_refl) in SI. discriminate. }
    destruct WQ as (M2 & C2 & E & HM & Xw). rewrite E in *. clear x C E Ox T2 Nxq Oy.
    assert (Ow : on d L w) by (apply ON; right; apply in_or_app; right; right; apply in_or_app; right; left; reflexivity).
    assert (Nwp : w <> p). { intros ->. inversion ND as [|? ? N1 _]. apply N1. apply in_or_app. right. right. apply in_or_app. right. left. reflexivity. }
    destruct (y_en d L bk p M z all _ G) as (Y1 & Y2).
    assert (SUM : forall c, odd_fun c -> csum c bk (map (xy d) (p :: M ++ q :: M2 ++ w :: C2)) = csum c bk (map (xy d) (p :: M ++ w :: C2)) + (cc c bk (xy d p) (xy d q) + cc c bk (xy d q) (xy d w) - cc c bk (xy d p) (xy d w))).
    { intros c Oc. destruct (csum_head c bk d p M) as (K & HK). rewrite !HK. rewrite Y2. destruct HM as [->|(q' & -> & X & _)]; cbn [app map csum]; rewrite ?X, ?(cc_same c bk _ Oc); lia. }
    set (i := if bk then - cross3_z (xy d p) (xy d q) (xy d w) else cross3_z (xy d p) (xy d q) (xy d w)) in H.
    destruct (i <? 0) eqn:I1; [injection H as <-; exact STOP|]. destruct (i =? 0) eqn:I2.
    + destruct (negb (same_idx d p q) && negb (same_idx d w q)); [|discriminate]. cbn [check] in H. destruct (same_idx d p w) eqn:SI; [|injection H as <-; exact STOP].
      rewrite SAME in SI by assumption. apply vec2_eqb in SI.
      destruct (vertex_remove2 q d) as [d1| |] eqn:RM; try discriminate. cbn [bind] in H. destruct (vx_dec w z) as [Z|Nwz].
      * (* the ring is complete *)
        subst w. destruct (s_z _ _ _ _ _ _ _ _ G) as [(Z & _)|(_ & _ & Z3 & Z4 & ->)]; [congruence|]. cbn [last] in *.
        destruct (rem_q d L bk p [] z d1 all q M2 z C2 G RM Xq Xw HM) as (L1 & G1 & S1 & Tr & _).
        { intros _ _ _ _. split; [|exact Z4]. apply (eq_buddy_sym d L z p W); [apply Ow|exact Z4]. }
        pose proof (k_fr _ _ _ _ _ _ _ _ S1) as Fr. assert (Oz1 : on d1 L1 z) by (pose proof (s_on _ _ _ _ _ _ _ _ G1) as O1; inversion O1 as [|? ? ? O2]; inversion O2; assumption).
        rewrite (list_step_ok d1 L1 (s_wf _ _ _ _ _ _ _ _ G1) bk z Oz1) in H by (rewrite (valid_frame d d1 _ Fr); exact Vw). cbn [bind] in H.
        destruct (s_z _ _ _ _ _ _ _ _ G1) as [(Z & _)|(_ & _ & Z3' & _)]; [rewrite (valid_frame d d1 _ Fr) in Z; congruence|]. rewrite Z3', veq_refl in H. injection H as <-.
        exists L1, (z :: C2), []. repeat match goal with |- _ /\ _ => split end; auto; [rewrite app_nil_r; exact Tr|]. intros c Oc. rewrite SUM by exact Oc. cbn [tsum]. rewrite <- SI, (cc_same c bk _ Oc). pose proof (cc_odd c bk (xy d p) (xy d q) Oc). lia.
      * (* also w is removed *)
        destruct C2 as [|x C].
        { exfalso. apply Nwz. assert (EL2 : exists l, p :: M ++ q :: M2 ++ [w] = l ++ [z]) by (exists (p :: M ++ R0); rewrite EL; cbn [app]; rewrite <- app_assoc; reflexivity).
          destruct EL2 as (l & EL2). assert (Ew : p :: M ++ q :: M2 ++ [w] = (p :: M ++ q :: M2) ++ [w]) by (cbn [app]; rewrite <- app_assoc; reflexivity). rewrite Ew in EL2. apply app_inj_tail in EL2. apply EL2. }
        destruct (rem_q d L bk p M z d1 (fun u => u <> w) q M2 w (x :: C) G RM Xq Xw HM) as (L1 & G1 & S1 & Tr & BU); [intros Z; contradiction|].
        pose proof (k_fr _ _ _ _ _ _ _ _ S1) as Fr. destruct (drop_facts _ d1 L1 bk p M w x C z G1) as (Oy1 & Ow1 & Ox1 & U1 & U2 & _ & _ & _ & Nxw & _).
        rewrite (list_step_ok d1 L1 (s_wf _ _ _ _ _ _ _ _ G1) bk w Ow1) in H by (rewrite (valid_frame d d1 _ Fr); exact Vw). cbn [bind] in H.
        rewrite U2 in H. pose proof (s_nd _ _ _ _ _ _ _ _ G1) as ND1. rewrite (veq_ne x p) in H by (intros ->; inversion ND1 as [|? ? N1 _]; apply N1; apply in_or_app; right; right; left; reflexivity).
        destruct (vertex_remove2 w d1) as [d2| |] eqn:RM2; try discriminate. cbn [bind] in H.
        assert (Ox : on d L x) by (apply (k_on _ _ _ _ _ _ _ _ S1) in Ox1; tauto).
        assert (T3 : stp d bk w = x). { destruct (seg_form p M (q :: M2 ++ w :: x :: C)) as (A & E'). rewrite E' in PT. apply pth_cut in PT. destruct PT as (_ & PT). change (last M p :: q :: M2 ++ w :: x :: C) with ((last M p :: q :: M2) ++ w :: x :: C) in PT. apply pth_cut in PT. apply PT. }
        destruct (rem_w d1 L1 bk p M z d2 w x C G1 RM2) as (L2 & R2 & G2 & S2 & Tr2 & K).
        { rewrite !(xy_frame d d1 _ Fr). symmetry. exact SI. }
        { intros Vx X. rewrite (valid_frame d d1 _ Fr) in Vx. rewrite !(xy_frame d d1 _ Fr) in X. apply BU; auto; [left; reflexivity|right; left; reflexivity|]. rewrite <- T3. apply (s_eb _ _ _ _ _ _ _ _ G); rewrite ?T3; auto; exact I. }
        destruct (IH None d2 L2 R2 d' G2 I H) as (L' & R' & new & G' & S' & Tr' & TO & SM). pose proof (k_fr _ _ _ _ _ _ _ _ S2) as Fr2.
        assert (TP : tpts d2 = tpts d) by (destruct Fr as (_ & _ & _ & _ & _ & _ & _ & <-); apply Fr2). assert (XY : forall u, xy d2 u = xy d u) by (intros u; rewrite (xy_frame d1 d2 _ Fr2); apply (xy_frame d d1 _ Fr)).
        rewrite TP in *. exists L', R', new. split; [exact G'|split; [exact (shrunk_trans _ _ _ _ _ _ _ _ _ _ _ S1 (shrunk_trans _ _ _ _ _ _ _ _ _ _ _ S2 S'))|split; [rewrite Tr', Tr2, Tr; reflexivity|split; [exact TO|]]]].
        intros c Oc. specialize (SM c Oc). rewrite !(map_ext _ _ XY) in SM. rewrite (SUM c Oc). rewrite <- SI, (cc_same c bk _ Oc). pose proof (cc_odd c bk (xy d p) (xy d q) Oc) as OD.
        assert (SM2 : csum c bk (map (xy d) (p :: M ++ w :: x :: C)) = csum c bk (map (xy d) (p :: M ++ R2))).
        { destruct (csum_head c bk d p M) as (K' & HK). rewrite !HK. f_equal. rewrite Y2. destruct K as [-> |(-> & K)]; cbn [map csum]; rewrite <- SI, (cc_same c bk _ Oc); [lia|].
          rewrite !(xy_frame d d1 _ Fr) in K. rewrite K, <- SI, (cc_same c bk _ Oc). destruct C as [|x2 C]; cbn [map csum]; [lia|]. lia. }
        lia.
    + destruct (negb (same_idx d p q) && negb (same_idx d q w) && negb (same_idx d p w)) eqn:CK; [|discriminate]. cbn [check] in H.
      assert (Xpw : xy d w <> xy d p). { apply andb_prop in CK. destruct CK as (_ & CK). rewrite SAME in CK by assumption. intros Z. rewrite Z in CK. rewrite (proj2 (vec2_eqb _ _) eq_refl) in CK. discriminate. }
      match type of H with context [t_tris (tris d ++ [?x])] => set (t := x) in * end.
      set (d0 := t_tris (tris d ++ [t]) d) in *. destruct (vertex_remove2 q d0) as [d1| |] eqn:RM; try discriminate. cbn [bind] in H.
      pose proof (seg_tris all d L bk p M _ z (tris d ++ [t]) G) as G0. fold d0 in G0.
      destruct (rem_q d0 L bk p M z d1 all q M2 w C2 G0 RM Xq Xw HM) as (L1 & G1 & S1 & Tr & _).
      { intros _ _ _ Z. exfalso. apply Xpw. change (xy d w = xy d (last M p)) in Z. congruence. }
      pose proof (k_fr _ _ _ _ _ _ _ _ S1) as Fr0. assert (Fr : frame d d1) by exact Fr0.
      assert (Nwz : w <> z). { intros ->. destruct (s_z _ _ _ _ _ _ _ _ G) as [(Z & _)|(_ & Z & _)]; congruence. }
      destruct (IH (Some w) d1 L1 (w :: C2) d' G1) as (L' & R' & new & G' & S' & Tr' & TO & SM).
      { split; [exists C2; reflexivity|split; [exact Nwz|]]. rewrite !(xy_frame d d1 _ Fr). exact Xpw. }
      { exact H. }
      assert (TP : tpts d1 = tpts d) by apply Fr. assert (XY : forall u, xy d1 u = xy d u) by (intros u; apply (xy_frame d d1 _ Fr)). rewrite TP in *.
      pose proof (idx_xy d L p W (proj1 Op) Vp) as Np. pose proof (idx_xy d L q W (proj1 Oq) Vq) as Nq. pose proof (idx_xy d L w W (proj1 Ow) Vw) as Nw.
      assert (LT : forall n a, nth_error (tpts d) n = Some a -> (n < length (tpts d))%nat) by (intros n a Q; apply nth_error_Some; congruence).
      assert (NT : forall n a, nth_error (tpts d) n = Some a -> nth n (tpts d) (0, 0) = a) by (intros n a Q; apply nth_error_nth; exact Q).
      exists L', R', (t :: new). split; [exact G'|split; [|split; [|split; [constructor|]]]].
      * apply (shrunk_trans _ _ _ _ _ _ _ _ _ _ _ (shrunk_tris _ _ _ _ _ _ _ _ _ S1) S').
      * rewrite Tr', Tr. unfold d0. cbn [tris t_tris]. rewrite <- app_assoc. reflexivity.
      * unfold tri_ok, t. subst i. destruct bk; cbn [p0 p1 p2]; rewrite (NT _ _ Np), (NT _ _ Nq), (NT _ _ Nw); (repeat match goal with |- _ /\ _ => split end; [eapply LT; eassumption|eapply LT; eassumption|eapply LT; eassumption|]).
        -- clear - I1 I2. unfold cross3_z in *. cbn [fst snd] in *. lia.
        -- lia.
      * exact TO.
      * intros c Oc. specialize (SM c Oc). rewrite !(map_ext _ _ XY) in SM. rewrite (SUM c Oc), SM. cbn [tsum].
        assert (A : around c (tri_xy (tpts d) t) = cc c bk (xy d p) (xy d q) + cc c bk (xy d q) (xy d w) - cc c bk (xy d p) (xy d w)).
        { unfold t, tri_xy, around, cc. destruct bk; cbn [p0 p1 p2]; rewrite (NT _ _ Np), (NT _ _ Nq), (NT _ _ Nw).
          - rewrite (Oc (xy d p) (xy d w)). lia.
          - rewrite (Oc (xy d w) (xy d p)). lia. }
        lia.
  - (* the next vertex has to be found *)
    destruct (step_neq d p bk) as [[q|]| |] eqn:SN; try discriminate; cbn [bind] in H; [|injection H as <-; exact STOP].
    destruct (valid d q) eqn:Vq; cbn [negb] in H; [|injection H as <-; exact STOP].
    apply (IH (Some q) d L R d' G); [|exact H]. assert (NE : exists r C, R = r :: C) by (destruct R0 as [|r R0]; cbn [app] in EL; eauto). destruct NE as (r & C & ER).
    assert (Or : on d L r) by (apply ON; right; apply in_or_app; right; rewrite ER; left; reflexivity).
    assert (Q : q = r /\ xy d q <> xy d p).
    { destruct (s_m _ _ _ _ _ _ _ _ G) as [(EM & Een)|(p' & EM & X & Een)].
      - rewrite EM, ER in PT. cbn [app] in PT. destruct PT as (T1 & _). destruct (neq_inv d L p bk q W Op Vp SN) as [(E & Nw & SI)|(N1 & S1 & E & Nw & SI)]; rewrite T1 in *.
        + split; [exact E|]. rewrite E in SI, Vq |- *. rewrite SAME in SI by assumption. intros Z. rewrite Z in SI. rewrite (proj2 (vec2_eqb _ _) eq_refl) in SI. discriminate.
        + exfalso. assert (Vr : valid d r = true). { unfold same_idx in S1. unfold valid in *. destruct (idx d r); [reflexivity|]. destruct (idx d p); discriminate. }
          rewrite SAME in S1 by assumption. apply vec2_eqb in S1.
          assert (B : vertex_eq_buddy d p = Some r) by (rewrite <- T1; apply (s_eb _ _ _ _ _ _ _ _ G); rewrite ?T1; auto; exact I).
          destruct (eq_buddy_stp d p r B (proj2 Or)) as (b & Q1 & Q2 & Q3). destruct (bool_dec b bk) as [->|Nb].
          * rewrite Q1 in Een at 1. exact (en_ne_lv _ _ _ (eq_sym Een)).
          * assert (b = negb bk) by (clear - Nb; destruct b, bk; cbn; congruence). subst b. apply Nw. rewrite E, <- Q3. apply (stp_inv' d L W), Op.
      - rewrite EM, ER in PT. cbn [app] in PT. destruct PT as (T1 & T2 & _).
        assert (Op' : on d L p') by (apply ON; right; rewrite EM; left; reflexivity).
        assert (Np'z : p' <> z). { intros ->. rewrite EM in ND. inversion ND as [|? ? _ N2]; inversion N2 as [|? ? N3 _]. contradiction. }
        assert (Vp' : valid d p' = true) by (apply VAL; [right; rewrite EM; left; reflexivity|exact Np'z]).
        destruct (neq_inv d L p bk q W Op Vp SN) as [(E & Nw & SI)|(N1 & S1 & E & Nw & SI)]; rewrite T1 in *.
        + exfalso. rewrite E in SI. rewrite SAME in SI by assumption. rewrite X in SI. rewrite (proj2 (vec2_eqb _ _) eq_refl) in SI. discriminate.
        + rewrite T2 in E. split; [exact E|]. rewrite E in SI, Vq |- *. rewrite SAME in SI by assumption. intros Z. rewrite Z, X in SI. rewrite (proj2 (vec2_eqb _ _) eq_refl) in SI. discriminate. }
    destruct Q as (-> & Xr). split; [exists C; exact ER|split; [|exact Xr]]. intros ->. destruct (s_z _ _ _ _ _ _ _ _ G) as [(Z & _)|(_ & Z & _)]; congruence.
Qed.
End Flush.

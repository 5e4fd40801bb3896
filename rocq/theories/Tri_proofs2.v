(** Proofs about the triangulation: removing vertices from a path of vertices *)
From Coq Require Import ZArith List Bool Lia Arith ZifyBool.
From Verif Require Import List_model Reduce_model Poly_model Tri_model Tri_spec Tri_proofs.
Import ListNotations.
Open Scope Z_scope.

Lemma pth_cut : forall d b l1 u l2, pth d b (l1 ++ u :: l2) <-> pth d b (l1 ++ [u]) /\ pth d b (u :: l2).
Proof.
  intros d b l1 u l2. induction l1 as [|x l1 IH]; [cbn [app pth]; tauto|]. destruct l1 as [|y l1]; cbn [app pth] in *; tauto.
Qed.
Lemma pth_tl : forall d b u l, pth d b (u :: l) -> pth d b l.
Proof. intros d b u [|v l] H; [exact I|apply H]. Qed.
Lemma pth_ext : forall d d' b l, (forall u, In u (removelast l) -> stp d' b u = stp d b u) -> pth d b l -> pth d' b l.
Proof.
  intros d d' b. induction l as [|u [|v l] IH]; intros H P; [exact I|exact I|]. destruct P as (P1 & P2). split; [rewrite H by (left; reflexivity); exact P1|].
  apply IH; [|exact P2]. intros x X. apply H. right. exact X.
Qed.
Lemma pth_rev : forall d L b l, wf d L -> Forall (on d L) l -> pth d b l -> pth d (negb b) (rev l).
Proof.
  intros d L b l W. induction l as [|u [|v l] IH]; intros F P; [exact I|exact I|]. destruct P as (P1 & P2). inversion F; subst. cbn [rev]. rewrite <- app_assoc.
  change ([stp d b u] ++ [u]) with (stp d b u :: [u]). apply pth_cut. split; [apply IH; assumption|]. split; [|exact I]. apply (stp_inv d L); assumption.
Qed.
Lemma stp_inj : forall d L b u v, wf d L -> on d L u -> on d L v -> stp d b u = stp d b v -> u = v.
Proof. intros d L b u v W Ou Ov H. rewrite <- (stp_inv d L W b u Ou), H. apply (stp_inv d L W), Ov. Qed.

(** A vertex is removed from the middle of a path *)
Lemma pth_mid : forall d L v d' L' b A B, removed d L v d' L' -> wf d L -> NoDup (A ++ v :: B) -> Forall (on d L) (A ++ v :: B) -> pth d b (A ++ v :: B) -> pth d' b (A ++ B).
Proof.
  intros d L v d' L' b A B R W N F P. 
  assert (KEEP : forall l, ~ In v l -> Forall (on d L) l -> pth d b l -> pth d' b l).
  { induction l as [|x [|y l] IH]; intros Nl Fl Pl; [exact I|exact I|]. destruct Pl as (P1 & P2). inversion Fl; subst. split; [|apply IH; auto; intros X; apply Nl; right; exact X].
    rewrite (r_stp _ _ _ _ _ R) by (auto; intros ->; apply Nl; left; reflexivity). rewrite veq_ne; [reflexivity|]. intros Q. apply Nl. right. left. exact Q. }
  assert (NA : ~ In v A /\ ~ In v B). { apply NoDup_remove_2 in N. rewrite in_app_iff in N. tauto. }
  apply Forall_app in F. destruct F as (FA & F). inversion F as [|? ? Fv FB]; subst.
  destruct A as [|a A] using rev_ind; [cbn [app]; apply KEEP; try tauto; exact (pth_tl _ _ _ _ P)|]. clear IHA.
  rewrite <- app_assoc in P. cbn [app] in P. apply pth_cut in P. destruct P as (PA & PB). destruct PB as (PB1 & PB2).
  rewrite <- app_assoc. cbn [app]. apply pth_cut. split; [apply KEEP; tauto|]. destruct B as [|x B]; [exact I|]. destruct PB2 as (PB2 & PB3).
  assert (Fa : on d L a) by (apply Forall_app in FA; destruct FA as (_ & FA); inversion FA; assumption).
  split; [|apply KEEP; tauto]. rewrite (r_stp _ _ _ _ _ R); [rewrite PB1, veq_refl; exact PB2|exact Fa|]. intros ->. apply (proj1 NA). apply in_or_app. right. left. reflexivity.
Qed.

Lemma xy_frame : forall d d' v, frame d d' -> xy d' v = xy d v.
Proof. intros d d' v F. unfold xy. destruct F as (_ & -> & _). reflexivity. Qed.
Lemma valid_frame : forall d d' v, frame d d' -> valid d' v = valid d v.
Proof. intros d d' v F. unfold valid. destruct F as (_ & _ & _ & _ & _ & -> & _). reflexivity. Qed.
Lemma en_frame : forall d d' b e, frame d d' -> en d' b e = en d b e.
Proof. intros d d' b e F. unfold en. destruct F as (_ & _ & _ & -> & _). reflexivity. Qed.
Lemma lv_frame : forall d d' b e, frame d d' -> lv d' b e = lv d b e.
Proof. intros d d' b e F. unfold lv. destruct F as (_ & _ & _ & -> & _). reflexivity. Qed.

Lemma eb_remove : forall (P Q : vx -> Prop) d L v d' L', wf d L -> on d L v -> removed d L v d' L' -> EB P d L -> (forall u, on d L u -> u <> v -> Q u -> P u) ->
  (forall b, let x := stp d b v in let y := stp d (negb b) v in Q x -> Q y -> x <> v -> y <> v -> x <> y -> valid d x = true -> valid d y = true -> xy d x = xy d y ->
     vertex_eq_buddy d' y = Some x) -> EB Q d' L'.
Proof.
  intros P Q d L v d' L' W Ov R H QP N b u Ou Pu Px Nx Vu Vx X. pose proof (r_fr _ _ _ _ _ R) as F. apply (r_on _ _ _ _ _ R) in Ou. destruct Ou as (Ou & Nu).
  rewrite (valid_frame d d' _ F) in Vu. rewrite (valid_frame d d' _ F) in Vx. rewrite !(xy_frame d d' _ F) in X.
  rewrite (r_stp _ _ _ _ _ R b u Ou Nu) in Px, Nx, Vx, X |- *. destruct (vertex_eqb (stp d b u) v) eqn:E.
  - apply veq in E. assert (U : u = stp d (negb b) v) by (rewrite <- E; symmetry; apply (stp_inv d L); assumption). rewrite U. apply N; rewrite <- ?U; auto.
    intros Q2. apply Nu. apply (stp_inj d L b); congruence.
  - assert (Os : on d L (stp d b u)) by apply (stp_on d L W), Ou. assert (Ns : stp d b u <> v) by (intros Q2; rewrite Q2, veq_refl in E; discriminate).
    apply (r_bud _ _ _ _ _ R); auto.
Qed.

(** ** The vertex at the same place *)
Lemma vec2_eqb : forall a b, vec2_eq a b = true <-> a = b.
Proof. intros [x y] [z w]. unfold vec2_eq. cbn [fst snd]. rewrite andb_true_iff, !Z.eqb_eq. split; [intros (-> & ->); reflexivity|intros Q; injection Q; auto]. Qed.
Lemma eq_buddy_xy : forall d v w, vertex_eq_buddy d v = Some w -> xy d w = xy d v.
Proof. intros d v w H. unfold vertex_eq_buddy in H. destruct (vec2_eq _ _) eqn:Q; [|discriminate]. injection H as <-. apply vec2_eqb in Q. congruence. Qed.
(** if it is not disabled, it is a neighbour *)
Lemma eq_buddy_stp : forall d v w, vertex_eq_buddy d v = Some w -> dis d w = false -> exists b, v = lv d b (fst v) /\ w = en d b (fst w) /\ stp d b v = w.
Proof.
  intros d v w H O. unfold vertex_eq_buddy in H. destruct (vec2_eq _ _) eqn:Q; [|discriminate]. injection H as <-. destruct (buddy_form d v) as (b & Q1 & Q2). exists b.
  split; [exact Q1|]. rewrite Q2 in *. split; [reflexivity|]. rewrite Q1 at 1. rewrite stp_lv. unfold ent. rewrite O. reflexivity.
Qed.
Lemma buddy_inv : forall d L v, wf d L -> In (fst v) L -> vertex_buddy d (vertex_buddy d v) = v.
Proof.
  intros d L v W I. destruct (buddy_form d v) as (b & Q1 & Q2). rewrite Q2, <- lv_neg, buddy_of, (w_inv d L W) by exact I. rewrite en_neg. symmetry. exact Q1.
Qed.
Lemma eq_buddy_sym : forall d L v w, wf d L -> In (fst v) L -> vertex_eq_buddy d v = Some w -> vertex_eq_buddy d w = Some v.
Proof.
  intros d L v w W I H. pose proof (eq_buddy_xy d v w H) as X. unfold vertex_eq_buddy in *. destruct (vec2_eq (xy d v) (xy d (vertex_buddy d v))) eqn:Q; [|discriminate]. injection H as <-.
  rewrite (buddy_inv d L v W I), X. rewrite (proj2 (vec2_eqb _ _) eq_refl). reflexivity.
Qed.
Lemma eq_buddy_in : forall d L v w, wf d L -> In (fst v) L -> vertex_eq_buddy d v = Some w -> In (fst w) L /\ fst w <> fst v.
Proof.
  intros d L v w W I H. pose proof (eq_buddy_xy d v w H) as X. unfold vertex_eq_buddy in H. destruct (vec2_eq _ _) eqn:Q; [|discriminate]. injection H as <-.
  destruct (buddy_form d v) as (b & Q1 & Q2). rewrite Q2 in *. split; [apply (w_in d L W), I|]. cbn [fst en]. intros Q3. rewrite Q3 in X.
  apply (w_ne d L W (fst v) I). unfold xy, coord, en in X. destruct v as [e s]. cbn [fst snd] in *. injection Q1 as Q1. subst s. destruct (tback d e), b; cbn [xorb negb] in X; congruence.
Qed.
(** removing a vertex that is disabled already *)
Lemma remove_dis : forall d L w d', wf d L -> In (fst w) L -> dis d w = true -> vertex_remove w d = Done d' ->
  wf d' L /\ frame d d' /\ tris d' = tris d /\ (forall u, on d' L u <-> on d L u) /\ (forall b u, stp d' b u = stp d b u) /\ (forall u, vertex_eq_buddy d' u = vertex_eq_buddy d u).
Proof.
  intros d L w d' W I D R. unfold vertex_remove in R. set (d1 := t_dis (vupd (dis d) w true) d) in *.
  assert (DIS1 : forall u, dis d1 u = dis d u).
  { intros u. change (dis d1 u) with (if vertex_eqb u w then true else dis d u). destruct (vertex_eqb u w) eqn:Q; [apply veq in Q; congruence|reflexivity]. }
  rewrite DIS1, (w_en d L W w I D) in R. injection R as <-. split; [|split; [repeat split|split; [reflexivity|split; [|split; [|reflexivity]]]]].
  - constructor; try apply W.
    + intros u. rewrite !DIS1. apply W.
    + intros u. rewrite !DIS1. apply W.
  - intros u. unfold on. rewrite DIS1. reflexivity.
  - intros b u. unfold stp, ent. rewrite !DIS1. reflexivity.
Qed.
Lemma removed_after : forall d L v d1 L1 d', removed d L v d1 L1 -> wf d' L1 -> frame d1 d' -> tris d' = tris d1 -> (forall u, on d' L1 u <-> on d1 L1 u) -> (forall b u, stp d' b u = stp d1 b u) ->
  (forall u, vertex_eq_buddy d' u = vertex_eq_buddy d1 u) -> removed d L v d' L1.
Proof.
  intros d L v d1 L1 d' R W F T O S B. constructor.
  - exact W.
  - eapply frame_trans; [apply R|exact F].
  - rewrite T. apply R.
  - intros u. rewrite O. apply R.
  - intros b u. rewrite S. apply R.
  - intros u x. rewrite B. apply R.
  - apply R.
Qed.

Section Rem2.
Variables (d : tdata) (L : list nat) (bk : bool) (A : list vx) (y q x : vx) (C : list vx).
Hypothesis W : wf d L.
Hypothesis N : NoDup (A ++ y :: q :: x :: C).
Hypothesis F : Forall (on d L) (A ++ y :: q :: x :: C).
Hypothesis P : pth d bk (A ++ y :: q :: x :: C).
Hypothesis Vq : valid d q = true.
Hypothesis Vx : xy d x = xy d q -> x = en d bk (fst x) -> valid d x = true.
(** the buddy is not before q *)
Hypothesis Hyq : xy d y <> xy d q \/ y <> lv d bk (fst y).
Lemma rem2_case : forall d', vertex_remove2 q d = Done d' ->
  exists d1 L1, removed d L q d1 L1 /\
  (vertex_eq_buddy d q <> Some x /\ removed d L q d' L1
   \/ exists L', vertex_eq_buddy d q = Some x /\ xy d x = xy d q /\ x = en d bk (fst x) /\ on d1 L1 x /\ removed d1 L1 x d' L').
Proof.
  intros d' H. assert (PQ : stp d bk y = q /\ stp d bk q = x). { apply pth_cut in P. destruct P as (_ & P1 & P2 & _). split; assumption. }
  assert (Oq : on d L q). { rewrite Forall_forall in F. apply F. rewrite in_app_iff. right. right. left. reflexivity. }
  assert (Ox : on d L x). { rewrite Forall_forall in F. apply F. rewrite in_app_iff. right. right. right. left. reflexivity. }
  assert (Oy : on d L y). { rewrite Forall_forall in F. apply F. rewrite in_app_iff. right. left. reflexivity. }
  assert (Nqx : x <> q). { apply NoDup_remove in N. destruct N as (N1 & _). apply NoDup_remove_2 in N1. intros ->. apply N1. rewrite in_app_iff. right. left. reflexivity. }
  unfold vertex_remove2 in H. destruct (vertex_remove q d) as [d1| |] eqn:R; try discriminate. cbn [bind] in H. destruct (remove1 d L q d1 W Oq Vq R) as (L1 & R1). exists d1, L1. split; [exact R1|].
  destruct (vertex_eq_buddy d q) as [w|] eqn:Bq; [|injection H as <-; left; split; [discriminate|exact R1]].
  destruct (eq_buddy_in d L q w W (proj1 Oq) Bq) as (Iw & Nw). pose proof (r_in _ _ _ _ _ R1 _ Iw Nw) as Iw1.
  destruct (dis d w) eqn:Dw.
  - assert (Dw1 : dis d1 w = true). { destruct (dis d1 w) eqn:D; [reflexivity|]. assert (O : on d1 L1 w) by (split; assumption). apply (r_on _ _ _ _ _ R1) in O. destruct O as ((_ & O) & _). congruence. }
    destruct (remove_dis d1 L1 w d' (r_wf _ _ _ _ _ R1) Iw1 Dw1 H) as (D1 & D2 & D3 & D4 & D5 & D6). left. split.
    + intros Q. injection Q as ->. destruct Ox. congruence.
    + apply (removed_after d L q d1 L1 d'); assumption.
  - destruct (eq_buddy_stp d q w Bq Dw) as (b & Q1 & Q2 & Q3). pose proof (eq_buddy_xy d q w Bq) as X.
    assert (b = bk).
    { destruct (bool_dec b bk) as [|Nb]; [assumption|]. exfalso. assert (b = negb bk) by (clear - Nb; destruct b, bk; cbn; congruence). subst b.
      assert (Qy : w = y). { rewrite <- Q3. rewrite <- (proj1 PQ). apply (stp_inv d L W), Oy. }
      destruct Hyq as [Z|Z]; [congruence|]. apply Z. rewrite Qy, en_neg in Q2. exact Q2. }
    subst b. assert (Ew : w = x) by (rewrite <- Q3; apply PQ). clear Q3. rewrite Ew in *. clear w Ew. right.
    assert (Ox1 : on d1 L1 x) by (apply (r_on _ _ _ _ _ R1); split; assumption).
    destruct (remove1 d1 L1 x d' (r_wf _ _ _ _ _ R1) Ox1) as (L' & R2); [rewrite (valid_frame d d1 _ (r_fr _ _ _ _ _ R1)); apply Vx; assumption|exact H|].
    exists L'. split; [reflexivity|split; [exact X|split; [exact Q2|split; [exact Ox1|exact R2]]]].
Qed.
End Rem2.

(** Insertion on the heap. *)
From Coq Require Import List Bool Arith Lia.
From Verif Require Import Dict_model Dict_spec Ptr_model Ptr_spec Ptr_proofs Ptr_proofs2 Ptr_proofs3.
Import ListNotations.

Definition has (h : heap) (T : tree) : Prop := rep h None T /\ forall z, cnt z T <= 1.
Definition outs (h h' : heap) (T : tree) : Prop := forall z, cnt z T = 0 -> h' z = h z.
(** A change within the nodes of a tree. *)
Definition stp (h : heap) (T : tree) (h' : heap) (T' : tree) : Prop :=
  has h' T' /\ outs h h' T /\ forall z, cnt z T' = cnt z T.

Lemma stp_refl h T : has h T -> stp h T h T.
Proof. intros H. split; [assumption|]. split; [now intros z _|reflexivity]. Qed.
Lemma stp_trans h T h1 T1 h2 T2 : stp h T h1 T1 -> stp h1 T1 h2 T2 -> stp h T h2 T2.
Proof.
  intros (H1 & O1 & C1) (H2 & O2 & C2). split; [assumption|]. split.
  - intros z Hz. rewrite O2 by (rewrite C1; assumption). now apply O1.
  - intros z. now rewrite C2.
Qed.

Lemma has_tree_has h T : has_tree h T <-> has h T.
Proof. unfold has_tree, has. now rewrite cnt_nodup. Qed.

Lemma has_rep2 h t c : has h (plug t c) <-> rep2 h t c /\ nd t c.
Proof.
  unfold has. rewrite rep2_plug. unfold nd.
  split; intros (H & Nd); (split; [assumption|]); intros z; specialize (Nd z); rewrite cnt_plug in *; assumption.
Qed.

Lemma set_st_stp h l x s r c s' : has h (plug (N l x s r) c) ->
  stp h (plug (N l x s r) c) (set_st h x s') (plug (N l x s' r) c).
Proof.
  intros H. apply has_rep2 in H. destruct H as (R & Nd).
  destruct (set_st_rep2 h l x s r c s' Nd R) as (R' & O).
  assert (C : forall z, cnt z (plug (N l x s' r) c) = cnt z (plug (N l x s r) c)) by
    (intros z; rewrite !cnt_plug; reflexivity).
  split; [|split; [|exact C]].
  - apply has_rep2. split; [assumption|]. intros z. specialize (Nd z). exact Nd.
  - intros z Hz. apply O. rewrite cnt_plug in Hz. exact Hz.
Qed.

Lemma upd_st_stp h l x s r c f s' : has h (plug (N l x s r) c) -> f s = Some s' ->
  exists h', upd_st h x f = Some h' /\
  stp h (plug (N l x s r) c) h' (plug (N l x s' r) c).
Proof.
  intros H Hf. exists (set_st h x s'). split; [|now apply set_st_stp].
  unfold upd_st. apply has_rep2 in H. destruct H as (R & _). rewrite (rep2_read _ _ _ _ _ _ R). cbn.
  now rewrite Hf.
Qed.

Lemma mk_flip i a x s b : mk i a x s b = mk (negb i) b x s a.
Proof. destruct i; reflexivity. Qed.

Lemma root_mk i a x s b : root_of (mk i a x s b) = Some x.
Proof. destruct i; reflexivity. Qed.

Lemma set_st_mk h i a x s b c s' : has h (plug (mk i a x s b) c) ->
  stp h (plug (mk i a x s b) c) (set_st h x s') (plug (mk i a x s' b) c).
Proof. destruct i; apply set_st_stp. Qed.

Lemma upd_st_mk h i a x s b c f s' : has h (plug (mk i a x s b) c) -> f s = Some s' ->
  exists h', upd_st h x f = Some h' /\
  stp h (plug (mk i a x s b) c) h' (plug (mk i a x s' b) c).
Proof. destruct i; apply upd_st_stp. Qed.

Lemma read_mk h i a x s b c : has h (plug (mk i a x s b) c) ->
  par (h x) = cpar c /\ edge (h x) i = root_of a /\ edge (h x) (negb i) = root_of b /\ st (h x) = s.
Proof.
  intros H. apply has_rep2 in H. destruct H as (R & _).
  destruct i; rewrite (rep2_read _ _ _ _ _ _ R); cbn; auto.
Qed.

(** The children, when one moves down. *)
Lemma down h i a x s b c : has h (plug (mk i a x s b) c) <-> has h (plug a (mkF i x s b :: c)).
Proof. reflexivity. Qed.
Lemma down' h i a x s b c : has h (plug (mk i a x s b) c) <-> has h (plug b (mkF (negb i) x s a :: c)).
Proof. rewrite mk_flip. reflexivity. Qed.

Lemma read_N h l x s r c : has h (plug (N l x s r) c) -> h x = mkNode (cpar c) (root_of l) (root_of r) s.
Proof. intros H. apply has_rep2 in H. destruct H as (R & _). exact (rep2_read _ _ _ _ _ _ R). Qed.

Lemma red_p_red h t c : has h (plug t c) -> red_p h (root_of t) = red t.
Proof. destruct t as [|l x s r]; intros H; [reflexivity|]. cbn. now rewrite (read_N _ _ _ _ _ _ H). Qed.

Lemma height2_p_ok h t c : has h (plug t c) -> height2_p h (root_of t) = height2 t.
Proof. destruct t as [|l x s r]; intros H; [reflexivity|]. cbn [root_of height2_p height2]. now rewrite (read_N _ _ _ _ _ _ H). Qed.

Lemma idx_ok h t x f c : root_of t = Some x -> has h (plug t (f :: c)) -> idx h (fid f) x = Some (fside f).
Proof. intros Hx H. apply has_rep2 in H. destruct H as (R & Nd). now apply (idx_frame h t x f c). Qed.

Lemma root_plug c : c <> [] ->
  exists y, 1 <= cnc y c /\ forall t, root_of (plug t c) = Some y.
Proof.
  induction c as [|f c IH]; [congruence|]. intros _. destruct c as [|g c].
  - exists (fid f). split; [cbn; rewrite eqn_refl; lia|]. intros t. cbn. apply root_fill.
  - destruct IH as (y & Hy & Hr); [discriminate|]. exists y. split.
    + cbn [cnc] in *. lia.
    + intros t. cbn [plug] in *. apply Hr.
Qed.

Lemma rotate_stp h dir t c x t' root : has h (plug t c) -> root_of t = Some x ->
  rotate dir t = Some t' ->
  exists h', rotate_p dir x root h = Some (h', match c with [] => root_of t' | _ => root end) /\
    stp h (plug t c) h' (plug t' c).
Proof.
  intros H Hx Hr. apply has_rep2 in H. destruct H as (R & Nd).
  destruct (rotate_ok h dir t c x t' root Nd R Hx Hr) as (h' & E & R' & O & Nd').
  exists h'. split; [assumption|]. split; [|split].
  - apply has_rep2. auto.
  - intros z Hz. apply O. now rewrite cnt_plug in Hz.
  - intros z. rewrite !cnt_plug. f_equal.
    clear -Hr. destruct t as [|l y s r]; [discriminate|]. cbn in Hr.
    destruct dir.
    + destruct l; [discriminate|]. injection Hr as <-. cbn. lia.
    + destruct r; [discriminate|]. injection Hr as <-. cbn. lia.
Qed.

(** With the root known *)
Lemma rotate_stp_root h dir t c x t' : has h (plug t c) -> root_of t = Some x ->
  rotate dir t = Some t' ->
  exists h', rotate_p dir x (root_of (plug t c)) h = Some (h', root_of (plug t' c)) /\
    stp h (plug t c) h' (plug t' c).
Proof.
  intros H Hx Hr. destruct (rotate_stp h dir t c x t' (root_of (plug t c)) H Hx Hr) as (h' & E & S).
  exists h'. split; [|assumption]. rewrite E. do 2 f_equal. destruct c as [|f c]; [reflexivity|].
  destruct (root_plug (f :: c)) as (y & _ & Hy); [discriminate|]. now rewrite !Hy.
Qed.

Lemma rotate_mk_inv dir P x s C t' : rotate dir (mk (negb dir) P x s C) = Some t' ->
  exists A y sy B, P = mk (negb dir) A y sy B /\ t' = mk (negb dir) A y sy (mk (negb dir) B x s C).
Proof.
  destruct dir; cbn; (destruct P as [|l y sy r]; [discriminate|]); intros H; injection H as <-.
  - exists l, y, sy, r. auto.
  - exists r, y, sy, l. auto.
Qed.

Lemma has_neq h t c x f : has h (plug t (f :: c)) -> root_of t = Some x -> fid f <> x.
Proof.
  intros H Hx E. apply has_rep2 in H. destruct H as (_ & Nd). specialize (Nd x).
  apply root_cnt in Hx. cbn in Nd. rewrite E, eqn_refl in Nd. lia.
Qed.

Lemma balance_insert_ok : forall fuel x c r h xi, length c < fuel ->
  has h (plug x c) -> root_of x = Some xi -> balance_insert x c = Some r ->
  exists h', balance_insert_p fuel xi (root_of (plug x c)) h = Some (h', root_of r) /\
    stp h (plug x c) h' r.
Proof.
  induction fuel as [|fuel IH]; intros x c r h xi Hf H Hxi Hb; [lia|].
  cbn [balance_insert_p].
  destruct (peq_spec (Some xi) (root_of (plug x c))) as [Hroot|Hroot].
  { destruct c as [|f c].
    - cbn in Hb. injection Hb as <-. exists h. split; [reflexivity|]. now apply stp_refl.
    - exfalso. destruct (root_plug (f :: c)) as (y & Hy & Hr); [discriminate|].
      rewrite Hr in Hroot. injection Hroot as <-.
      apply has_rep2 in H. destruct H as (_ & Nd). specialize (Nd xi).
      apply root_cnt in Hxi. lia. }
  destruct c as [|f1 c]; [cbn in Hroot; congruence|].
  assert (Px : par (h xi) = Some (fid f1)).
  { destruct x as [|xl x0 xs xr]; [discriminate|]. injection Hxi as ->. now rewrite (read_N _ _ _ _ _ _ H). }
  rewrite Px. cbn [bind].
  destruct f1 as [i1 p ps psib]. cbn [fid] in *.
  destruct (read_mk h i1 x p ps psib c H) as (Pp & Pe & Pe' & Ps).
  rewrite Pp. destruct c as [|f2 c'].
  { cbn in Hb. injection Hb as <-. exists h. split; [reflexivity|]. now apply stp_refl. }
  cbn [cpar]. rewrite Ps. cbn [balance_insert fst_] in Hb.
  destruct (Nat.odd ps) eqn:Op.
  2:{ injection Hb as <-. exists h. split; [reflexivity|]. now apply stp_refl. }
  destruct (red x) eqn:Rx; [|discriminate]. cbn [check] in Hb.
  destruct x as [|xl x0 xs xr]; [discriminate|]. injection Hxi as ->. cbn [red] in Rx.
  rewrite (read_N _ _ _ _ _ _ H). cbn [st]. rewrite Rx. cbn [check].
  destruct f2 as [side q qs y]. cbn [fid fside fst_ fsib] in *.
  set (X := N xl xi xs xr) in *.
  assert (Hq : has h (plug (mk side (mk i1 X p ps psib) q qs y) c')) by exact H.
  rewrite (idx_ok h (mk i1 X p ps psib) p (mkF side q qs y) c' (root_mk _ _ _ _ _) H : idx h q p = Some side).
  cbn [bind].
  destruct (read_mk _ _ _ _ _ _ _ Hq) as (Pq & Eq & Eq' & Sq).
  assert (Hy := proj1 (down' _ _ _ _ _ _ _) Hq). 
  rewrite Eq', (red_p_red _ _ _ Hy). destruct (red y) eqn:Ry.
  - (* recolour *)
    destruct y as [|yl yi ys yr]; [discriminate|]. cbn [red root_of] in *.
    destruct (st_inc_set_black ps) as [ps'|] eqn:Eps; [|discriminate]. cbn [bind] in Hb.
    unfold inc_set_black, set_stat in Hb.
    destruct (st_inc_set_black ys) as [ys'|] eqn:Eys; [|discriminate]. cbn [bind] in Hb.
    destruct (upd_st_mk h i1 X p ps psib (mkF side q qs (N yl yi ys yr) :: c') _ _ H Eps) as (h1 & E1 & S1).
    rewrite E1. cbn [bind].
    assert (H1 : has h1 (plug (N yl yi ys yr) (mkF (negb side) q qs (mk i1 X p ps' psib) :: c'))).
    { apply (proj1 (down' h1 side (mk i1 X p ps' psib) q qs (N yl yi ys yr) c')). apply S1. }
    destruct (upd_st_stp h1 yl yi ys yr _ _ _ H1 Eys) as (h2 & E2 & S2).
    rewrite E2. cbn [bind].
    assert (H2 : has h2 (plug (mk side (mk i1 X p ps' psib) q qs (N yl yi ys' yr)) c')).
    { apply (proj2 (down' h2 side (mk i1 X p ps' psib) q qs (N yl yi ys' yr) c')). apply S2. }
    destruct (read_mk _ _ _ _ _ _ _ H2) as (_ & _ & _ & Sq2). rewrite Sq2.
    pose proof (set_st_mk h2 side (mk i1 X p ps' psib) q qs (N yl yi ys' yr) c' (st_set_red qs) H2) as S3.
    set (h3 := set_st h2 q (st_set_red qs)) in *.
    set (Q := mk side (mk i1 X p ps' psib) q (st_set_red qs) (N yl yi ys' yr)) in *.
    assert (S : stp h (plug X (mkF i1 p ps psib :: mkF side q qs (N yl yi ys yr) :: c')) h3 (plug Q c')).
    { eapply stp_trans; [exact S1|]. eapply stp_trans; [|exact S3].
      assert (X1 : plug (mk i1 X p ps' psib) (mkF side q qs (N yl yi ys yr) :: c') =
        plug (N yl yi ys yr) (mkF (negb side) q qs (mk i1 X p ps' psib) :: c')).
      { cbn [plug fill fside fid fst_ fsib]. f_equal. unfold fill. cbn [fside fid fst_ fsib]. apply mk_flip. }
      assert (X2 : plug (mk side (mk i1 X p ps' psib) q qs (N yl yi ys' yr)) c' =
        plug (N yl yi ys' yr) (mkF (negb side) q qs (mk i1 X p ps' psib) :: c')).
      { cbn [plug]. f_equal. unfold fill. cbn [fside fid fst_ fsib]. apply mk_flip. }
      rewrite X1, X2. exact S2. }
    destruct (IH Q c' r h3 q) as (h' & E & Sf).
    + cbn in Hf. lia.
    + apply S.
    + apply root_mk.
    + exact Hb.
    + exists h'. split; [|eapply stp_trans; [exact S|exact Sf]].
      rewrite <- E. f_equal.
      destruct c' as [|g c'].
      * cbn [plug]. unfold Q. rewrite root_mk. unfold fill. cbn [fside fid fst_ fsib]. now rewrite root_mk.
      * destruct (root_plug (g :: c')) as (w & _ & Hw); [discriminate|].
        cbn [plug] in *. now rewrite !Hw.
  - (* rotate *)
    destruct (if Bool.eqb i1 (negb side) then rotate side (fill (mkF i1 p ps psib) X) else Some (fill (mkF i1 p ps psib) X))
      as [PT|] eqn:EP; [|discriminate]. cbn [bind] in Hb.
    assert (P1 : exists h1 xx Xs pi pps C,
      (if peq (Some xi) (edge (h p) (negb side))
       then do (h0, root0) <- rotate_p side p (root_of (plug X (mkF i1 p ps psib :: mkF side q qs y :: c'))) h;; Some (h0, root0, p)
       else Some (h, root_of (plug X (mkF i1 p ps psib :: mkF side q qs y :: c')), xi)) =
      Some (h1, root_of (plug PT (mkF side q qs y :: c')), xx) /\
      PT = mk side Xs pi pps C /\ root_of Xs = Some xx /\
      stp h (plug X (mkF i1 p ps psib :: mkF side q qs y :: c')) h1 (plug PT (mkF side q qs y :: c'))).
    { destruct (Bool.eqb_spec i1 (negb side)) as [->|Ni].
      - destruct (rotate_mk_inv side X p ps psib PT EP) as (A & y0 & sy & B & EX & ->).
        rewrite Pe, peq_refl.
        destruct (rotate_stp_root h side (mk (negb side) X p ps psib) (mkF side q qs y :: c') p _ H (root_mk _ _ _ _ _) EP)
          as (h1 & E1 & S1).
        exists h1, p, (mk (negb side) B p ps psib), y0, sy, A.
        change (plug X (mkF (negb side) p ps psib :: mkF side q qs y :: c')) with
          (plug (mk (negb side) X p ps psib) (mkF side q qs y :: c')).
        rewrite E1. cbn [bind]. split; [reflexivity|]. split; [|split; [apply root_mk|exact S1]].
        rewrite (mk_flip side). reflexivity.
      - assert (i1 = side) as -> by (destruct i1, side; cbn in *; congruence).
        injection EP as <-.
        assert (peq (Some xi) (edge (h p) (negb side)) = false) as ->.
        { rewrite Pe'. destruct (peq_spec (Some xi) (root_of psib)) as [Z|]; [|reflexivity].
          symmetry in Z. apply root_cnt in Z. apply has_rep2 in H. destruct H as (_ & Nd).
          specialize (Nd xi). unfold X in Nd. cbn [cnt cnc fsib fid] in Nd. rewrite eqn_refl in Nd. lia. }
        exists h, xi, X, p, ps, psib. split; [reflexivity|]. split; [reflexivity|].
        split; [reflexivity|]. now apply stp_refl. }
    destruct P1 as (h1 & xx & Xs & pi & pps & C & E1 & -> & Hxx & S1).
    rewrite E1. cbn [bind]. clear E1 EP.
    assert (H1 : has h1 (plug (mk side Xs pi pps C) (mkF side q qs y :: c'))) by apply S1.
    assert (Pxx : par (h1 xx) = Some pi).
    { assert (HX := proj1 (down _ _ _ _ _ _ _) H1).
      destruct Xs as [|? ? ? ?]; [discriminate|]. injection Hxx as ->. now rewrite (read_N _ _ _ _ _ _ HX). }
    rewrite Pxx. cbn [bind].
    assert (Ei : exists pps', st_inc_set_black pps = Some pps' /\ inc_set_black (mk side Xs pi pps C) = Some (mk side Xs pi pps' C)).
    { destruct (inc_set_black (mk side Xs pi pps C)) as [t|] eqn:Z; [|discriminate].
      unfold inc_set_black, set_stat in Z |- *. destruct side; cbn [mk] in *;
        (destruct (st_inc_set_black pps) as [w|]; [|discriminate]); exists w; split; auto. }
    destruct Ei as (pps' & Ei & Ei'). rewrite Ei' in Hb. cbn [bind] in Hb.
    destruct (upd_st_mk h1 side Xs pi pps C _ _ _ H1 Ei) as (h2 & E2 & S2).
    rewrite E2. cbn [bind].
    assert (H2 : has h2 (plug (mk side Xs pi pps' C) (mkF side q qs y :: c'))) by apply S2.
    destruct (read_mk _ _ _ _ _ _ _ H2) as (Ppi & _ & _ & _). rewrite Ppi. cbn [cpar bind fid].
    assert (H2' : has h2 (plug (mk side (mk side Xs pi pps' C) q qs y) c')) by exact H2.
    destruct (read_mk _ _ _ _ _ _ _ H2') as (_ & _ & _ & Sq2). rewrite Sq2.
    destruct (if Nat.odd qs then Some qs else st_dec_set_red qs) as [qs'|] eqn:Eqs; [|discriminate].
    cbn [bind] in Hb.
    assert (P3 : exists h3, (if Nat.odd qs then Some h2 else upd_st h2 q st_dec_set_red) = Some h3 /\
      stp h2 (plug (mk side (mk side Xs pi pps' C) q qs y) c') h3 (plug (mk side (mk side Xs pi pps' C) q qs' y) c')).
    { destruct (Nat.odd qs).
      - injection Eqs as <-. exists h2. split; [reflexivity|]. now apply stp_refl.
      - apply upd_st_mk; assumption. }
    destruct P3 as (h3 & E3 & S3). rewrite E3. cbn [bind].
    destruct (rotate (negb side) (fill (mkF side q qs' y) (mk side Xs pi pps' C))) as [top|] eqn:Et; [|discriminate].
    cbn [bind] in Hb.
    destruct (red top) eqn:Rt; [discriminate|]. cbn [negb check] in Hb. injection Hb as <-.
    destruct (rotate_stp_root h3 (negb side) (mk side (mk side Xs pi pps' C) q qs' y) c' q top (proj1 S3) (root_mk _ _ _ _ _) Et)
      as (h4 & E4 & S4).
    assert (Er : root_of (plug (mk side Xs pi pps C) (mkF side q qs y :: c')) =
                 root_of (plug (mk side (mk side Xs pi pps' C) q qs' y) c')).
    { destruct c' as [|g c'].
      - cbn [plug]. unfold fill. cbn [fside fid fst_ fsib]. now rewrite !root_mk.
      - destruct (root_plug (g :: c')) as (w & _ & Hw); [discriminate|].
        cbn [plug] in *. now rewrite !Hw. }
    rewrite Er, E4. cbn [bind].
    assert (Et' : top = mk side Xs pi pps' (mk side C q qs' y)).
    { replace side with (negb (negb side)) in Et by apply negb_involutive.
      unfold fill in Et. cbn [fside fid fst_ fsib] in Et.
      destruct side; cbn in Et; injection Et as <-; reflexivity. }
    assert (H4 : has h4 (plug top c')) by apply S4. rewrite Et' in H4.
    assert (Pxx4 : par (h4 xx) = Some pi).
    { assert (HX := proj1 (down _ _ _ _ _ _ _) H4).
      destruct Xs as [|? ? ? ?]; [discriminate|]. injection Hxx as ->. now rewrite (read_N _ _ _ _ _ _ HX). }
    rewrite Pxx4. cbn [bind].
    destruct (read_mk _ _ _ _ _ _ _ H4) as (_ & _ & _ & Spi). rewrite Spi.
    assert (Nat.odd pps' = false) as -> by (rewrite Et' in Rt; destruct side; exact Rt).
    cbn [negb check]. exists h4. split; [reflexivity|].
    eapply stp_trans; [exact S1|]. eapply stp_trans; [exact S2|]. eapply stp_trans; [exact S3|exact S4].
Qed.

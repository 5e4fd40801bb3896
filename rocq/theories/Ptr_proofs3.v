(** Positions in a tree in the heap; changes of colours; rotation. *)
From Coq Require Import List Bool Arith Lia.
From Verif Require Import Dict_model Dict_spec Ptr_model Ptr_spec Ptr_proofs Ptr_proofs2.
Import ListNotations.

Definition eqn (x z : nat) : nat := if x =? z then 1 else 0.
Lemma eqn_refl x : eqn x x = 1.
Proof. unfold eqn. now rewrite Nat.eqb_refl. Qed.
Lemma eqn_le x z : eqn x z <= 1.
Proof. unfold eqn. destruct (x =? z); lia. Qed.

(** How often a node occurs. *)
Fixpoint cnt (z : nat) (t : tree) : nat :=
  match t with E => 0 | N l x _ r => eqn x z + (cnt z l + cnt z r) end.
Fixpoint cnc (z : nat) (c : list frame) : nat :=
  match c with [] => 0 | f :: c' => eqn (fid f) z + (cnt z (fsib f) + cnc z c') end.

Lemma cnt_in z t : 1 <= cnt z t <-> In z (inorder t).
Proof.
  induction t as [|l IHl x s r IHr]; cbn; [lia|].
  rewrite in_app_iff. cbn. rewrite <- IHl, <- IHr. unfold eqn.
  destruct (Nat.eqb_spec x z); split; intros; try tauto; lia.
Qed.

Lemma cnt_nodup t : NoDup (inorder t) <-> forall z, cnt z t <= 1.
Proof.
  induction t as [|l IHl x s r IHr]; cbn; [split; [lia|constructor]|].
  rewrite nd_app, NoDup_cons_iff, IHl, IHr. split.
  - intros (Hl & (Nx & Hr) & Dj) z. specialize (Hl z). specialize (Hr z). specialize (Dj z).
    rewrite <- cnt_in in Nx. cbn in Dj. rewrite <- !cnt_in in Dj. unfold eqn.
    destruct (Nat.eqb_spec x z) as [->|].
    + destruct (le_lt_dec 1 (cnt z l)); [exfalso; apply Dj; auto|]. lia.
    + destruct (le_lt_dec 1 (cnt z l)); [|lia].
      destruct (le_lt_dec 1 (cnt z r)); [exfalso; apply Dj; auto|]. lia.
  - intros H. split; [intros z; specialize (H z); lia|]. split.
    + split; [|intros z; specialize (H z); lia].
      rewrite <- cnt_in. specialize (H x). rewrite eqn_refl in H. lia.
    + intros z H1 H2. specialize (H z). cbn in H2. apply cnt_in in H1.
      destruct H2 as [->|H2]; [rewrite eqn_refl in H; lia|].
      apply cnt_in in H2. lia.
Qed.

Lemma cnt_fill z f t : cnt z (fill f t) = cnt z t + (eqn (fid f) z + cnt z (fsib f)).
Proof. unfold fill, mk. destruct (fside f); cbn; lia. Qed.

Lemma cnt_plug z c : forall t, cnt z (plug t c) = cnt z t + cnc z c.
Proof.
  induction c as [|f c IH]; intros t; cbn; [lia|]. rewrite IH, cnt_fill. lia.
Qed.

Definition nd (t : tree) (c : list frame) : Prop := forall z, cnt z t + cnc z c <= 1.

Lemma nd_plug t c : NoDup (inorder (plug t c)) <-> nd t c.
Proof.
  rewrite cnt_nodup. unfold nd. split; intros H z; specialize (H z); rewrite cnt_plug in *; assumption.
Qed.

Definition cpar (c : list frame) : option nat :=
  match c with [] => None | f :: _ => Some (fid f) end.
Fixpoint repc (h : heap) (r : option nat) (c : list frame) : Prop :=
  match c with
  | [] => True
  | f :: c' =>
    h (fid f) = mkNode (cpar c') (if fside f then root_of (fsib f) else r)
                  (if fside f then r else root_of (fsib f)) (fst_ f) /\
    rep h (Some (fid f)) (fsib f) /\ repc h (Some (fid f)) c'
  end.
Definition rep2 (h : heap) (t : tree) (c : list frame) : Prop :=
  rep h (cpar c) t /\ repc h (root_of t) c.

Lemma root_fill f t : root_of (fill f t) = Some (fid f).
Proof. unfold fill, mk. destruct (fside f); reflexivity. Qed.

Lemma rep2_up h f t c : rep2 h t (f :: c) <-> rep2 h (fill f t) c.
Proof.
  unfold rep2. cbn [repc cpar]. rewrite root_fill. unfold fill, mk.
  destruct (fside f); cbn [rep]; tauto.
Qed.

Lemma rep2_plug h c : forall t, rep2 h t c <-> rep h None (plug t c).
Proof.
  induction c as [|f c IH]; intros t.
  - unfold rep2. cbn. tauto.
  - rewrite rep2_up. apply IH.
Qed.

Lemma nd_up f t c : nd t (f :: c) <-> nd (fill f t) c.
Proof.
  unfold nd. cbn [cnc]. split; intros H z; specialize (H z); rewrite cnt_fill in *; lia.
Qed.

Definition same_out (h h' : heap) (t : tree) (c : list frame) : Prop :=
  forall z, cnt z t + cnc z c = 0 -> h' z = h z.

(** Frames. *)
Lemma rep_frame h h' t : forall p, (forall z, 1 <= cnt z t -> h' z = h z) -> rep h p t -> rep h' p t.
Proof.
  induction t as [|l IHl x s r IHr]; intros p; cbn; [trivial|].
  intros Hz (Hx & Hl & Hr). split; [|split].
  - rewrite Hz by (rewrite eqn_refl; lia). assumption.
  - apply IHl; [|assumption]. intros z ?. apply Hz. lia.
  - apply IHr; [|assumption]. intros z ?. apply Hz. lia.
Qed.

Lemma repc_frame h h' c : forall r, (forall z, 1 <= cnc z c -> h' z = h z) -> repc h r c -> repc h' r c.
Proof.
  induction c as [|f c IH]; intros r; cbn; [trivial|].
  intros Hz (Hx & Hl & Hr). split; [|split].
  - rewrite Hz by (rewrite eqn_refl; lia). assumption.
  - eapply rep_frame; [|eassumption]. intros z ?. apply Hz. lia.
  - apply IH; [|assumption]. intros z ?. apply Hz. lia.
Qed.

(** The operations on the heap, pointwise. *)
Lemma set_par_at h x p z : set_par h x p z = if z =? x then with_par (h z) p else h z.
Proof. unfold set_par, hput. destruct (Nat.eqb_spec z x); subst; reflexivity. Qed.
Lemma set_par_if_at h q p z :
  set_par_if h q p z = if peq q (Some z) then with_par (h z) p else h z.
Proof.
  destruct q as [x|]; cbn; [|reflexivity]. rewrite set_par_at, (Nat.eqb_sym x z). reflexivity.
Qed.
Lemma set_edge_at h x i v z : set_edge h x i v z = if z =? x then with_edge (h z) i v else h z.
Proof. unfold set_edge, hput. destruct (Nat.eqb_spec z x); subst; reflexivity. Qed.
Lemma set_st_at h x s z : set_st h x s z = if z =? x then with_st (h z) s else h z.
Proof. unfold set_st, hput. destruct (Nat.eqb_spec z x); subst; reflexivity. Qed.

Lemma root_cnt t x : root_of t = Some x -> 1 <= cnt x t.
Proof. intros H. apply cnt_in. now apply root_in. Qed.

Lemma rep_reparent h h' p q t : rep h p t -> (forall z, cnt z t <= 1) ->
  (forall z, 1 <= cnt z t -> h' z = if peq (root_of t) (Some z) then with_par (h z) q else h z) ->
  rep h' q t.
Proof.
  destruct t as [|l x s r]; cbn; [trivial|].
  intros (Hx & Hl & Hr) Nd Hz. split; [|split].
  - rewrite Hz by (rewrite eqn_refl; lia). rewrite Nat.eqb_refl, Hx. reflexivity.
  - eapply rep_frame; [|exact Hl]. intros z H. rewrite Hz by lia.
    destruct (Nat.eqb_spec x z) as [->|]; [|reflexivity].
    specialize (Nd z). rewrite eqn_refl in Nd. lia.
  - eapply rep_frame; [|exact Hr]. intros z H. rewrite Hz by lia.
    destruct (Nat.eqb_spec x z) as [->|]; [|reflexivity].
    specialize (Nd z). rewrite eqn_refl in Nd. lia.
Qed.

(** Contradictions: a node that occurs twice. *)
Ltac dj_at ND z :=
  let X := fresh in pose proof (ND z) as X; unfold fill, mk in *; cbn [cnt cnc fid fsib fside fst_] in *;
  rewrite ?eqn_refl in *; lia.
Ltac dj ND :=
  exfalso; subst;
  repeat match goal with H : root_of _ = Some _ |- _ => apply root_cnt in H end;
  match goal with
  | z : nat |- _ => dj_at ND z
  | f : frame |- _ => dj_at ND (fid f)
  end.
Ltac tests ND :=
  repeat match goal with
  | |- context [?a =? ?b] =>
    destruct (Nat.eqb_spec a b) as [?E|?E];
    [first [solve [dj ND]|rewrite ?E in *|idtac] | try (exfalso; congruence)]
  | |- context [peq (root_of ?t) (Some ?z)] =>
    destruct (peq_spec (root_of t) (Some z)) as [?E|?E]; [first [solve [dj ND]|idtac] |]
  end.

(** Colours. *)
Lemma set_st_rep2 h l x s r c s' : nd (N l x s r) c -> rep2 h (N l x s r) c ->
  rep2 (set_st h x s') (N l x s' r) c /\ same_out h (set_st h x s') (N l x s r) c.
Proof.
  intros ND ((Hx & Hl & Hr) & Hc). unfold rep2. cbn [rep root_of].
  split; [split; [split; [|split]|]|].
  - rewrite set_st_at, Nat.eqb_refl, Hx. reflexivity.
  - eapply rep_frame; [|exact Hl]. intros z Hz. rewrite set_st_at.
    destruct (Nat.eqb_spec z x); [dj ND|reflexivity].
  - eapply rep_frame; [|exact Hr]. intros z Hz. rewrite set_st_at.
    destruct (Nat.eqb_spec z x); [dj ND|reflexivity].
  - cbn [root_of] in Hc. eapply repc_frame; [|exact Hc]. intros z Hz. rewrite set_st_at.
    destruct (Nat.eqb_spec z x); [dj ND|reflexivity].
  - intros z Hz. rewrite set_st_at. destruct (Nat.eqb_spec z x); [|reflexivity].
    subst. cbn in Hz. rewrite eqn_refl in Hz. lia.
Qed.

Lemma rep2_read h l x s r c : rep2 h (N l x s r) c -> h x = mkNode (cpar c) (root_of l) (root_of r) s.
Proof. intros ((H & _) & _). exact H. Qed.

Lemma idx_frame h t x f c : root_of t = Some x -> nd t (f :: c) -> rep2 h t (f :: c) ->
  idx h (fid f) x = Some (fside f).
Proof.
  intros Hx ND (_ & Hf & _). cbn in Hf.
  apply idx_child.
  - rewrite Hf. destruct (fside f); cbn; assumption.
  - rewrite Hf. cbn. rewrite Hx. intros H0 H1. destruct (fside f).
    + dj ND.
    + dj ND.
Qed.

(** The frame in which the hole has been given another root. *)
Lemma repc_hole h h' t t' f c : nd t (f :: c) -> repc h (root_of t) (f :: c) ->
  (forall z, 1 <= cnc z (f :: c) ->
     h' z = if z =? fid f then with_edge (h z) (fside f) (root_of t') else h z) ->
  repc h' (root_of t') (f :: c).
Proof.
  intros ND (Hf & Hs & Hc) H. cbn. split; [|split].
  - rewrite H by (cbn; rewrite eqn_refl; lia). rewrite Nat.eqb_refl, Hf.
    destruct (fside f); reflexivity.
  - eapply rep_frame; [|exact Hs]. intros z Hz. rewrite H by (cbn; lia).
    destruct (Nat.eqb_spec z (fid f)); [dj ND|reflexivity].
  - eapply repc_frame; [|exact Hc]. intros z Hz. rewrite H by (cbn; lia).
    destruct (Nat.eqb_spec z (fid f)); [dj ND|reflexivity].
Qed.

Lemma rotate_ok h dir t c x t' root : nd t c -> rep2 h t c -> root_of t = Some x ->
  rotate dir t = Some t' ->
  exists h', rotate_p dir x root h = Some (h', match c with [] => root_of t' | _ => root end) /\
    rep2 h' t' c /\ same_out h h' t c /\ nd t' c.
Proof.
  intros ND R Hx Hr. destruct t as [|l x0 s r]; [discriminate|].
  cbn in Hx. injection Hx as ->. cbn in Hr.
  destruct (if dir then l else r) as [|yl y sy yr] eqn:Ey; [discriminate|].
  assert (Ex := rep2_read _ _ _ _ _ _ R).
  assert (xy : x <> y).
  { intros ->. specialize (ND y). destruct dir; subst; cbn in ND; rewrite eqn_refl in ND; lia. }
  destruct R as ((_ & Rl & Rr) & Rc). cbn [root_of] in Rc.
  unfold rotate_p. rewrite Ex.
  destruct dir; cbn [negb edge e0 e1 bind] in *; subst; injection Hr as <-.
  - (* the left child y goes up *)
    destruct Rl as (Eyy & Ryl & Ryr). cbn [root_of bind]. rewrite Eyy. cbn [e1].
    rewrite set_edge_at. destruct (Nat.eqb_spec y x) as [|_]; [congruence|]. rewrite Eyy. cbn [e1].
    set (h2 := set_par_if _ _ _).
    assert (Px : par (h2 x) = cpar c).
    { unfold h2. rewrite set_par_if_at, set_edge_at, Nat.eqb_refl, Ex.
      destruct (peq_spec (root_of yr) (Some x)); [dj ND|reflexivity]. }
    rewrite Px. rewrite set_par_at. destruct (Nat.eqb_spec x y) as [|_]; [congruence|]. rewrite Px.
    assert (NDt : nd (N yl y sy (N yr x s r)) c).
    { intros z. specialize (ND z). cbn in *. lia. }
    destruct c as [|f c].
    + cbn [cpar bind]. eexists. split; [reflexivity|]. split; [|split; [|exact NDt]].
      * split; [|exact I]. cbn [rep root_of cpar].
        assert (At : forall z, 1 <= cnt z yl \/ 1 <= cnt z yr \/ 1 <= cnt z r ->
          set_par (set_edge (set_par h2 y None) y true (Some x)) x (Some y) z =
          if peq (root_of yr) (Some z) then with_par (h z) (Some x) else h z).
        { intros z Hz. rewrite set_par_at, set_edge_at, set_par_at. unfold h2. rewrite set_par_if_at, set_edge_at.
          destruct (Nat.eqb_spec z x); [dj ND|]. destruct (Nat.eqb_spec z y); [dj ND|]. reflexivity. }
        split; [|split; [|split; [|split]]].
        -- rewrite set_par_at, set_edge_at, set_par_at. unfold h2. rewrite set_par_if_at, set_edge_at.
           destruct (Nat.eqb_spec y x); [congruence|]. rewrite Nat.eqb_refl, Eyy.
           destruct (peq_spec (root_of yr) (Some y)); [dj ND|reflexivity].
        -- eapply rep_frame; [|exact Ryl]. intros z Hz. rewrite At by auto.
           destruct (peq_spec (root_of yr) (Some z)); [dj ND|reflexivity].
        -- rewrite set_par_at, set_edge_at, set_par_at. unfold h2. rewrite set_par_if_at, set_edge_at.
           rewrite Nat.eqb_refl. destruct (Nat.eqb_spec x y); [congruence|]. rewrite Ex.
           destruct (peq_spec (root_of yr) (Some x)); [dj ND|reflexivity].
        -- eapply rep_reparent; [exact Ryr| |].
           ++ intros z. specialize (ND z). cbn in ND. lia.
           ++ intros z Hz. apply At. auto.
        -- eapply rep_frame; [|exact Rr]. intros z Hz. rewrite At by auto.
           destruct (peq_spec (root_of yr) (Some z)); [dj ND|reflexivity].
      * intros z Hz. cbn in Hz. rewrite set_par_at, set_edge_at, set_par_at. unfold h2. rewrite set_par_if_at, set_edge_at.
        destruct (Nat.eqb_spec z x); [subst; rewrite eqn_refl in Hz; lia|].
        destruct (Nat.eqb_spec z y); [subst; rewrite eqn_refl in Hz; lia|].
        destruct (peq_spec (root_of yr) (Some z)) as [X|]; [apply root_cnt in X; lia|reflexivity].
    + cbn [cpar]. set (p := fid f).
      assert (Ef : h p = mkNode (cpar c) (if fside f then root_of (fsib f) else Some x)
                  (if fside f then Some x else root_of (fsib f)) (fst_ f)).
      { destruct Rc as (H & _). exact H. }
      assert (px : p <> x). { unfold p; intros Q; rewrite <- Q in *; dj_at ND (fid f). }
      assert (py : p <> y). { unfold p; intros Q; rewrite <- Q in *; dj_at ND (fid f). }
      assert (H3f : set_par h2 y (Some p) p = h p).
      { rewrite set_par_at. unfold h2. rewrite set_par_if_at, set_edge_at.
        destruct (Nat.eqb_spec p y); [congruence|]. destruct (Nat.eqb_spec p x); [congruence|].
        destruct (peq_spec (root_of yr) (Some p)) as [X|]; [|reflexivity].
        apply root_cnt in X. unfold p in X. dj_at ND (fid f). }
      rewrite (idx_child _ p x (fside f)).
      2:{ rewrite H3f, Ef. destruct (fside f); reflexivity. }
      2:{ rewrite H3f, Ef. cbn. intros Q0 Q1. destruct (fside f); dj ND. }
      cbn [bind]. eexists. split; [reflexivity|].
      assert (At : forall z, z <> x -> z <> y ->
          set_par (set_edge (set_edge (set_par h2 y (Some p)) p (fside f) (Some y)) y true (Some x)) x (Some y) z =
          if z =? p then with_edge (h z) (fside f) (Some y)
          else if peq (root_of yr) (Some z) then with_par (h z) (Some x) else h z).
      { intros z zx zy. rewrite set_par_at, !set_edge_at, set_par_at. unfold h2. rewrite set_par_if_at, set_edge_at.
        destruct (Nat.eqb_spec z x); [congruence|]. destruct (Nat.eqb_spec z y); [congruence|].
        destruct (Nat.eqb_spec z p) as [->|]; [|reflexivity].
        destruct (peq_spec (root_of yr) (Some p)) as [X|]; [|reflexivity].
        apply root_cnt in X. unfold p in X. exfalso. dj_at ND (fid f). }
      split; [|split; [|exact NDt]].
      * split; [cbn [rep root_of cpar]|].
        -- split; [|split; [|split; [|split]]].
           ++ rewrite set_par_at, !set_edge_at, set_par_at. unfold h2. rewrite set_par_if_at, set_edge_at.
              destruct (Nat.eqb_spec y x); [congruence|]. rewrite Nat.eqb_refl.
              destruct (Nat.eqb_spec y p); [congruence|]. rewrite Eyy.
              destruct (peq_spec (root_of yr) (Some y)); [dj ND|reflexivity].
           ++ eapply rep_frame; [|exact Ryl]. intros z Hz. rewrite At by (intros ->; dj ND).
              destruct (Nat.eqb_spec z p); [unfold p in *; subst; dj ND|].
              destruct (peq_spec (root_of yr) (Some z)); [dj ND|reflexivity].
           ++ rewrite set_par_at, !set_edge_at, set_par_at. unfold h2. rewrite set_par_if_at, set_edge_at.
              rewrite Nat.eqb_refl. destruct (Nat.eqb_spec x y); [congruence|].
              destruct (Nat.eqb_spec x p); [congruence|]. rewrite Ex.
              destruct (peq_spec (root_of yr) (Some x)); [dj ND|reflexivity].
           ++ eapply rep_reparent; [exact Ryr| |].
              ** intros z. specialize (ND z). cbn in ND. lia.
              ** intros z Hz. rewrite At by (intros ->; dj ND).
                 destruct (Nat.eqb_spec z p); [unfold p in *; subst; dj ND|reflexivity].
           ++ eapply rep_frame; [|exact Rr]. intros z Hz. rewrite At by (intros ->; dj ND).
              destruct (Nat.eqb_spec z p); [unfold p in *; subst; dj ND|].
              destruct (peq_spec (root_of yr) (Some z)); [dj ND|reflexivity].
        -- eapply (repc_hole h _ (N (N yl y sy yr) x s r) (N yl y sy (N yr x s r))); [exact ND|exact Rc|].
           intros z Hz. rewrite At by (intros ->; dj ND). unfold p. cbn [root_of].
           destruct (Nat.eqb_spec z (fid f)); [reflexivity|].
           destruct (peq_spec (root_of yr) (Some z)); [dj ND|reflexivity].
      * intros z Hz. cbn in Hz.
        assert (z <> x) by (intros ->; rewrite eqn_refl in Hz; lia).
        assert (z <> y) by (intros ->; rewrite eqn_refl in Hz; lia).
        rewrite At by assumption.
        destruct (Nat.eqb_spec z p); [subst z; unfold p in Hz; rewrite eqn_refl in Hz; lia|].
        destruct (peq_spec (root_of yr) (Some z)) as [X|]; [apply root_cnt in X; lia|reflexivity].
  - (* the right child y goes up *)
    destruct Rr as (Eyy & Ryl & Ryr). cbn [root_of bind]. rewrite Eyy. cbn [e0].
    rewrite set_edge_at. destruct (Nat.eqb_spec y x) as [|_]; [congruence|]. rewrite Eyy. cbn [e0].
    set (h2 := set_par_if _ _ _).
    assert (Px : par (h2 x) = cpar c).
    { unfold h2. rewrite set_par_if_at, set_edge_at, Nat.eqb_refl, Ex.
      destruct (peq_spec (root_of yl) (Some x)); [dj ND|reflexivity]. }
    rewrite Px. rewrite set_par_at. destruct (Nat.eqb_spec x y) as [|_]; [congruence|]. rewrite Px.
    assert (NDt : nd (N (N l x s yl) y sy yr) c).
    { intros z. specialize (ND z). cbn in *. lia. }
    destruct c as [|f c].
    + cbn [cpar bind]. eexists. split; [reflexivity|]. split; [|split; [|exact NDt]].
      * split; [|exact I]. cbn [rep root_of cpar].
        assert (At : forall z, 1 <= cnt z yl \/ 1 <= cnt z yr \/ 1 <= cnt z l ->
          set_par (set_edge (set_par h2 y None) y false (Some x)) x (Some y) z =
          if peq (root_of yl) (Some z) then with_par (h z) (Some x) else h z).
        { intros z Hz. rewrite set_par_at, set_edge_at, set_par_at. unfold h2. rewrite set_par_if_at, set_edge_at.
          destruct (Nat.eqb_spec z x); [dj ND|]. destruct (Nat.eqb_spec z y); [dj ND|]. reflexivity. }
        split; [|split; [split; [|split]|]].
        -- rewrite set_par_at, set_edge_at, set_par_at. unfold h2. rewrite set_par_if_at, set_edge_at.
           destruct (Nat.eqb_spec y x); [congruence|]. rewrite Nat.eqb_refl, Eyy.
           destruct (peq_spec (root_of yl) (Some y)); [dj ND|reflexivity].
        -- rewrite set_par_at, set_edge_at, set_par_at. unfold h2. rewrite set_par_if_at, set_edge_at.
           rewrite Nat.eqb_refl. destruct (Nat.eqb_spec x y); [congruence|]. rewrite Ex.
           destruct (peq_spec (root_of yl) (Some x)); [dj ND|reflexivity].
        -- eapply rep_frame; [|exact Rl]. intros z Hz. rewrite At by auto.
           destruct (peq_spec (root_of yl) (Some z)); [dj ND|reflexivity].
        -- eapply rep_reparent; [exact Ryl| |].
           ++ intros z. specialize (ND z). cbn in ND. lia.
           ++ intros z Hz. apply At. auto.
        -- eapply rep_frame; [|exact Ryr]. intros z Hz. rewrite At by auto.
           destruct (peq_spec (root_of yl) (Some z)); [dj ND|reflexivity].
      * intros z Hz. cbn in Hz. rewrite set_par_at, set_edge_at, set_par_at. unfold h2. rewrite set_par_if_at, set_edge_at.
        destruct (Nat.eqb_spec z x); [subst; rewrite eqn_refl in Hz; lia|].
        destruct (Nat.eqb_spec z y); [subst; rewrite eqn_refl in Hz; lia|].
        destruct (peq_spec (root_of yl) (Some z)) as [X|]; [apply root_cnt in X; lia|reflexivity].
    + cbn [cpar]. set (p := fid f).
      assert (Ef : h p = mkNode (cpar c) (if fside f then root_of (fsib f) else Some x)
                  (if fside f then Some x else root_of (fsib f)) (fst_ f)).
      { destruct Rc as (H & _). exact H. }
      assert (px : p <> x). { unfold p; intros Q; rewrite <- Q in *; dj_at ND (fid f). }
      assert (py : p <> y). { unfold p; intros Q; rewrite <- Q in *; dj_at ND (fid f). }
      assert (H3f : set_par h2 y (Some p) p = h p).
      { rewrite set_par_at. unfold h2. rewrite set_par_if_at, set_edge_at.
        destruct (Nat.eqb_spec p y); [congruence|]. destruct (Nat.eqb_spec p x); [congruence|].
        destruct (peq_spec (root_of yl) (Some p)) as [X|]; [|reflexivity].
        apply root_cnt in X. unfold p in X. dj_at ND (fid f). }
      rewrite (idx_child _ p x (fside f)).
      2:{ rewrite H3f, Ef. destruct (fside f); reflexivity. }
      2:{ rewrite H3f, Ef. cbn. intros Q0 Q1. destruct (fside f); dj ND. }
      cbn [bind]. eexists. split; [reflexivity|].
      assert (At : forall z, z <> x -> z <> y ->
          set_par (set_edge (set_edge (set_par h2 y (Some p)) p (fside f) (Some y)) y false (Some x)) x (Some y) z =
          if z =? p then with_edge (h z) (fside f) (Some y)
          else if peq (root_of yl) (Some z) then with_par (h z) (Some x) else h z).
      { intros z zx zy. rewrite set_par_at, !set_edge_at, set_par_at. unfold h2. rewrite set_par_if_at, set_edge_at.
        destruct (Nat.eqb_spec z x); [congruence|]. destruct (Nat.eqb_spec z y); [congruence|].
        destruct (Nat.eqb_spec z p) as [->|]; [|reflexivity].
        destruct (peq_spec (root_of yl) (Some p)) as [X|]; [|reflexivity].
        apply root_cnt in X. unfold p in X. exfalso. dj_at ND (fid f). }
      split; [|split; [|exact NDt]].
      * split; [cbn [rep root_of cpar]|].
        -- split; [|split; [split; [|split]|]].
           ++ rewrite set_par_at, !set_edge_at, set_par_at. unfold h2. rewrite set_par_if_at, set_edge_at.
              destruct (Nat.eqb_spec y x); [congruence|]. rewrite Nat.eqb_refl.
              destruct (Nat.eqb_spec y p); [congruence|]. rewrite Eyy.
              destruct (peq_spec (root_of yl) (Some y)); [dj ND|reflexivity].
           ++ rewrite set_par_at, !set_edge_at, set_par_at. unfold h2. rewrite set_par_if_at, set_edge_at.
              rewrite Nat.eqb_refl. destruct (Nat.eqb_spec x y); [congruence|].
              destruct (Nat.eqb_spec x p); [congruence|]. rewrite Ex.
              destruct (peq_spec (root_of yl) (Some x)); [dj ND|reflexivity].
           ++ eapply rep_frame; [|exact Rl]. intros z Hz. rewrite At by (intros ->; dj ND).
              destruct (Nat.eqb_spec z p); [unfold p in *; subst; dj ND|].
              destruct (peq_spec (root_of yl) (Some z)); [dj ND|reflexivity].
           ++ eapply rep_reparent; [exact Ryl| |].
              ** intros z. specialize (ND z). cbn in ND. lia.
              ** intros z Hz. rewrite At by (intros ->; dj ND).
                 destruct (Nat.eqb_spec z p); [unfold p in *; subst; dj ND|reflexivity].
           ++ eapply rep_frame; [|exact Ryr]. intros z Hz. rewrite At by (intros ->; dj ND).
              destruct (Nat.eqb_spec z p); [unfold p in *; subst; dj ND|].
              destruct (peq_spec (root_of yl) (Some z)); [dj ND|reflexivity].
        -- eapply (repc_hole h _ (N l x s (N yl y sy yr)) (N (N l x s yl) y sy yr)); [exact ND|exact Rc|].
           intros z Hz. rewrite At by (intros ->; dj ND). unfold p. cbn [root_of].
           destruct (Nat.eqb_spec z (fid f)); [reflexivity|].
           destruct (peq_spec (root_of yl) (Some z)); [dj ND|reflexivity].
      * intros z Hz. cbn in Hz.
        assert (z <> x) by (intros ->; rewrite eqn_refl in Hz; lia).
        assert (z <> y) by (intros ->; rewrite eqn_refl in Hz; lia).
        rewrite At by assumption.
        destruct (Nat.eqb_spec z p); [subst z; unfold p in Hz; rewrite eqn_refl in Hz; lia|].
        destruct (peq_spec (root_of yl) (Some z)) as [X|]; [apply root_cnt in X; lia|reflexivity].
Qed.

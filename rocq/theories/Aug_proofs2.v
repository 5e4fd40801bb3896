(** Sums in the trees: removal, join, split. *)
From Coq Require Import List Bool Arith NArith ZArith Lia Permutation.
From Verif Require Import Dict_model Dict_spec Dict_proofs Dict_proofs2 Aug_model Aug_spec Aug_proofs.
Import ListNotations.

Section Member.
Variable M : nat -> BinNums.N.

Notation upd := (Aug_model.upd M).
Notation up := (Aug_model.up M).
Notation rec := (Aug_model.rec M).
Notation ok := (Aug_proofs.ok M).
Notation okc := (Aug_proofs.okc M).
Notation okch := (Aug_proofs.okch M).

(** What an operation that turns [x] in context [c] into [t] must do. *)
Definition good (S : sums) (x : tree) (c : list frame) (t : tree) (S' : sums) : Prop :=
  ok S' t /\ (forall k, cnt k (plug x c) = 0 -> S' k = S k) /\ (forall k, cnt k t = cnt k (plug x c)).

Definition next_ok (next : tree -> list frame -> sums -> option (tree * sums)) : Prop :=
  forall x c S t S', next x c S = Some (t, S') -> ok S x -> okc S c -> uniq (plug x c) -> good S x c t S'.

Lemma good_step S S1 x c x1 c1 t S' :
  good S1 x1 c1 t S' -> (forall k, cnt k (plug x1 c1) = cnt k (plug x c)) ->
  (forall k, cnt k (plug x c) = 0 -> S1 k = S k) -> good S x c t S'.
Proof.
  intros (A & B & C) D F. split; [exact A|]. split.
  - intros k Hk. rewrite B by (rewrite D; exact Hk). apply F. exact Hk.
  - intros k. rewrite C. apply D.
Qed.

(** The end of the loop: the node is in order, or its children are. *)
Lemma good_rec S x c : okch S x -> okc S c -> uniq (plug x c) -> good S x c (plug x c) (rec S x c).
Proof.
  intros Hx Hc U. split; [apply rec_ok; assumption|]. split; [|reflexivity].
  intros k Hk. apply rec_frame. rewrite cnt_plug in Hk. lia.
Qed.
Lemma good_up S x c : ok S x -> okc S c -> uniq (plug x c) -> good S x c (plug x c) (up S x c).
Proof.
  intros Hx Hc U. split; [apply up_ok; assumption|]. split; [|reflexivity].
  intros k Hk. apply up_frame. rewrite cnt_plug in Hk. lia.
Qed.

(** One step up with an update of the parent. *)
Lemma step_up S f f' x c next t S' :
  next_ok next -> fside f = fside f' -> fid f = fid f' ->
  (forall S, ok S (fsib f) -> ok S (fsib f')) -> (forall k, cnt k (fsib f') = cnt k (fsib f)) ->
  next (fill f' x) c (upd S (fill f' x)) = Some (t, S') ->
  ok S x -> okc S (f :: c) -> uniq (plug x (f :: c)) -> good S x (f :: c) t S'.
Proof.
  intros Hn E1 E2 E3 E4 H Hx Hc U. apply okc_cons in Hc as [Hf Hc].
  assert (forall k, cnt k (plug (fill f' x) c) = cnt k (plug x (f :: c))) as Ca.
  { intros k. cnts. rewrite E2, E4. lia. }
  eapply good_step; [apply (Hn _ _ _ _ _ H)| |].
  - apply upd_ok.
    + unfold fill. apply okch_mk. auto.
    + intros k. specialize (U k). rewrite <- Ca in U. rewrite cnt_plug in U. lia.
  - apply upd_okc; [|exact Hc]. intros k. specialize (U k). rewrite <- Ca in U. rewrite cnt_plug in U. lia.
  - intros k. rewrite Ca. apply U.
  - exact Ca.
  - intros k Hk. apply upd_out. rewrite <- Ca, cnt_plug in Hk. lia.
Qed.

Lemma balance_black_a_ok next i x f c t S S' :
  fside f = i -> next_ok next ->
  balance_black_a M next i x f c S = Some (t, S') ->
  ok S x -> okc S (f :: c) -> uniq (plug x (f :: c)) -> good S x (f :: c) t S'.
Proof.
  intros Hi Hn H Hx Hc U. unfold balance_black_a in H.
  destruct (fsib f) as [|wl wx ws wr] eqn:Ew.
  { eapply step_up; [exact Hn|reflexivity|reflexivity|auto|auto|exact H|exact Hx|exact Hc|exact U]. }
  apply check_inv in H as [_ H].
  destruct (negb _ && negb _).
  - apply bind_inv in H as (w' & Hw' & H). apply bind_inv in H as (p & Hp & H).
    apply check_inv in H as [_ H].
    eapply step_up with (f' := mkF i (fid f) p w');
      [exact Hn|exact Hi|reflexivity| | |exact H|exact Hx|exact Hc|exact U].
    + intros S0 H0. rewrite Ew in H0. apply (set_stat_ok M _ _ _ _ Hw'). exact H0.
    + intros k. cbn [fsib]. rewrite Ew. apply cnt_eq. apply (set_stat_inorder _ _ _ Hw').
  - apply bind_inv in H as ((w & S1) & Hw & H).
    apply okc_cons in Hc as [Hf Hc]. rewrite Ew in Hf.
    assert (forall k, cnt k x + one (fid f) k + cnt k (N wl wx ws wr) + cntc k c <= 1) as U'.
    { intros k. specialize (U k). rewrite cnt_plug in U. cbn [cntc] in U. rewrite Ew in U. lia. }
    assert (ok S1 w /\ (forall k, cnt k (N wl wx ws wr) = 0 -> S1 k = S k) /\
      (forall k, cnt k w = cnt k (N wl wx ws wr))) as (Hw1 & Hw2 & Hw3).
    { destruct (negb (red _)).
      - apply bind_inv in Hw as (r & Hr & Hw). apply bind_inv in Hw as (ws' & _ & Hw).
        apply bind_inv in Hw as ((top & S2) & Ht & Hw). apply check_inv in Hw as [_ Hw].
        injection Hw as <- <-.
        assert (forall k, cnt k (mk i r wx ws' (child (N wl wx ws wr) (negb i))) = cnt k (N wl wx ws wr)) as Cm.
        { intros k. rewrite cnt_mk, (cnt_eq k r (child (N wl wx ws wr) i) (set_stat_inorder _ _ _ Hr)).
          destruct i; cbn [child negb]; rewrite cnt_N; lia. }
        apply rotate_a_ok in Ht.
        + destruct Ht as (A & B & C). split; [exact A|]. split.
          * intros k Hk. apply B. rewrite Cm. exact Hk.
          * intros k. rewrite (cnt_eq _ _ _ C). apply Cm.
        + rewrite child_mk2. apply ok_ch in Hf. cbn [Aug_proofs.okch] in Hf. destruct i; cbn; tauto.
        + rewrite negb_involutive, child_mk1. apply (set_stat_here M _ _ _ S Hr).
          apply ok_ch in Hf. cbn [Aug_proofs.okch] in Hf. apply ok_ch. destruct i; cbn; tauto.
        + intros k. rewrite Cm. specialize (U' k). lia.
      - injection Hw as <- <-. auto. }
    destruct w as [|wl' wx' ws'' wr']; [discriminate|].
    apply bind_inv in H as ((ws3 & ps) & _ & H). apply bind_inv in H as (q & Hq & H).
    apply bind_inv in H as ((top & S2) & Ht & H). apply check_inv in H as [_ H]. injection H as <- <-.
    set (w := N wl' wx' ws'' wr') in *.
    assert (forall k, cnt k (mk i (child w i) wx' ws3 q) = cnt k w) as Cm.
    { intros k. rewrite cnt_mk, (cnt_eq k q (child w (negb i)) (set_stat_inorder _ _ _ Hq)).
      unfold w. destruct i; cbn [child negb]; rewrite cnt_N; lia. }
    assert (okch S1 (mk i (child w i) wx' ws3 q)) as Hm.
    { apply okch_mk. apply ok_ch in Hw1. rewrite (set_stat_ok M _ _ _ S1 Hq).
      unfold w in *. cbn [Aug_proofs.okch] in Hw1. destruct i; cbn; tauto. }
    assert (forall k, cnt k (mk i x (fid f) ps (mk i (child w i) wx' ws3 q)) =
      cnt k x + one (fid f) k + cnt k (N wl wx ws wr)) as Ct.
    { intros k. rewrite cnt_mk, Cm, Hw3. reflexivity. }
    apply rotate_a_ok in Ht.
    + destruct Ht as (A & B & C).
      assert (forall k, cnt k top = cnt k x + one (fid f) k + cnt k (N wl wx ws wr)) as Ctop.
      { intros k. rewrite (cnt_eq _ _ _ C). apply Ct. }
      eapply good_step; [apply good_rec| |].
      * apply ok_ch. exact A.
      * apply (okc_ext M S); [|exact Hc]. intros k Hk. specialize (U' k).
        rewrite B by (rewrite Ct; lia). apply Hw2. lia.
      * intros k. rewrite cnt_plug, Ctop. specialize (U' k). lia.
      * intros k. rewrite !cnt_plug, Ctop. cbn [cntc]. rewrite Ew. lia.
      * intros k Hk. rewrite cnt_plug in Hk. cbn [cntc] in Hk. rewrite Ew in Hk.
        rewrite B by (rewrite Ct; lia). apply Hw2. lia.
    + rewrite child_mk1. apply (ok_ext M S); [|exact Hx]. intros k Hk. apply Hw2. specialize (U' k). lia.
    + rewrite child_mk2. exact Hm.
    + intros k. rewrite Ct. specialize (U' k). lia.
Qed.

Lemma balance_remove_a_ok : forall fuel, next_ok (balance_remove_a M fuel).
Proof.
  induction fuel as [|fuel IH]; intros x c S t S' H Hx Hc U; cbn [balance_remove_a] in H; [discriminate|].
  destruct (red x).
  { apply bind_inv in H as (x' & Hx' & H). injection H as <- <-.
    assert (forall k, cnt k (plug x' c) = cnt k (plug x c)) as Ca.
    { intros k. rewrite !cnt_plug, (cnt_eq _ _ _ (set_stat_inorder _ _ _ Hx')). reflexivity. }
    rewrite (up_get M c S x x') by (intros; symmetry; apply (set_stat_get _ _ _ _ Hx')).
    eapply good_step; [apply good_up| |reflexivity].
    - apply (set_stat_ok M _ _ _ _ Hx'). exact Hx.
    - exact Hc.
    - intros k. rewrite Ca. apply U.
    - exact Ca. }
  destruct c as [|f c].
  { injection H as <- <-. cbn [plug] in *. split; [exact Hx|]. split; reflexivity. }
  apply check_inv in H as [_ H].
  destruct (red (fsib f)) eqn:Er.
  - apply bind_inv in H as (w & Hw & H). apply bind_inv in H as (p & Hp & H).
    destruct w as [|wl wx ws wr]; [discriminate|].
    set (w := N wl wx ws wr) in *.
    set (fp := mkF (fside f) (fid f) p (child w (fside f))) in *.
    set (fw := mkF (fside f) wx ws (child w (negb (fside f)))) in *.
    apply okc_cons in Hc as [Hf Hc].
    assert (okch S w) as Hw1. { apply (set_stat_here M _ _ _ S Hw). apply ok_ch. exact Hf. }
    assert (ok S (child w (fside f)) /\ ok S (child w (negb (fside f)))) as [Hwi Hwn].
    { unfold w in *. cbn [Aug_proofs.okch] in Hw1. destruct (fside f); cbn; tauto. }
    assert (forall k, cnt k (fsib f) = cnt k (child w (fside f)) + one wx k + cnt k (child w (negb (fside f)))) as Cw.
    { intros k. rewrite <- (cnt_eq k w (fsib f) (set_stat_inorder _ _ _ Hw)). unfold w.
      destruct (fside f); cbn [child negb]; rewrite cnt_N; lia. }
    assert (forall k, cnt k x + one (fid f) k + cnt k (child w (fside f)) + one wx k +
      cnt k (child w (negb (fside f))) + cntc k c <= 1) as U'.
    { intros k. specialize (U k). rewrite cnt_plug in U. cbn [cntc] in U. rewrite Cw in U. lia. }
    assert (forall k, cnt k (plug x (fp :: fw :: c)) = cnt k (plug x (f :: c))) as Ca.
    { intros k. rewrite !cnt_plug. unfold fp, fw. cbn [cntc fid fsib]. rewrite Cw. lia. }
    set (T := fun k => upd (upd S (fill fp x)) (fill fw (fill fp x)) k).
    assert (forall k, one (fid f) k + one wx k = 0 -> T k = S k) as Fr.
    { intros k Hk. unfold T. rewrite !upd_fill_frame; [reflexivity| |]; unfold fp, fw; cbn [fid]; lia. }
    assert (forall u, (forall k, one (fid f) k + one wx k + cnt k u <= 1) -> ok S u -> ok T u) as Oth.
    { intros u Hu. apply ok_ext. intros k Hk. apply Fr. specialize (Hu k). lia. }
    eapply good_step; [apply (balance_black_a_ok (balance_remove_a M fuel) (fside f) x fp (fw :: c) t T S')| |].
    + reflexivity.
    + exact IH.
    + exact H.
    + apply Oth; [|exact Hx]. intros k. specialize (U' k). lia.
    + apply okc_cons. split; [unfold fp; cbn [fsib]; apply Oth; [|exact Hwi]; intros k; specialize (U' k); lia|].
      apply okc_cons. split; [unfold fw; cbn [fsib]; apply Oth; [|exact Hwn]; intros k; specialize (U' k); lia|].
      apply (okc_ext M S); [|exact Hc]. intros k Hk. apply Fr. specialize (U' k). lia.
    + intros k. rewrite Ca. apply U.
    + exact Ca.
    + intros k Hk. apply Fr. rewrite cnt_plug in Hk. cbn [cntc] in Hk. rewrite Cw in Hk. lia.
  - eapply balance_black_a_ok; [reflexivity|exact IH|exact H|exact Hx|exact Hc|exact U].
Qed.

Lemma collapse_ok s e S : ok S e -> ok S (collapse s e).
Proof. destruct e; cbn; tauto. Qed.
Lemma collapse_cnt s e k : cnt k (collapse s e) = cnt k e.
Proof. destruct e; [reflexivity|]. cbn [collapse]. now rewrite !cnt_N. Qed.

Lemma remove_u_ok t c x c' b S : remove_u t c = Some (x, c', b) -> ok S (plug t c) ->
  ok S x /\ okc S c' /\
  exists l y s r, t = N l y s r /\ (forall k, cnt k (plug t c) = cnt k (plug x c') + one y k).
Proof.
  unfold remove_u. intros H Ho. apply ok_plug in Ho as [Ht Hc].
  destruct t as [|l y s r]; [discriminate|].
  destruct l as [|ll lx ls lr].
  { assert (ok S r) as Hr by (cbn in Ht; tauto).
    destruct c as [|f c]; injection H as <- <- <-.
    - split; [exact Hr|]. split; [constructor|]. exists E, y, s, r. split; [reflexivity|].
      intros k. cnts. lia.
    - split; [apply collapse_ok; exact Hr|]. split; [exact Hc|]. exists E, y, s, r. split; [reflexivity|].
      intros k. rewrite !cnt_plug, collapse_cnt. cnts. lia. }
  destruct r as [|rl rx rs rr].
  { assert (ok S (N ll lx ls lr)) as Hl by (cbn in Ht |- *; tauto).
    destruct c as [|f c]; injection H as <- <- <-.
    - split; [exact Hl|]. split; [constructor|]. exists (N ll lx ls lr), y, s, E. split; [reflexivity|].
      intros k. cnts. lia.
    - split; [apply (collapse_ok s (N ll lx ls lr)); exact Hl|]. split; [exact Hc|].
      exists (N ll lx ls lr), y, s, E. split; [reflexivity|].
      intros k. rewrite !cnt_plug. change (N ll lx (if Nat.odd s then st_set_red ls else ls) lr) with
        (collapse s (N ll lx ls lr)). rewrite collapse_cnt. cnts. lia. }
  destruct (start (N rl rx rs rr) [] false) as [[u dc]|] eqn:Es; [|discriminate].
  apply start_at in Es as [Es _]. cbn [fst snd plug] in Es.
  destruct u as [|[|? ? ? ?] d sd e]; try discriminate. injection H as <- <- <-.
  set (l := N ll lx ls lr) in *. set (r := N rl rx rs rr) in *.
  assert (ok S l /\ ok S r) as [Hl Hr] by (unfold l, r; cbn in Ht |- *; tauto).
  rewrite <- Es in Hr. apply ok_plug in Hr as [Hd Hdc].
  split; [apply collapse_ok; cbn in Hd; tauto|].
  split. { apply okc_app. split; [exact Hdc|]. apply okc_cons. auto. }
  exists l, y, s, r. split; [reflexivity|]. intros k.
  rewrite !cnt_plug, cnt_N, cntc_app, collapse_cnt. rewrite <- Es, cnt_plug, cnt_N, cnt_E.
  cbn [cntc fid fsib]. lia.
Qed.

Lemma remove_a_ok t c S t' S' : remove_a M (t, c) S = Some (t', S') ->
  ok S (plug t c) -> uniq (plug t c) ->
  ok S' t' /\ (forall k, cnt k (plug t c) = 0 -> S' k = S k) /\
  exists l y s r, t = N l y s r /\ (forall k, cnt k (plug t c) = cnt k t' + one y k).
Proof.
  intros H Ho U. unfold remove_a in H.
  apply bind_inv in H as (((x & c') & b) & Hu & H).
  destruct (remove_u_ok _ _ _ _ _ S Hu Ho) as (Hx & Hc & l & y & s & r & Ey & Cy).
  assert (uniq (plug x c')) as Ux. { intros k. specialize (U k). rewrite Cy in U. lia. }
  assert (forall t' S', good S x c' t' S' ->
    ok S' t' /\ (forall k, cnt k (plug t c) = 0 -> S' k = S k) /\
    exists l y s r, t = N l y s r /\ (forall k, cnt k (plug t c) = cnt k t' + one y k)) as Fin.
  { intros t0 S0 (A & B & C). split; [exact A|]. split.
    - intros k Hk. apply B. rewrite Cy in Hk. lia.
    - exists l, y, s, r. split; [exact Ey|]. intros k. rewrite Cy, C. reflexivity. }
  destruct c' as [|f c'].
  - apply check_inv in H as [_ H]. injection H as <- <-. apply Fin. cbn [plug] in *.
    split; [|split; [|reflexivity]].
    + apply upd_ok; [|exact Ux]. apply ok_ch. apply upd_ok; [apply ok_ch; exact Hx|exact Ux].
    + intros k Hk. rewrite !upd_out by (cbn [plug] in Hk; exact Hk). reflexivity.
  - apply bind_inv in H as ((r0 & S2) & Hr & H). apply check_inv in H as [_ H]. injection H as <- <-.
    apply Fin.
    assert (forall k, cnt k x + one (fid f) k + cnt k (fsib f) + cntc k c' <= 1) as U'.
    { intros k. specialize (Ux k). cnts. lia. }
    assert (ok (upd S (fill f x)) x) as Hx1.
    { apply (ok_ext M S); [|exact Hx]. intros k Hk. apply upd_fill_frame. specialize (U' k). lia. }
    assert (okc (upd S (fill f x)) (f :: c')) as Hc1.
    { apply okc_cons in Hc as [Hf Hc]. apply okc_cons. split.
      - apply (ok_ext M S); [|exact Hf]. intros k Hk. apply upd_fill_frame. specialize (U' k). lia.
      - apply (okc_ext M S); [|exact Hc]. intros k Hk. apply upd_fill_frame. specialize (U' k). lia. }
    assert (good (upd S (fill f x)) x (f :: c') r0 S2) as G.
    { destruct b.
      - injection Hr as <- <-. apply (good_up _ x (f :: c')); assumption.
      - eapply balance_remove_a_ok; eassumption. }
    eapply good_step; [exact G|reflexivity|].
    intros k Hk. apply upd_fill_frame. cnts. lia.
Qed.

End Member.

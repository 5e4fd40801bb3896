(** Sums in the trees: join, split, exchange of two nodes. *)
From Coq Require Import List Bool Arith NArith ZArith Lia Permutation.
From Verif Require Import Dict_model Dict_spec Dict_proofs Dict_proofs2 Aug_model Aug_spec
  Aug_proofs Aug_proofs2.
Import ListNotations.

Section Member.
Variable M : nat -> BinNums.N.

Notation upd := (Aug_model.upd M).
Notation up := (Aug_model.up M).
Notation rec := (Aug_model.rec M).
Notation ok := (Aug_proofs.ok M).
Notation okc := (Aug_proofs.okc M).
Notation okch := (Aug_proofs.okch M).
Notation good := (Aug_proofs2.good M).
Notation get := Aug_model.get.

Lemma if_needed_ok t t' S : inc_set_black_if_needed t = Some t' ->
  (ok S t' <-> ok S t) /\ (okch S t' <-> okch S t) /\ inorder t' = inorder t /\ get S t' = get S t.
Proof.
  unfold inc_set_black_if_needed. destruct (red t && _).
  - intros H. split; [apply (set_stat_ok M _ _ _ _ H)|]. split; [apply (set_stat_here M _ _ _ S H)|].
    split; [apply (set_stat_inorder _ _ _ H)|apply (set_stat_get _ _ _ _ H)].
  - intros H. injection H as <-. tauto.
Qed.

(** The end of the loop of the join, with the final change of the colour. *)
Lemma good_rec_stat S x x' c : okch S x -> okc S c -> uniq (plug x c) ->
  inc_set_black_if_needed x = Some x' -> good S x c (plug x' c) (rec S x c).
Proof.
  intros Hx Hc U H.
  assert (rec S x c = rec S x' c) as ->.
  { unfold Aug_model.rec. assert (upd S x = upd S x') as ->.
    { unfold inc_set_black_if_needed in H. destruct (red x && _); [|congruence].
      unfold inc_set_black in H. destruct x as [|l y s r]; cbn [set_stat] in H; [discriminate|].
      apply bind_inv in H as (s' & _ & H). injection H as <-. reflexivity. }
    apply up_get. intros S0. symmetry. apply (if_needed_ok _ _ S0 H). }
  destruct (if_needed_ok _ _ S H) as (_ & H2 & H3 & _).
  assert (forall k, cnt k (plug x' c) = cnt k (plug x c)) as Ca
    by (intros k; rewrite !cnt_plug, (cnt_eq _ _ _ H3); reflexivity).
  eapply good_step; [apply good_rec| |reflexivity].
  - tauto.
  - exact Hc.
  - intros k. rewrite Ca. apply U.
  - exact Ca.
Qed.

Lemma join_balance_a_ok i : forall n c x S t S', length c <= n ->
  Forall (fun f => fside f = negb i) c ->
  join_balance_a M i x c S = Some (t, S') ->
  ok S x -> okc S c -> uniq (plug x c) -> good S x c t S'.
Proof.
  induction n as [|n IH]; intros c x S t S' Hn Hs H Hx Hc U.
  { destruct c; [discriminate|cbn in Hn; lia]. }
  assert (forall f c2, c = f :: c2 -> forall t',
    inc_set_black_if_needed (fill f x) = Some t' -> good S x c (plug t' c2) (rec S (fill f x) c2)) as Fin.
  { intros f c2 -> t' Ht'. apply okc_cons in Hc as [Hf Hc].
    assert (good S (fill f x) c2 (plug t' c2) (rec S (fill f x) c2)) as G.
    { apply good_rec_stat; [unfold fill; apply okch_mk; auto|exact Hc|exact U|exact Ht']. }
    eapply good_step; [exact G|reflexivity|reflexivity]. }
  destruct c as [|p [|p2 c]]; cbn [join_balance_a] in H; [discriminate| |].
  { apply bind_inv in H as (t' & Ht & H). injection H as <- <-. apply (Fin p [] eq_refl t' Ht). }
  destruct (Nat.odd (fst_ p) && red x).
  2:{ apply bind_inv in H as (t' & Ht & H). injection H as <- <-. apply (Fin p (p2 :: c) eq_refl t' Ht). }
  clear Fin.
  apply check_inv in H as [_ H]. apply bind_inv in H as (x' & Hx' & H).
  apply bind_inv in H as ((top & S1) & Ht & H).
  apply okc_cons in Hc as [Hp Hc]. apply okc_cons in Hc as [Hp2 Hc].
  inversion Hs as [|? ? Hs1 Hs']; subst. inversion Hs' as [|? ? Hs2 Hs3]; subst. clear Hs'.
  assert (forall k, cnt k x + one (fid p) k + cnt k (fsib p) + one (fid p2) k + cnt k (fsib p2) + cntc k c <= 1) as U'.
  { intros k. specialize (U k). cnts. lia. }
  assert (forall k, cnt k x' = cnt k x) as Cx by (intros; apply cnt_eq, (set_stat_inorder _ _ _ Hx')).
  set (pt := fill (mkF (fside p) (fid p) (st_inc (fst_ p)) (fsib p)) x') in *.
  assert (forall k, cnt k pt = cnt k x + one (fid p) k + cnt k (fsib p)) as Cp.
  { intros k. unfold pt. rewrite cnt_fill. cbn [fid fsib]. rewrite Cx. reflexivity. }
  assert (forall u, (forall k, one (fid p) k + cnt k u <= 1) -> ok S u -> ok (upd S (fill p x)) u) as Oth.
  { intros u Hu. apply ok_ext. intros k Hk. apply upd_fill_frame. specialize (Hu k). lia. }
  apply rotate_a_ok in Ht.
  - destruct Ht as (A & B & C).
    assert (forall k, cnt k top = cnt k x + one (fid p) k + cnt k (fsib p) + one (fid p2) k + cnt k (fsib p2)) as Ctop.
    { intros k. rewrite (cnt_eq _ _ _ C), cnt_fill, Cp. lia. }
    assert (forall k, cnt k (plug top c) = cnt k (plug x (p :: p2 :: c))) as Ca.
    { intros k. rewrite !cnt_plug, Ctop. cbn [cntc]. lia. }
    assert (forall k, cnt k top = 0 -> S1 k = S k) as Fr.
    { intros k Hk. rewrite B by (rewrite <- (cnt_eq _ _ _ C); exact Hk). apply upd_fill_frame.
      rewrite Ctop in Hk. lia. }
    assert (okc S1 c) as Hc1.
    { apply (okc_ext M S); [|exact Hc]. intros k Hk. apply Fr. rewrite Ctop. specialize (U' k). lia. }
    assert (uniq (plug top c)) as Ut. { intros k. rewrite Ca. apply U. }
    assert (good S1 top c t S') as G.
    { destruct c as [|p3 c].
      - apply bind_inv in H as (t' & Ht' & H). injection H as <- <-.
        apply (good_rec_stat S1 top t' []); [apply ok_ch; exact A|exact Hc1|exact Ut|exact Ht'].
      - apply IH in H; [exact H|cbn in Hn |- *; lia|exact Hs3|exact A|exact Hc1|exact Ut]. }
    eapply good_step; [exact G|exact Ca|]. intros k Hk. apply Fr. rewrite <- Ca, cnt_plug in Hk. lia.
  - unfold fill at 2. rewrite Hs2, child_mk3. apply Oth; [|exact Hp2]. intros k. specialize (U' k). lia.
  - unfold fill at 2. rewrite Hs2, child_mk1. unfold pt, fill at 2. apply okch_mk. cbn [fside fid fst_ fsib].
    split.
    + apply (set_stat_ok M _ _ _ _ Hx'). apply Oth; [|exact Hx]. intros k. specialize (U' k). lia.
    + apply Oth; [|exact Hp]. intros k. specialize (U' k). lia.
  - intros k. rewrite cnt_fill, Cp. specialize (U' k). lia.
Qed.

Lemma join_find_plug i h : forall t c u p, join_find i h t c = (u, p) -> plug u p = plug t c.
Proof.
  induction t as [|l IHl x s r IHr]; intros c u p H; cbn [join_find] in H.
  { injection H as <- <-. reflexivity. }
  destruct (red _ || _); [|injection H as <- <-; reflexivity].
  destruct i; [apply IHl in H|apply IHr in H]; exact H.
Qed.
Lemma join_find_side i h : forall t c u p, join_find i h t c = (u, p) ->
  Forall (fun f => fside f = negb i) c -> Forall (fun f => fside f = negb i) p.
Proof.
  induction t as [|l IHl x s r IHr]; intros c u p H Hc; cbn [join_find] in H.
  { injection H as <- <-. exact Hc. }
  destruct (red _ || _); [|injection H as <- <-; exact Hc].
  destruct i; [apply IHl in H|apply IHr in H]; try exact H; constructor; auto.
Qed.

Lemma join3_a_ok l m r S t S' : join3_a M l m r S = Some (t, S') ->
  ok S l -> ok S r -> (forall k, cnt k l + one m k + cnt k r <= 1) ->
  ok S' t /\ (forall k, cnt k t = 0 -> S' k = S k) /\ (forall k, cnt k t = cnt k l + one m k + cnt k r).
Proof.
  unfold join3_a. intros H Hl Hr U.
  set (i := height2 l <? height2 r) in *.
  set (a := if i then r else l) in *. set (b := if i then l else r) in *.
  assert (ok S a /\ ok S b) as [Ha Hb] by (unfold a, b; destruct i; auto).
  assert (forall k, cnt k a + cnt k b = cnt k l + cnt k r) as Cab by (intros k; unfold a, b; destruct i; lia).
  apply bind_inv in H as (b' & Hb' & H).
  assert (ok S b' /\ forall k, cnt k b' = cnt k b) as [Hb1 Cb].
  { destruct (_ && red b).
    - split; [apply (set_stat_ok M _ _ _ _ Hb'); exact Hb|]. intros k. apply cnt_eq, (set_stat_inorder _ _ _ Hb').
    - injection Hb' as <-. auto. }
  destruct (height2 a =? height2 b').
  - apply bind_inv in H as (t' & Ht & H). apply check_inv in H as [_ H]. injection H as <- <-.
    destruct (if_needed_ok _ _ S Ht) as (_ & H2 & H3 & _).
    assert (forall k, cnt k t' = cnt k l + one m k + cnt k r) as Ct.
    { intros k. rewrite (cnt_eq _ _ _ H3), cnt_mk, Cb. specialize (Cab k). lia. }
    split; [|split; [|exact Ct]].
    + apply upd_ok; [|intros k; rewrite Ct; apply U]. apply H2. apply okch_mk. auto.
    + intros k Hk. apply upd_out. exact Hk.
  - apply check_inv in H as [_ H]. apply check_inv in H as [_ H].
    destruct (frame_of a (negb i)) as [f|] eqn:Ef; [|discriminate].
    destruct (join_find i (height2 b') (child a (negb i)) [f]) as [u path] eqn:Ej.
    apply check_inv in H as [_ H]. apply bind_inv in H as ((t' & S1) & Hj & H).
    apply check_inv in H as [_ H]. injection H as <- <-.
    pose proof (join_find_plug _ _ _ _ _ _ Ej) as Pl. pose proof (join_find_side _ _ _ _ _ _ Ej) as Sd.
    apply frame_of_plug with (c := []) in Ef as Ef'. destruct Ef' as [_ Ef'].
    cbn [plug] in Ef', Pl. rewrite Ef' in Pl.
    assert (fside f = negb i) as Fs.
    { destruct a; [discriminate|]. injection Ef as <-. reflexivity. }
    rewrite <- Pl in Ha. apply ok_plug in Ha as [Hu Hp].
    assert (forall k, cnt k u + cntc k path = cnt k a) as Ca.
    { intros k. rewrite <- cnt_plug, Pl. reflexivity. }
    set (mt := mk i u m (height2 u + 1) b') in *.
    assert (forall k, cnt k mt = cnt k u + one m k + cnt k b) as Cm.
    { intros k. unfold mt. rewrite cnt_mk, Cb. reflexivity. }
    assert (forall k, cnt k (plug mt path) = cnt k l + one m k + cnt k r) as Ct.
    { intros k. rewrite cnt_plug, Cm. specialize (Ca k). specialize (Cab k). lia. }
    assert (forall k, cnt k mt + cntc k path <= 1) as U'.
    { intros k. rewrite <- cnt_plug, Ct. apply U. }
    apply join_balance_a_ok with (n := length path) in Hj.
    + destruct Hj as (A & B & C). split; [exact A|]. split.
      * intros k Hk. rewrite C in Hk. rewrite B by exact Hk. apply upd_out. rewrite cnt_plug in Hk. lia.
      * intros k. rewrite C. apply Ct.
    + lia.
    + apply Sd. constructor; [exact Fs|constructor].
    + apply upd_ok; [|intros k; specialize (U' k); lia]. unfold mt. apply okch_mk. auto.
    + apply upd_okc; [|exact Hp]. exact U'.
    + intros k. rewrite Ct. apply U.
Qed.

Lemma extract_start_a_ok t i S m t' S' : extract_start_a M t i S = Some (m, t', S') -> ok S t -> uniq t ->
  match m with
  | None => t' = t /\ S' = S
  | Some y => ok S' t' /\ (forall k, cnt k t = 0 -> S' k = S k) /\ (forall k, cnt k t = cnt k t' + one y k)
  end.
Proof.
  unfold extract_start_a. intros H Ho U. destruct (start t [] i) as [[u c]|] eqn:Es.
  - apply bind_inv in H as ((r & S1) & Hr & H). injection H as <- <- <-.
    apply start_at in Es as [Es _]. cbn [fst snd plug] in Es. subst t.
    apply remove_a_ok in Hr as (A & B & l & y & s & r' & -> & D); [|exact Ho|exact U]. cbn [zid]. auto.
  - injection H as <- <- <-. auto.
Qed.

Lemma join2_a_ok l r S t S' : join2_a M l r S = Some (t, S') ->
  ok S l -> ok S r -> (forall k, cnt k l + cnt k r <= 1) ->
  ok S' t /\ (forall k, cnt k t = 0 -> S' k = S k) /\ (forall k, cnt k t = cnt k l + cnt k r).
Proof.
  unfold join2_a. intros H Hl Hr U.
  destruct l as [|ll lx ls lr].
  { injection H as <- <-. split; [exact Hr|]. split; [reflexivity|]. intros k. cnts. lia. }
  destruct r as [|rl rx rs rr].
  { injection H as <- <-. split; [exact Hl|]. split; [reflexivity|]. intros k. cnts. lia. }
  set (l := N ll lx ls lr) in *. set (r := N rl rx rs rr) in *.
  apply bind_inv in H as (((m & r') & S1) & Hx & H).
  apply extract_start_a_ok in Hx; [|exact Hr|intros k; specialize (U k); lia].
  destruct m as [m|]; [|discriminate]. destruct Hx as (A & B & C).
  apply join3_a_ok in H.
  - destruct H as (A' & B' & C'). split; [exact A'|]. split.
    + intros k Hk. rewrite B' by exact Hk. apply B. rewrite C' in Hk. rewrite C. lia.
    + intros k. rewrite C', C. lia.
  - apply (ok_ext M S); [|exact Hl]. intros k Hk. apply B. specialize (U k). lia.
  - exact A.
  - intros k. specialize (U k). rewrite C in U. lia.
Qed.

Lemma split_a_ok cmp back : forall n S l r S', split_a M cmp back n S = Some (l, r, S') ->
  ok S n -> uniq n ->
  ok S' l /\ ok S' r /\ (forall k, cnt k n = 0 -> S' k = S k) /\ (forall k, cnt k n = cnt k l + cnt k r).
Proof.
  induction n as [|nl IHl x s nr IHr]; intros S l r S' H Ho U; cbn [split_a] in H.
  { injection H as <- <- <-. cbn. auto. }
  cbn [Aug_proofs.ok] in Ho. destruct Ho as (_ & Hl & Hr).
  assert (forall k, cnt k nl + one x k + cnt k nr <= 1) as U' by (intros k; specialize (U k); cnts; lia).
  assert (forall u, (forall k, one x k + cnt k u <= 1) -> ok S u -> ok (put S x (M x)) u) as Oth.
  { intros u Hu. apply ok_ext. intros k Hk. apply put_diff. intros ->. specialize (Hu x).
    rewrite one_same in Hu. lia. }
  assert (forall k, one x k = 0 -> put S x (M x) k = S k) as Pd.
  { intros k Hk. apply put_diff. apply one_zero in Hk. congruence. }
  destruct (_ <=? _)%Z.
  - apply bind_inv in H as (((nm & r0) & S1) & Hs & H). apply bind_inv in H as ((l0 & S2) & Hj & H).
    injection H as <- <- <-.
    apply IHr in Hs as (A & B & C & D); [|apply Oth; [intros k; specialize (U' k); lia|exact Hr]
      |intros k; specialize (U' k); lia].
    apply join3_a_ok in Hj.
    + destruct Hj as (A' & B' & C'). split; [exact A'|]. split; [|split].
      * apply (ok_ext M S1); [|exact B]. intros k Hk. apply B'. rewrite C'. specialize (U' k).
        rewrite D in U'. lia.
      * intros k Hk. cnts. rewrite D in Hk. rewrite B' by (rewrite C'; lia). rewrite C by (rewrite D; lia).
        apply Pd. lia.
      * intros k. cnts. rewrite C', D. lia.
    + apply (ok_ext M S); [|exact Hl]. intros k Hk. specialize (U' k). rewrite C by lia. apply Pd. lia.
    + exact A.
    + intros k. specialize (U' k). rewrite D in U'. lia.
  - apply bind_inv in H as (((l0 & nm) & S1) & Hs & H). apply bind_inv in H as ((r0 & S2) & Hj & H).
    injection H as <- <- <-.
    apply IHl in Hs as (A & B & C & D); [|apply Oth; [intros k; specialize (U' k); lia|exact Hl]
      |intros k; specialize (U' k); lia].
    apply join3_a_ok in Hj.
    + destruct Hj as (A' & B' & C'). split; [|split; [exact A'|split]].
      * apply (ok_ext M S1); [|exact A]. intros k Hk. apply B'. rewrite C'. specialize (U' k).
        rewrite D in U'. lia.
      * intros k Hk. cnts. rewrite D in Hk. rewrite B' by (rewrite C'; lia). rewrite C by (rewrite D; lia).
        apply Pd. lia.
      * intros k. cnts. rewrite C', D. lia.
    + exact B.
    + apply (ok_ext M S); [|exact Hr]. intros k Hk. specialize (U' k). rewrite C by lia. apply Pd. lia.
    + intros k. specialize (U' k). rewrite D in U'. lia.
Qed.

End Member.

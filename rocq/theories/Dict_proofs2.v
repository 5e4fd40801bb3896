(** Removal, joining and splitting. *)
From Coq Require Import List Bool Arith ZArith Lia ZifyBool.
From Verif Require Import Dict_model Dict_spec Dict_proofs.
Import ListNotations.

(** * Removal: sequence *)

Lemma inorder_mk i a x s b : inorder (mk i a x s b) =
  if i then inorder b ++ x :: inorder a else inorder a ++ x :: inorder b.
Proof. destruct i; reflexivity. Qed.

Lemma fill_mk f t : fill f t = mk (fside f) t (fid f) (fst_ f) (fsib f).
Proof. reflexivity. Qed.

Lemma child_mk_inorder i l x s r s' a b :
  inorder a = inorder (child (N l x s r) i) -> inorder b = inorder (child (N l x s r) (negb i)) ->
  inorder (mk i a x s' b) = inorder (N l x s r).
Proof. intros Ha Hb. rewrite inorder_mk, Ha, Hb. destruct i; reflexivity. Qed.

Lemma balance_black_inorder next i x f c t :
  fside f = i ->
  (forall x c t, next x c = Some t -> inorder t = inorder (plug x c)) ->
  balance_black next i x f c = Some t -> inorder t = inorder (plug x (f :: c)).
Proof.
  intros Hi Hn H. unfold balance_black in H.
  destruct (fsib f) as [|wl wx ws wr] eqn:Ew; [apply Hn in H; exact H|].
  apply check_inv in H as [_ H].
  destruct (negb _ && negb _).
  - apply bind_inv in H as (w' & Hw' & H). apply bind_inv in H as (p & Hp & H).
    apply check_inv in H as [_ H]. apply Hn in H. rewrite H. cbn [plug].
    apply inorder_plug_eq. rewrite !fill_mk, !inorder_mk. cbn [fside fid fst_ fsib].
    rewrite (set_stat_inorder _ _ _ Hw'), Ew, Hi. reflexivity.
  - apply bind_inv in H as (w & Hw & H).
    assert (inorder w = inorder (N wl wx ws wr)) as Iw.
    { destruct (negb (red _)).
      - apply bind_inv in Hw as (r & Hr & Hw). apply bind_inv in Hw as (ws' & _ & Hw).
        apply bind_inv in Hw as (top & Ht & Hw). apply check_inv in Hw as [_ Hw].
        injection Hw as <-. rewrite (rotate_inorder _ _ _ Ht).
        apply child_mk_inorder; [|reflexivity]. apply (set_stat_inorder _ _ _ Hr).
      - injection Hw as <-. reflexivity. }
    destruct w as [|wl' wx' ws'' wr']; [discriminate|].
    apply bind_inv in H as ((ws3 & ps) & _ & H). apply bind_inv in H as (q & Hq & H).
    apply bind_inv in H as (top & Ht & H). apply check_inv in H as [_ H]. injection H as <-.
    cbn [plug]. apply inorder_plug_eq. rewrite (rotate_inorder _ _ _ Ht).
    rewrite fill_mk, Hi, !(inorder_mk i x).
    rewrite (child_mk_inorder i wl' wx' ws'' wr' ws3 (child (N wl' wx' ws'' wr') i) q eq_refl
      (set_stat_inorder _ _ _ Hq)).
    rewrite Iw, Ew. reflexivity.
Qed.

Lemma balance_remove_inorder : forall fuel x c t, balance_remove fuel x c = Some t ->
  inorder t = inorder (plug x c).
Proof.
  induction fuel as [|fuel IH]; intros x c t H; cbn [balance_remove] in H; [discriminate|].
  destruct (red x).
  { apply bind_inv in H as (x' & Hx & H). injection H as <-.
    apply inorder_plug_eq. apply (set_stat_inorder _ _ _ Hx). }
  destruct c as [|f c]; [injection H as <-; reflexivity|].
  apply check_inv in H as [_ H].
  destruct (red (fsib f)) eqn:Er.
  - apply bind_inv in H as (w & Hw & H). apply bind_inv in H as (p & Hp & H).
    destruct w as [|wl wx ws wr] eqn:Ew; [discriminate|]. rewrite <- Ew in *.
    apply balance_black_inorder in H; [|reflexivity|exact IH]. rewrite H. cbn [plug].
    apply inorder_plug_eq. rewrite !fill_mk, !inorder_mk. cbn [fside fid fst_ fsib].
    pose proof (set_stat_inorder _ _ _ Hw) as Iw. rewrite <- Iw. rewrite Ew.
    destruct (fside f); cbn [child negb inorder]; rewrite <- !app_assoc; reflexivity.
  - apply balance_black_inorder in H; [|reflexivity|exact IH]. exact H.
Qed.

(** * Removal: balance *)

(** A red node whose children may be red. *)
Definition rr (h : nat) (t : tree) : Prop :=
  exists c1 c2 l x r, t = N l x (2 * h + 1) r /\ rb c1 h l /\ rb c2 h r.

Lemma rr_rb h t : rb true h t -> rr h t.
Proof. intros H. apply rb_true_inv in H as (l & y & r & -> & Hl & Hr). exists false, false; eauto 8. Qed.

Lemma balance_remove_red fuel x c h b : rr h x -> cx b (S h) c ->
  exists t, balance_remove (S fuel) x c = Some t /\ balanced t.
Proof.
  intros (c1 & c2 & l & y & r & -> & Hl & Hr) Hc. cbn [balance_remove red]. rewrite odd1.
  unfold inc_set_black; cbn [set_stat]. rewrite st_ib. cbn [bind].
  eexists. split; [reflexivity|]. eapply (plug_rb _ _ _ _ false); [exact Hc| |discriminate].
  econstructor; eauto.
Qed.

Lemma good_rr h c1 c2 l x r : rb c1 h l -> rb c2 h r -> good_tree (N l x (2 * h + 1) r) false = true.
Proof.
  intros Hl Hr. cbn [good_tree red height2]. rewrite odd1, div1.
  rewrite (height2_rb _ _ _ Hl), (height2_rb _ _ _ Hr), Nat.eqb_refl. reflexivity.
Qed.

Ltac fin_good :=
  match goal with |- exists t, check (good_tree ?T true) _ = _ /\ _ =>
    let h' := fresh "h'" in let R := fresh "R" in
    first [ assert (exists h', rb true h' T) as [h' R] by (eexists; eapply rb_R; eapply rb_B; eauto)
          | assert (exists h', rb false h' T) as [h' R] by (eexists; eapply rb_B; eapply rb_B; eauto) ];
    rewrite (good_rb _ _ _ true R); cbn [check]; clear R h'
  end.

(** The black-sibling step: x lacks one black node.  [next] is used only for
    the whole subtree at p, which then lacks one black node (or is red). *)
Lemma balance_black_ok next i x y ps w c h b :
  rb false h x -> rb false (S h) w -> cx b (S h) (mkF i y ps w :: c) ->
  (* recursion: p was black, now black with height S h *)
  (forall t b', rb false (S h) t -> cx b' (S (S h)) c ->
     exists t', next t c = Some t' /\ balanced t') ->
  (* recursion: p was red, now red with height h *)
  (forall t, rr h t -> cx true (S h) c ->
     exists t', next t c = Some t' /\ balanced t') ->
  exists t, balance_black next i x (mkF i y ps w) c = Some t /\ balanced t.
Proof.
  intros Hx Hw Hc Hblack Hred. unfold balance_black. cbn [fsib fst_ fid].
  apply rb_S_inv in Hw as (c1 & c2 & wl & wx & wr & -> & Hwl & Hwr).
  cbn [red]. rewrite odd2. cbn [negb check].
  unfold dec_set_red at 1. cbn [set_stat]. rewrite st_dr. cbn [bind]. unfold fill.
  cbn [fside fid fst_ fsib].
  apply cx_cons_inv in Hc as [(i' & x' & w' & Ef & -> & _ & Hc)
    |(i' & x' & c' & b' & w' & Ef & -> & _ & Hc)];
    pose proof (f_equal fst_ Ef) as Ep; cbn [fst_] in Ep; subst ps; clear Ef.
  - (* p red *)
    rewrite odd1, st_d1. cbn [bind]. rewrite st_sb.
    assert (forall c1 c2 l x r, rb c1 h l -> rb c2 h r ->
      exists t', check (good_tree (N l x (2 * h + 1) r) false) (next (N l x (2 * h + 1) r) c) = Some t' /\ balanced t') as Rec.
    { intros d1 d2 l0 x0 r0 H1 H2. rewrite (good_rr h d1 d2) by auto. cbn [check].
      apply Hred; [|exact Hc]. exists d1, d2. eauto 8. }
    assert (forall l1 l2 r1 r2 y1 y2 y3 a b d e, rb a h l1 -> rb b h l2 -> rb d h r1 -> rb e h r2 ->
      balanced (plug (N (N l1 y1 (2 * h + 2) l2) y2 (2 * S h + 1) (N r1 y3 (2 * h + 2) r2)) c)) as Fin.
    { intros. eapply plug_rb; [exact Hc| |reflexivity]. constructor; eapply rb_B; eauto. }
    destruct i; cbn [child negb mk]; rewrite (red_rb _ _ _ Hwl), (red_rb _ _ _ Hwr).
    + destruct c1; [|destruct c2]; cbn [negb andb].
      * cbn [bind]. rewrite st_sr. cbn [bind].
        apply rb_true_inv in Hwl as (q1 & qx & q2 & -> & Hq1 & Hq2).
        unfold inc_set_black. cbn [set_stat child negb]. rewrite st_ib. cbn [bind rotate mk].
        fin_good. eexists. split; [reflexivity|]. eapply Fin; eauto.
      * apply rb_true_inv in Hwr as (q1 & qx & q2 & -> & Hq1 & Hq2).
        unfold inc_set_black. cbn [set_stat child negb]. rewrite st_ib. cbn [bind rotate mk child].
        rewrite (good_rb true h) by (constructor; auto). cbn [check bind].
        rewrite st_sr. cbn [bind child negb set_stat]. rewrite st_ib. cbn [bind rotate mk].
        fin_good. eexists. split; [reflexivity|]. eapply Fin; eauto.
      * eapply Rec; eauto. constructor; auto.
    + destruct c2; [|destruct c1]; cbn [negb andb].
      * cbn [bind]. rewrite st_sr. cbn [bind].
        apply rb_true_inv in Hwr as (q1 & qx & q2 & -> & Hq1 & Hq2).
        unfold inc_set_black. cbn [set_stat child negb]. rewrite st_ib. cbn [bind rotate mk].
        fin_good. eexists. split; [reflexivity|]. eapply Fin; eauto.
      * apply rb_true_inv in Hwl as (q1 & qx & q2 & -> & Hq1 & Hq2).
        unfold inc_set_black. cbn [set_stat child negb]. rewrite st_ib. cbn [bind rotate mk child].
        rewrite (good_rb true h) by (constructor; auto). cbn [check bind].
        rewrite st_sr. cbn [bind child negb set_stat]. rewrite st_ib. cbn [bind rotate mk].
        fin_good. eexists. split; [reflexivity|]. eapply Fin; eauto.
      * eapply Rec; eauto. constructor; auto.
  - (* p black *)
    rewrite odd2, st_d2. cbn [bind].
    assert (forall c1 c2 l x r, rb c1 h l -> rb c2 h r ->
      exists t', check (good_tree (N l x (2 * h + 2) r) false) (next (N l x (2 * h + 2) r) c) = Some t' /\ balanced t') as Rec.
    { intros d1 d2 l0 x0 r0 H1 H2. rewrite (good_rb false (S h)) by (eapply rb_B; eauto). cbn [check].
      eapply Hblack; [|exact Hc]. eapply rb_B; eauto. }
    assert (st_inc (2 * h + 2) = 2 * S h + 2) as Ei by (unfold st_inc; lia).
    assert (forall l1 l2 r1 r2 y1 y2 y3 a b d e, rb a h l1 -> rb b h l2 -> rb d h r1 -> rb e h r2 ->
      balanced (plug (N (N l1 y1 (2 * h + 2) l2) y2 (2 * S h + 2) (N r1 y3 (2 * h + 2) r2)) c)) as Fin.
    { intros. eapply (plug_rb _ _ _ _ false); [exact Hc| |discriminate]. eapply rb_B; eapply rb_B; eauto. }
    destruct i; cbn [child negb mk]; rewrite (red_rb _ _ _ Hwl), (red_rb _ _ _ Hwr).
    + destruct c1; [|destruct c2]; cbn [negb andb].
      * cbn [bind]. rewrite Ei. cbn [bind].
        apply rb_true_inv in Hwl as (q1 & qx & q2 & -> & Hq1 & Hq2).
        unfold inc_set_black. cbn [set_stat child negb]. rewrite st_ib. cbn [bind rotate mk].
        fin_good. eexists. split; [reflexivity|]. eapply Fin; eauto.
      * apply rb_true_inv in Hwr as (q1 & qx & q2 & -> & Hq1 & Hq2).
        unfold inc_set_black. cbn [set_stat child negb]. rewrite st_ib. cbn [bind rotate mk child].
        rewrite (good_rb true h) by (constructor; auto). cbn [check bind].
        rewrite Ei. cbn [bind child negb set_stat]. rewrite st_ib. cbn [bind rotate mk].
        fin_good. eexists. split; [reflexivity|]. eapply Fin; eauto.
      * eapply Rec; eauto. constructor; auto.
    + destruct c2; [|destruct c1]; cbn [negb andb].
      * cbn [bind]. rewrite Ei. cbn [bind].
        apply rb_true_inv in Hwr as (q1 & qx & q2 & -> & Hq1 & Hq2).
        unfold inc_set_black. cbn [set_stat child negb]. rewrite st_ib. cbn [bind rotate mk].
        fin_good. eexists. split; [reflexivity|]. eapply Fin; eauto.
      * apply rb_true_inv in Hwl as (q1 & qx & q2 & -> & Hq1 & Hq2).
        unfold inc_set_black. cbn [set_stat child negb]. rewrite st_ib. cbn [bind rotate mk child].
        rewrite (good_rb true h) by (constructor; auto). cbn [check bind].
        rewrite Ei. cbn [bind child negb set_stat]. rewrite st_ib. cbn [bind rotate mk].
        fin_good. eexists. split; [reflexivity|]. eapply Fin; eauto.
      * eapply Rec; eauto. constructor; auto.
Qed.

Lemma balance_remove_black : forall fuel x c h b, length c + 2 <= fuel ->
  rb false h x -> cx b (S h) c ->
  exists t, balance_remove fuel x c = Some t /\ balanced t.
Proof.
  induction fuel as [|fuel IH]; intros x c h b Hf Hx Hc; [lia|].
  cbn [balance_remove]. rewrite (red_rb _ _ _ Hx).
  destruct c as [|f c]; [exists x; split; [reflexivity|now exists false, h]|].
  cbn [length] in Hf.
  pose proof Hc as Hc0.
  apply cx_cons_inv in Hc as [(i & y & w & -> & -> & Hw & Hc)|(i & y & c1 & b' & w & -> & -> & Hw & Hc)];
    cbn [fside fid fst_ fsib]; rewrite (good_rb _ _ _ true Hx), (good_rb _ _ _ true Hw), (red_rb _ _ _ Hw);
    cbn [andb check].
  - eapply balance_black_ok; eauto.
    + intros t b2 Ht Hc2. eapply IH; [lia|exact Ht|exact Hc2].
    + intros t Ht Hc2. destruct fuel; [lia|]. eapply balance_remove_red; eauto.
  - destruct c1.
    + apply rb_true_inv in Hw as (wl & wx & wr & -> & Hwl & Hwr).
      unfold inc_set_black; cbn [set_stat]. rewrite st_ib. cbn [bind]. rewrite st_dr. cbn [bind].
      assert (rb false (S h) (child (N wl wx (2 * S h + 2) wr) i) /\
              rb false (S h) (child (N wl wx (2 * S h + 2) wr) (negb i))) as [H1 H2]
        by (cbn [child]; destruct i; auto).
      eapply balance_black_ok; [exact Hx|exact H1| | |].
      * apply (cx_R (S h)); [exact H1|]. eapply cx_B; [exact H2|exact Hc].
      * intros t b2 Ht Hc2. exfalso.
        apply cx_cons_inv in Hc2 as [(? & ? & ? & Ef & _)|(? & ? & ? & ? & ? & Ef & _)];
          pose proof (f_equal fst_ Ef) as Ep; cbn [fst_] in Ep; lia.
      * intros t Ht Hc2. destruct fuel; [lia|]. eapply balance_remove_red; eauto.
    + eapply balance_black_ok; eauto.
      * intros t b2 Ht Hc2. eapply IH; [lia|exact Ht|exact Hc2].
      * intros t Ht Hc2. destruct fuel; [lia|]. eapply balance_remove_red; eauto.
Qed.

Lemma balance_remove_ok fuel x c col h b : length c + 2 <= fuel ->
  rb col h x -> cx b (S h) c ->
  exists t, balance_remove fuel x c = Some t /\ balanced t.
Proof.
  intros Hf Hx Hc. destruct col.
  - destruct fuel; [lia|]. eapply balance_remove_red; eauto. apply rr_rb. exact Hx.
  - eapply balance_remove_black; eauto.
Qed.

(** * Removal of a node at a position *)

Lemma cx_id : forall a i x y s w c b h,
  cx b h (a ++ mkF i x s w :: c) -> cx b h (a ++ mkF i y s w :: c).
Proof.
  induction a as [|f a IH]; intros i x y s w c b h H; cbn [app] in *.
  - apply cx_cons_inv in H as [(i' & x' & w' & Ef & -> & Hw & Hc)|(i' & x' & c1 & b' & w' & Ef & -> & Hw & Hc)];
      pose proof (f_equal fst_ Ef) as Ep; pose proof (f_equal fsib Ef) as Es; cbn [fst_ fsib] in *; subst s w'.
    + constructor; auto.
    + econstructor; eauto.
  - apply cx_cons_inv in H as [(i' & x' & w' & -> & -> & Hw & Hc)|(i' & x' & c1 & b' & w' & -> & -> & Hw & Hc)].
    + constructor; eauto.
    + econstructor; eauto.
Qed.

Lemma collapse_leaf s c e : rb c 0 e -> collapse s e = e.
Proof.
  destruct c; intros H.
  - apply rb_true_inv in H as (l & x & r & -> & Hl & Hr). cbn [collapse].
    unfold st_set_red. cbn [Nat.mul Nat.add]. destruct (Nat.odd s); reflexivity.
  - apply rb_0_inv in H as ->. reflexivity.
Qed.

(** What is needed after unlinking: [x] takes the place of a node of colour
    [isred] above it. *)
Lemma remove_rest_ok x (c' : list frame) (isred : bool) (h : nat) b : c' <> [] -> h = 0 ->
  (if isred then cx b 0 c' /\ x = E else (exists col, rb col 0 x) /\ cx b 1 c') ->
  exists t', remove_rest x c' isred = Some t' /\ balanced t' /\
    inorder t' = before c' ++ inorder x ++ after c'.
Proof.
  intros Hne -> H. destruct c' as [|f c']; [contradiction|]. unfold remove_rest.
  destruct isred.
  - destruct H as [Hc ->]. cbn [bind].
    assert (balanced (plug E (f :: c'))) as (co & h & R).
    { eapply plug_rb; [exact Hc|constructor|discriminate]. }
    rewrite (very_good_rb _ _ _ R). cbn [check]. eexists. split; [reflexivity|].
    split; [exists co, h; exact R|]. apply inorder_plug.
  - destruct H as [(col & Hx) Hc].
    destruct (balance_remove_ok (2 * length (f :: c') + 2) x (f :: c') col 0 b) as (t & Et & (co & h & Ht)); [lia|auto|auto|].
    rewrite Et. cbn [bind]. rewrite (very_good_rb _ _ _ Ht). cbn [check].
    exists t. split; [reflexivity|]. split; [exists co, h; exact Ht|].
    rewrite (balance_remove_inorder _ _ _ _ Et). apply inorder_plug.
Qed.

Lemma remove_one l x s r c t : balanced t -> plug (N l x s r) c = t -> l = E \/ r = E ->
  let b := match l with E => r | _ => l end in
  exists t',
    bind (match c with [] => Some (b, [], Nat.odd s) | _ :: _ => Some (collapse s b, c, Nat.odd s) end)
      (fun '(x, c', isred) => remove_rest x c' isred) = Some t' /\
    balanced t' /\ inorder t' = before c ++ inorder b ++ after c.
Proof.
  intros Hb Hp Hlr b.
  rewrite <- Hp in Hb. apply plug_cx in Hb as (col & h & b0 & Ht & Hc & Hbc).
  assert (exists cb, rb cb 0 b /\
    (col = true /\ h = 0 /\ s = 1 /\ b = E \/ col = false /\ h = 1 /\ s = 2)) as (cb & Hrb & Hcase).
  { inversion Ht; subst.
    - assert (h = 0) as -> by (destruct Hlr as [-> | ->];
        match goal with H : rb _ _ E |- _ => apply rb_E_inv in H as [_ ->] end; reflexivity).
      repeat match goal with H : rb false 0 _ |- _ => apply rb_0_inv in H end. subst.
      exists false. split; [constructor|]. left. auto.
    - assert (h0 = 0) as -> by (destruct Hlr as [-> | ->];
        match goal with H : rb _ _ E |- _ => apply rb_E_inv in H as [_ ->] end; reflexivity).
      unfold b. destruct l; [exists c2|exists c1]; auto. }
  clearbody b. destruct c as [|f c].
  - cbn [bind remove_rest]. rewrite (very_good_rb _ _ _ Hrb). cbn [check]. exists b. split; [reflexivity|].
    split; [exists cb, 0; exact Hrb|]. cbn [before after]. now rewrite app_nil_r.
  - rewrite (collapse_leaf _ _ _ Hrb). cbn [bind].
    destruct Hcase as [(-> & -> & -> & ->)|(-> & -> & ->)]; cbn [Nat.odd Nat.even negb].
    + apply (remove_rest_ok E (f :: c) true 0 b0); [discriminate|reflexivity|]. auto.
    + apply (remove_rest_ok b (f :: c) false 0 b0); [discriminate|reflexivity|]. eauto.
Qed.

Lemma remove_ok t z x : balanced t -> at_node t z x ->
  exists t', remove z = Some t' /\ balanced t' /\ inorder t' = lt_nodes z ++ gt_nodes z.
Proof.
  intros Hb Hz. destruct z as [n c]. destruct Hz as [Hp (l & s & r & Hn)]. cbn [fst snd] in *. subst n.
  unfold remove, lt_nodes, gt_nodes. cbn [fst snd child].
  destruct l as [|ll lx ls lr]; [|destruct r as [|rl rx rs rr_]].
  - destruct (remove_one E x s r c t Hb Hp (or_introl eq_refl)) as (t' & E1 & E2 & E3).
    exists t'. split; [destruct r; exact E1|]. split; [exact E2|]. rewrite E3. cbn [inorder app].
    now rewrite app_nil_r.
  - destruct (remove_one (N ll lx ls lr) x s E c t Hb Hp (or_intror eq_refl)) as (t' & E1 & E2 & E3).
    exists t'. split; [exact E1|]. split; [exact E2|]. rewrite E3. cbn [inorder app].
    apply app_assoc.
  - set (l := N ll lx ls lr) in *. set (r := N rl rx rs rr_) in *.
    assert (exists d sd e dc, start r [] false = Some (N E d sd e, dc) /\
      plug (N E d sd e) dc = r /\ before dc = []) as (d & sd & e & dc & Es & Ed & Eb).
    { destruct (start_spec r [] false ltac:(unfold r; discriminate))
        as (t' & c' & E1 & E2 & E3 & E4 & c2 & E5 & E6 & E7).
      rewrite app_nil_r in E5. subst c'. destruct t' as [|tl d sd e]; [contradiction|].
      cbn [child] in E4. subst tl. exists d, sd, e, c2. split; [exact E1|]. split; [exact E2|].
      apply before_side. exact E6. }
    assert (remove_u (N l x s r) c = Some (collapse s e, dc ++ mkF true d s l :: c, Nat.odd sd)) as Er.
    { unfold remove_u, l, r. unfold r in Es. rewrite Es. reflexivity. }
    rewrite Er. cbn [bind].
    assert (plug (N E d sd e) (dc ++ mkF true x s l :: c) = t) as Hp'.
    { rewrite <- Hp. clear - Ed. revert Ed. generalize (N E d sd e) as u.
      induction dc as [|f dc IH]; intros u Ed; cbn [plug app] in *.
      - rewrite Ed. reflexivity.
      - apply IH. exact Ed. }
    rewrite <- Hp' in Hb. apply plug_cx in Hb as (col & h & b0 & Ht & Hc & Hbc).
    apply (cx_id dc true x d) in Hc.
    assert (exists ce, rb ce 0 e /\
      (sd = 1 /\ h = 0 /\ e = E \/ sd = 2 /\ h = 1)) as (ce & Hrb & Hcase).
    { inversion Ht; subst.
      - match goal with H : rb _ _ E |- _ => apply rb_E_inv in H as [_ ->] end.
        match goal with H : rb false 0 _ |- _ => apply rb_0_inv in H end. subst.
        exists false. split; [constructor|]. left. auto.
      - match goal with H : rb _ _ E |- _ => apply rb_E_inv in H as [_ ->] end.
        exists c2. auto. }
    rewrite (collapse_leaf _ _ _ Hrb).
    assert (dc ++ mkF true d s l :: c <> []) as Hne by (destruct dc; discriminate).
    assert (inorder r = d :: inorder e ++ after dc) as Ir.
    { rewrite <- Ed, inorder_plug, Eb. reflexivity. }
    assert (before (dc ++ mkF true d s l :: c) ++ inorder e ++ after (dc ++ mkF true d s l :: c) =
      (before c ++ inorder l) ++ inorder r ++ after c) as Io.
    { rewrite before_app, after_app, Eb. cbn [before after fside fid fsib app].
      rewrite Ir, app_nil_r. rewrite <- !app_assoc. cbn [app]. rewrite <- !app_assoc. reflexivity. }
    destruct Hcase as [(-> & -> & ->)|(-> & ->)]; cbn [Nat.odd Nat.even negb].
    + destruct (remove_rest_ok E (dc ++ mkF true d s l :: c) true 0 b0 Hne eq_refl (conj Hc eq_refl)) as (t' & E1 & E2 & E3).
      exists t'. split; [exact E1|]. split; [exact E2|]. rewrite E3. exact Io.
    + destruct (remove_rest_ok e (dc ++ mkF true d s l :: c) false 0 b0 Hne eq_refl (conj (ex_intro _ ce Hrb) Hc)) as (t' & E1 & E2 & E3).
      exists t'. split; [exact E1|]. split; [exact E2|]. rewrite E3. exact Io.
Qed.

Lemma extract_start_ok t i : balanced t -> t <> E ->
  exists x t' rest, extract_start t i = Some (Some x, t') /\ balanced t' /\ inorder t' = rest /\
    inorder t = if i then rest ++ [x] else x :: rest.
Proof.
  intros Hb Hne. destruct (start t [] i) as [z|] eqn:Es.
  2:{ destruct (start_spec t [] i Hne) as (? & ? & E1 & _). congruence. }
  pose proof (start_at _ _ _ _ Es) as (H1 & (l' & x & s' & r' & H2) & H3 & H4).
  assert (at_node t z x) as A by (split; eauto).
  destruct (remove_ok t z x Hb A) as (t' & E1 & E2 & E3).
  exists x, t', (inorder t'). unfold extract_start. rewrite Es, E1. cbn [bind].
  split; [destruct z as [n c]; cbn [fst] in H2; subst n; reflexivity|].
  split; [exact E2|]. split; [reflexivity|]. rewrite (zip_split _ _ _ A), E3.
  destruct i; cbn [before after] in H4; rewrite H4; [now rewrite app_nil_r|reflexivity].
Qed.

(** * Joining *)

Lemma join_find_ok : forall t i hr c col ht b, rb col ht t -> cx b ht c -> (col = true -> b = true) ->
  hr <= ht -> Forall (fun f => fside f = negb i) c -> c <> [] ->
  exists t' c' b', join_find i (2 * hr) t c = (t', c') /\ rb false hr t' /\ cx b' hr c' /\
    plug t' c' = plug t c /\ Forall (fun f => fside f = negb i) c' /\ c' <> [].
Proof.
  induction t as [|l IHl x s r IHr]; intros i hr c col ht b Ht Hc Hb Hh Hs Hne; cbn [join_find].
  - apply rb_E_inv in Ht as [-> ->]. assert (hr = 0) as -> by lia.
    exists E, c, b. repeat split; auto. constructor.
  - rewrite (red_rb _ _ _ Ht), (height2_rb _ _ _ Ht).
    destruct (col || (2 * hr <? 2 * ht)) eqn:Ec.
    + assert (exists c1 c2 h' b', rb c1 h' l /\ rb c2 h' r /\ hr <= h' /\
        (forall i w, In w [l; r] -> cx b' h' (mkF i x s w :: c)) /\
        (c1 = true -> b' = true) /\ (c2 = true -> b' = true)) as (c1 & c2 & h' & b' & Hl & Hr & Hh' & Hcx & Hb1 & Hb2).
      { destruct col.
        - pose proof Ht as Ht'. inversion Ht; subst. exists false, false, ht, false.
          repeat split; try discriminate; auto. intros j w Hw. rewrite (Hb eq_refl) in Hc.
          destruct Hw as [<-|[<-|[]]]; apply (cx_R ht); auto.
        - inversion Ht; subst. exists c1, c2, h, true.
          cbn [orb] in Ec. apply Nat.ltb_lt in Ec.
          repeat split; auto; [lia|]. intros j w Hw.
          destruct Hw as [<-|[<-|[]]]; eapply (cx_B h); eauto. }
      destruct i; cbn [negb] in *.
      * destruct (IHl true hr (mkF false x s r :: c) c1 h' b') as (t' & c' & b2 & E1 & E2 & E3 & E4 & E5 & E6); auto.
        { apply Hcx. cbn; auto. } { discriminate. }
        exists t', c', b2. repeat split; auto.
      * destruct (IHr false hr (mkF true x s l :: c) c2 h' b') as (t' & c' & b2 & E1 & E2 & E3 & E4 & E5 & E6); auto.
        { apply Hcx. cbn; auto. } { discriminate. }
        exists t', c', b2. repeat split; auto.
    + apply orb_false_iff in Ec as [-> Ec]. apply Nat.ltb_ge in Ec. assert (hr = ht) as -> by lia.
      exists (N l x s r), c, b. repeat split; auto.
Qed.

Lemma if_needed_black h t : rb false h t -> inc_set_black_if_needed t = Some t.
Proof. intros H. unfold inc_set_black_if_needed. rewrite (red_rb _ _ _ H). reflexivity. Qed.

Lemma if_needed_rr h t : rr h t -> exists t', inc_set_black_if_needed t = Some t' /\ balanced t' /\ inorder t' = inorder t.
Proof.
  intros (c1 & c2 & l & x & r & -> & Hl & Hr). unfold inc_set_black_if_needed. cbn [red child].
  rewrite odd1, (red_rb _ _ _ Hl), (red_rb _ _ _ Hr). cbn [andb].
  destruct (c1 || c2) eqn:Ec.
  - unfold inc_set_black; cbn [set_stat]. rewrite st_ib. cbn [bind]. eexists. split; [reflexivity|].
    split; [|reflexivity]. exists false, (S h). econstructor; eauto.
  - apply orb_false_iff in Ec as [-> ->]. eexists. split; [reflexivity|]. split; [|reflexivity].
    exists true, h. constructor; auto.
Qed.

Lemma if_needed_inorder t t' : inc_set_black_if_needed t = Some t' -> inorder t' = inorder t.
Proof.
  unfold inc_set_black_if_needed. destruct (_ && _); [apply set_stat_inorder|]. now intros [= <-].
Qed.

Lemma join_balance_inorder i : forall n c x t, length c <= n ->
  join_balance i x c = Some t -> inorder t = inorder (plug x c).
Proof.
  induction n as [n IH] using lt_wf_ind. intros c x t Hn H.
  destruct c as [|p [|p2 c]]; cbn [join_balance] in H; [discriminate| |].
  - apply bind_inv in H as (t' & Ht & H). injection H as <-. apply (if_needed_inorder _ _ Ht).
  - cbn [length] in Hn. destruct (_ && _).
    + apply check_inv in H as [_ H]. apply bind_inv in H as (x' & Hx & H).
      apply bind_inv in H as (top & Htop & H).
      assert (inorder top = inorder (fill p2 (fill p x))) as It.
      { rewrite (rotate_inorder _ _ _ Htop), (inorder_fill p2), (inorder_fill p2).
        rewrite (inorder_fill_eq p x' _ x); [reflexivity|]. apply (set_stat_inorder _ _ _ Hx). }
      destruct c as [|p3 c].
      * cbn [plug]. rewrite <- It. apply (if_needed_inorder _ _ H).
      * apply (IH (n - 2)) in H; [|cbn [length] in *; lia|cbn [length] in *; lia].
        rewrite H. cbn [plug]. apply inorder_plug_eq. rewrite !inorder_fill.
        rewrite It, !inorder_fill. reflexivity.
    + apply bind_inv in H as (t' & Ht & H). injection H as <-.
      cbn [plug]. apply inorder_plug_eq. rewrite !(inorder_fill p2).
      rewrite (if_needed_inorder _ _ Ht). reflexivity.
Qed.

Lemma join_balance_ok i : forall n c x b h, length c <= n -> rb true h x -> cx b h c ->
  Forall (fun f => fside f = negb i) c -> c <> [] ->
  exists t, join_balance i x c = Some t /\ balanced t.
Proof.
  induction n as [n IH] using lt_wf_ind. intros c x b h Hn Hx Hc Hs Hne.
  destruct c as [|p [|p2 c]]; cbn [join_balance]; [contradiction| |].
  - apply cx_cons_inv in Hc as [(i1 & x1 & w1 & -> & -> & Hw1 & Hc1)|(i1 & x1 & c1 & b1 & w1 & -> & -> & Hw1 & Hc1)].
    + assert (rr h (fill (mkF i1 x1 (2 * h + 1) w1) x)) as R.
      { unfold fill; cbn [fside fid fst_ fsib]. destruct i1; cbn [mk];
          [exists false, true|exists true, false]; eauto 8. }
      destruct (if_needed_rr _ _ R) as (t' & -> & Hb & _). cbn [bind]. eauto.
    + assert (rb false (S h) (fill (mkF i1 x1 (2 * h + 2) w1) x)) as R.
      { unfold fill; cbn [fside fid fst_ fsib]. eapply rb_mk_B; eauto. }
      rewrite (if_needed_black _ _ R). cbn [bind]. eexists. split; [reflexivity|]. now exists false, (S h).
  - inversion Hs as [|? ? Hs1 Hs']; subst. inversion Hs' as [|? ? Hs2 Hs'']; subst.
    cbn [length] in Hn.
    pose proof Hc as Hc0.
    apply cx_cons_inv in Hc as [(i1 & x1 & w1 & -> & -> & Hw1 & Hc1)|(i1 & x1 & c1 & b1 & w1 & -> & -> & Hw1 & Hc1)].
    + cbn [fside fid fst_ fsib] in *. rewrite odd1, (red_rb _ _ _ Hx). cbn [andb].
      apply cx_cons_inv in Hc1 as [(? & ? & ? & ? & ? & _)|(i2 & x2 & c2 & b2 & w2 & -> & _ & Hw2 & Hc2)];
        [discriminate|].
      cbn [fside fid fst_ fsib] in *. subst i1 i2. rewrite odd2. cbn [negb check].
      apply rb_true_inv in Hx as (xl & xx & xr & -> & Hxl & Hxr).
      unfold inc_set_black at 1; cbn [set_stat]. rewrite st_ib. cbn [bind].
      assert (st_inc (2 * h + 1) = 2 * S h + 1) as Ei by (unfold st_inc; lia). rewrite Ei.
      assert (exists top, rotate i (fill (mkF (negb i) x2 (2 * h + 2) w2)
        (fill (mkF (negb i) x1 (2 * S h + 1) w1) (N xl xx (2 * h + 2) xr))) = Some top /\ rb true (S h) top)
        as (top & Et & Htop).
      { unfold fill; cbn [fside fid fst_ fsib]. destruct i; cbn [negb mk rotate];
          (eexists; split; [reflexivity|]); constructor; eapply rb_B; eauto. }
      rewrite Et. cbn [bind]. destruct c as [|p3 c].
      * destruct (if_needed_rr _ _ (rr_rb _ _ Htop)) as (t' & Et' & Hb & _). eauto.
      * apply (IH (n - 2)) with (b := b2) (h := S h); auto; [lia|cbn [length] in *; lia|discriminate].
    + cbn [fst_]. rewrite odd2. cbn [andb].
      assert (rb false (S h) (fill (mkF i1 x1 (2 * h + 2) w1) x)) as R.
      { unfold fill; cbn [fside fid fst_ fsib]. eapply rb_mk_B; eauto. }
      rewrite (if_needed_black _ _ R). cbn [bind]. eexists. split; [reflexivity|].
      eapply (plug_rb _ _ _ _ false); [exact Hc1|exact R|discriminate].
Qed.

(** The join for a larger tree [l] and a smaller one [r]. *)
Lemma join_tall i l m r cl cr hl hr : rb cl hl l -> rb cr hr r -> hr <= hl ->
  exists t,
  (do r <- (if (height2 r <? height2 l) && red r then inc_set_black r else Some r) ;;
  if height2 l =? height2 r then
    do t <- inc_set_black_if_needed (mk i l m (height2 l + 1) r) ;;
    assert (very_good_tree t) ;;
    Some t
  else
    assert (negb (red r)) ;;
    assert (height2 r <? height2 l) ;;
    match frame_of l (negb i) with
    | None => None
    | Some f =>
      let '(c, path) := join_find i (height2 r) (child l (negb i)) [f] in
      let mt := mk i c m (height2 c + 1) r in
      assert (good_tree mt true) ;;
      do t <- join_balance i mt path ;;
      assert (very_good_tree t) ;;
      Some t
    end) = Some t /\ balanced t /\
  inorder t = if i then inorder r ++ m :: inorder l else inorder l ++ m :: inorder r.
Proof.
  intros Hl Hr Hh.
  assert (exists r', (if (height2 r <? height2 l) && red r then inc_set_black r else Some r) = Some r' /\
    inorder r' = inorder r /\ exists cr' hr', rb cr' hr' r' /\ hr' <= hl /\ (hr' < hl -> cr' = false))
    as (r' & -> & Ir & cr' & hr' & Hr' & Hh' & Hcr).
  { rewrite (height2_rb _ _ _ Hr), (height2_rb _ _ _ Hl), (red_rb _ _ _ Hr).
    destruct (2 * hr <? 2 * hl) eqn:Elt; cbn [andb].
    - apply Nat.ltb_lt in Elt. destruct cr.
      + apply rb_true_inv in Hr as (rl & rx & rr0 & -> & Hrl & Hrr).
        unfold inc_set_black; cbn [set_stat]. rewrite st_ib. cbn [bind].
        eexists. split; [reflexivity|]. split; [reflexivity|]. exists false, (S hr).
        split; [econstructor; eauto|]. split; [lia|auto].
      + exists r. repeat split. exists false, hr. auto.
    - apply Nat.ltb_ge in Elt. exists r. repeat split. exists cr, hr. repeat split; auto. lia. }
  cbn [bind]. rewrite (height2_rb _ _ _ Hr'), (height2_rb _ _ _ Hl), (red_rb _ _ _ Hr').
  rewrite <- Ir. destruct (2 * hl =? 2 * hr') eqn:Eeq.
  - apply Nat.eqb_eq in Eeq. assert (hr' = hl) as -> by lia.
    assert (rr hl (mk i l m (2 * hl + 1) r')) as R.
    { destruct i; cbn [mk]; [exists cr', cl|exists cl, cr']; eauto 8. }
    destruct (if_needed_rr _ _ R) as (t & Et & (c0 & h0 & Ht) & It). rewrite Et. cbn [bind].
    rewrite (very_good_rb _ _ _ Ht). cbn [check]. exists t. split; [reflexivity|].
    split; [exists c0, h0; exact Ht|]. rewrite It, inorder_mk. reflexivity.
  - apply Nat.eqb_neq in Eeq. assert (hr' < hl) as Hlt by lia.
    specialize (Hcr Hlt). subst cr'. cbn [negb check].
    replace (2 * hr' <? 2 * hl) with true by (symmetry; apply Nat.ltb_lt; lia). cbn [check].
    destruct l as [|ll lx ls lr]; [apply rb_E_inv in Hl as [_ ->]; lia|]. cbn [frame_of].
    assert (exists col ht b, rb col ht (child (N ll lx ls lr) (negb i)) /\
      cx b ht [mkF (negb i) lx ls (if negb i then ll else lr)] /\ (col = true -> b = true) /\ hr' <= ht)
      as (col & ht & b & H1 & H2 & H3 & H4).
    { inversion Hl; subst.
      - exists false, hl, false. split; [destruct i; cbn; auto|]. split; [|split; [discriminate|lia]].
        apply (cx_R hl); [destruct i; cbn; auto|constructor].
      - destruct i; [exists c1|exists c2]; exists h, true; cbn [child negb]; (split; [auto|]);
          (split; [eapply (cx_B h); [eauto|apply (cx_nil (S h))]|split; [auto|lia]]). }
    destruct (join_find_ok _ i hr' _ col ht b H1 H2 H3 H4) as (c & path & b' & E1 & E2 & E3 & E4 & E5 & E6).
    { repeat constructor. } { discriminate. }
    rewrite E1. rewrite (height2_rb _ _ _ E2).
    assert (rb true hr' (mk i c m (2 * hr' + 1) r')) as R by (apply rb_mk_R; auto).
    rewrite (good_rb _ _ _ true R). cbn [check].
    destruct (join_balance_ok i _ path _ b' hr' (le_n _) R E3 E5 E6) as (t & Et & (c0 & h0 & Ht)).
    rewrite Et. cbn [bind]. rewrite (very_good_rb _ _ _ Ht). cbn [check].
    exists t. split; [reflexivity|]. split; [exists c0, h0; exact Ht|].
    rewrite (join_balance_inorder i _ path _ _ (le_n _) Et), inorder_plug, inorder_mk.
    assert (inorder (N ll lx ls lr) = before path ++ inorder c ++ after path) as Il.
    { rewrite <- inorder_plug, E4. cbn [plug].
      rewrite (frame_fill (N ll lx ls lr) (negb i) (mkF (negb i) lx ls (if negb i then ll else lr))); reflexivity. }
    rewrite Il. destruct i; cbn [negb] in E5.
    + rewrite (before_side path) by exact E5. cbn [app]. now rewrite <- app_assoc.
    + rewrite (after_side path) by exact E5. rewrite !app_nil_r. now rewrite <- app_assoc.
Qed.

Lemma join3_ok l m r : balanced l -> balanced r ->
  exists t, join3 l m r = Some t /\ balanced t /\ inorder t = inorder l ++ m :: inorder r.
Proof.
  intros (cl & hl & Hl) (cr & hr & Hr). unfold join3.
  destruct (height2 l <? height2 r) eqn:Elt.
  - apply Nat.ltb_lt in Elt. rewrite (height2_rb _ _ _ Hl), (height2_rb _ _ _ Hr) in Elt.
    exact (join_tall true r m l cr cl hr hl Hr Hl ltac:(lia)).
  - apply Nat.ltb_ge in Elt. rewrite (height2_rb _ _ _ Hl), (height2_rb _ _ _ Hr) in Elt.
    exact (join_tall false l m r cl cr hl hr Hl Hr ltac:(lia)).
Qed.

Lemma join2_ok l r : balanced l -> balanced r ->
  exists t, join2 l r = Some t /\ balanced t /\ inorder t = inorder l ++ inorder r.
Proof.
  intros Hl Hr. destruct l as [|ll lx ls lr] eqn:El.
  { exists r. cbn. auto. }
  rewrite <- El in *. destruct r as [|rl rx rs rr0] eqn:Er.
  { exists l. cbn [join2]. split; [rewrite El; reflexivity|]. split; [auto|]. cbn. now rewrite app_nil_r. }
  rewrite <- Er in *.
  destruct (extract_start_ok r false Hr) as (x & t' & rest & E1 & E2 & E3 & E4); [subst; discriminate|].
  destruct (join3_ok l x t' Hl E2) as (t & F1 & F2 & F3).
  exists t. split.
  { unfold join2. rewrite E1. subst l r. cbn [bind]. exact F1. }
  split; [exact F2|]. rewrite F3, E4, E3. reflexivity.
Qed.

(** * Splitting *)

Lemma balanced_children l x s r : balanced (N l x s r) -> balanced l /\ balanced r.
Proof. intros (c & h & H). inversion H; subst; split; do 2 eexists; eauto. Qed.

Lemma in_order_l cmp a b : in_order cmp (a ++ b) -> in_order cmp a.
Proof.
  intros H l1 x l2 y l3 E. apply (H l1 x l2 y (l3 ++ b)). rewrite E, <- !app_assoc. cbn [app].
  rewrite <- !app_assoc. reflexivity.
Qed.
Lemma in_order_r cmp a b : in_order cmp (a ++ b) -> in_order cmp b.
Proof.
  intros H l1 x l2 y l3 E. apply (H (a ++ l1) x l2 y l3). rewrite E, <- !app_assoc. reflexivity.
Qed.
Lemma in_order_lt cmp a x b y : in_order cmp (a ++ x :: b) -> In y a ->
  (cmp y <= 0 -> cmp x <= 0)%Z /\ (cmp y < 0 -> cmp x < 0)%Z.
Proof.
  intros H Hy. apply in_split in Hy as (a1 & a2 & ->). apply (H a1 y a2 x b).
  rewrite <- !app_assoc. reflexivity.
Qed.
Lemma in_order_gt cmp a x b y : in_order cmp (a ++ x :: b) -> In y b ->
  (cmp x <= 0 -> cmp y <= 0)%Z /\ (cmp x < 0 -> cmp y < 0)%Z.
Proof.
  intros H Hy. apply in_split in Hy as (b1 & b2 & ->). apply (H a x b1 y b2). reflexivity.
Qed.

Lemma split_ok cmp back : forall n, balanced n -> in_order cmp (inorder n) ->
  exists l r, split cmp back n = Some (l, r) /\ balanced l /\ balanced r /\
    inorder n = inorder l ++ inorder r /\
    Forall (fun x => Z.b2z back <= cmp x)%Z (inorder l) /\
    Forall (fun x => cmp x < Z.b2z back)%Z (inorder r).
Proof.
  induction n as [|nl IHl x s nr IHr]; intros Hb Ho; cbn [split].
  - exists E, E. split; [reflexivity|].
    split; [exists false, 0; constructor|]. split; [exists false, 0; constructor|].
    repeat split; constructor.
  - apply balanced_children in Hb as [Hbl Hbr]. cbn [inorder] in Ho.
    destruct (Z.b2z back <=? cmp x)%Z eqn:Ec.
    + apply Z.leb_le in Ec.
      destruct IHr as (nm & r & E1 & E2 & E3 & E4 & E5 & E6); [auto| |].
      { apply (in_order_r cmp (inorder nl ++ [x])). rewrite <- app_assoc. exact Ho. }
      rewrite E1. cbn [bind]. destruct (join3_ok nl x nm Hbl E2) as (l & F1 & F2 & F3).
      rewrite F1. cbn [bind]. exists l, r. repeat split; auto.
      * cbn [inorder]. rewrite F3, E4, <- app_assoc. reflexivity.
      * rewrite F3. apply Forall_app. split; [|constructor; auto].
        apply Forall_forall. intros y Hy. destruct (in_order_lt _ _ _ _ y Ho Hy).
        destruct back; cbn [Z.b2z] in *; lia.
    + apply Z.leb_gt in Ec.
      destruct IHl as (l & nm & E1 & E2 & E3 & E4 & E5 & E6); [auto| |].
      { apply (in_order_l cmp _ (x :: inorder nr)). exact Ho. }
      rewrite E1. cbn [bind]. destruct (join3_ok nm x nr E3 Hbr) as (r & F1 & F2 & F3).
      rewrite F1. cbn [bind]. exists l, r. repeat split; auto.
      * cbn [inorder]. rewrite F3, E4, <- app_assoc. reflexivity.
      * rewrite F3. apply Forall_app. split; [auto|constructor; auto].
        apply Forall_forall. intros y Hy. destruct (in_order_gt _ _ _ _ y Ho Hy).
        destruct back; cbn [Z.b2z] in *; lia.
Qed.

(** * Height *)

Lemma depth_rb c h t : rb c h t -> depth t <= 2 * h + Nat.b2n c.
Proof. induction 1; cbn [depth Nat.b2n]; [lia|cbn [Nat.b2n] in *; lia|].
  destruct c1, c2; cbn [Nat.b2n] in *; lia. Qed.

Lemma count_rb c h t : rb c h t -> 2 ^ h <= count t + 1.
Proof.
  unfold count. induction 1 as [|h l x r Hl IHl Hr IHr|h c1 c2 l x r Hl IHl Hr IHr]; cbn [inorder];
    [cbn; lia| |]; rewrite app_length; cbn [length]; [lia|rewrite Nat.pow_succ_r' ; lia].
Qed.

Lemma depth_log t : balanced t -> depth t <= 2 * Nat.log2 (count t + 1) + 1.
Proof.
  intros (c & h & H). pose proof (depth_rb _ _ _ H) as Hd. pose proof (count_rb _ _ _ H) as Hn.
  apply Nat.log2_le_mono in Hn. rewrite Nat.log2_pow2 in Hn by lia.
  destruct c; cbn [Nat.b2n] in *; lia.
Qed.

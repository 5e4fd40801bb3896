(** Proofs about the dictionary: invariant, sequence, insertion. *)
From Coq Require Import List Bool Arith ZArith Lia ZifyBool.
From Verif Require Import Dict_model Dict_spec.
Import ListNotations.

(** * Arithmetic of the stat word *)

Lemma odd1 h : Nat.odd (2 * h + 1) = true.
Proof. rewrite Nat.odd_add, Nat.odd_mul. reflexivity. Qed.
Lemma odd2 h : Nat.odd (2 * h + 2) = false.
Proof. rewrite Nat.odd_add, Nat.odd_mul. reflexivity. Qed.
Lemma div1 h : 2 * Nat.div2 (2 * h + 1) = 2 * h.
Proof. rewrite Nat.add_1_r, Nat.div2_succ_double. reflexivity. Qed.
Lemma div2_ h : 2 * Nat.div2 (2 * h + 2) = 2 * S h.
Proof. replace (2 * h + 2) with (2 * S h) by lia. rewrite Nat.div2_double. reflexivity. Qed.

Lemma st_ib h : st_inc_set_black (2 * h + 1) = Some (2 * h + 2).
Proof. unfold st_inc_set_black. rewrite odd1. f_equal. lia. Qed.
Lemma st_dr h : st_dec_set_red (2 * h + 2) = Some (2 * h + 1).
Proof. unfold st_dec_set_red. rewrite odd2. replace (2 * h + 2) with (S (2 * h + 1)) by lia. reflexivity. Qed.
Lemma st_sr h : st_set_red (2 * h + 2) = 2 * S h + 1.
Proof. unfold st_set_red. rewrite odd2. lia. Qed.
Lemma st_sb h : st_set_black (2 * S h + 1) = 2 * h + 2.
Proof. unfold st_set_black. rewrite odd1. lia. Qed.
Lemma st_d1 h : st_dec (2 * S h + 1) = Some (2 * h + 1).
Proof. unfold st_dec. replace (2 <=? 2 * S h + 1) with true by (symmetry; apply Nat.leb_le; lia). f_equal. lia. Qed.
Lemma st_d2 h : st_dec (2 * S h + 2) = Some (2 * h + 2).
Proof. unfold st_dec. replace (2 <=? 2 * S h + 2) with true by (symmetry; apply Nat.leb_le; lia). f_equal. lia. Qed.

(** * The invariant *)

Lemma red_rb c h t : rb c h t -> red t = c.
Proof. destruct 1; cbn [red]; [reflexivity| apply odd1 | apply odd2]. Qed.

Lemma height2_rb c h t : rb c h t -> height2 t = 2 * h.
Proof. destruct 1; cbn [height2]; [reflexivity| apply div1 | apply div2_]. Qed.

Lemma good_rb c h t b : rb c h t -> good_tree t b = true.
Proof.
  destruct 1 as [|h l x r Hl Hr|h c1 c2 l x r Hl Hr]; [reflexivity| |].
  - cbn [good_tree red height2]. rewrite odd1, div1.
    rewrite (red_rb _ _ _ Hl), (red_rb _ _ _ Hr), (height2_rb _ _ _ Hl), (height2_rb _ _ _ Hr).
    rewrite Nat.eqb_refl. destruct b; reflexivity.
  - cbn [good_tree red height2]. rewrite odd2, div2_.
    rewrite (height2_rb _ _ _ Hl), (height2_rb _ _ _ Hr).
    replace (2 * h + 2) with (2 * S h) by lia. rewrite Nat.eqb_refl. reflexivity.
Qed.

Lemma bh_rb c h t : rb c h t -> get_black_height t = h.
Proof.
  intros H. induction H as [|h l x r Hl IHl Hr IHr|h c1 c2 l x r Hl IHl Hr IHr]; [reflexivity| |].
  - cbn [get_black_height]. rewrite (good_rb _ _ _ true (rb_R h l x r Hl Hr)).
    cbn [red]. rewrite odd1, IHl. lia.
  - cbn [get_black_height]. rewrite (good_rb _ _ _ true (rb_B h _ _ l x r Hl Hr)).
    cbn [red]. rewrite odd2, IHl. lia.
Qed.

Lemma very_good_rb c h t : rb c h t -> very_good_tree t = true.
Proof.
  intros H. unfold very_good_tree. rewrite (bh_rb _ _ _ H), (height2_rb _ _ _ H).
  rewrite Nat.div2_double. apply Nat.eqb_refl.
Qed.

Lemma rb_E_inv c h : rb c h E -> c = false /\ h = 0.
Proof. inversion 1; auto. Qed.

Lemma rb_true_inv h t : rb true h t ->
  exists l x r, t = N l x (2 * h + 1) r /\ rb false h l /\ rb false h r.
Proof. inversion 1; subst; eauto 8. Qed.

Lemma rb_S_inv h t : rb false (S h) t ->
  exists c1 c2 l x r, t = N l x (2 * h + 2) r /\ rb c1 h l /\ rb c2 h r.
Proof. inversion 1; subst; eauto 10. Qed.

Lemma rb_0_inv t : rb false 0 t -> t = E.
Proof. inversion 1; auto. Qed.

(** * Contexts *)

Inductive cx : bool -> nat -> list frame -> Prop :=
| cx_nil : forall h, cx true h []
| cx_R : forall h i x w c, rb false h w -> cx true h c -> cx false h (mkF i x (2 * h + 1) w :: c)
| cx_B : forall h i x c1 b w c, rb c1 h w -> cx b (S h) c -> cx true h (mkF i x (2 * h + 2) w :: c).

Lemma cx_cons_inv b h f c : cx b h (f :: c) ->
  (exists i x w, f = mkF i x (2 * h + 1) w /\ b = false /\ rb false h w /\ cx true h c) \/
  (exists i x c1 b' w, f = mkF i x (2 * h + 2) w /\ b = true /\ rb c1 h w /\ cx b' (S h) c).
Proof. inversion 1; subst; [left|right]; eauto 12. Qed.

Lemma rb_mk_R i h a x b : rb false h a -> rb false h b -> rb true h (mk i a x (2 * h + 1) b).
Proof. intros. destruct i; cbn [mk]; constructor; auto. Qed.
Lemma rb_mk_B i h c1 c2 a x b : rb c1 h a -> rb c2 h b -> rb false (S h) (mk i a x (2 * h + 2) b).
Proof. intros. destruct i; cbn [mk]; econstructor; eauto. Qed.

Lemma plug_rb : forall c t b h col, cx b h c -> rb col h t -> (col = true -> b = true) ->
  balanced (plug t c).
Proof.
  intros c. induction c as [|f c IH]; intros t b h col Hc Ht Hb; inversion Hc; subst.
  - exists col, h. exact Ht.
  - cbn [plug]. assert (col = false) as -> by (destruct col; auto; now specialize (Hb eq_refl)).
    apply (IH _ true h true); auto. unfold fill. cbn. apply rb_mk_R; auto.
  - cbn [plug]. apply (IH _ b0 (S h) false); [auto| |discriminate].
    unfold fill. cbn [fside fid fst_ fsib]. eapply rb_mk_B; eauto.
Qed.

Lemma plug_cx : forall c t, balanced (plug t c) ->
  exists col h b, rb col h t /\ cx b h c /\ (col = true -> b = true).
Proof.
  induction c as [|f c IH]; intros t H.
  - destruct H as (col & h & H). exists col, h, true. repeat split; auto. constructor.
  - cbn [plug] in H. apply IH in H as (col & h & b & Ht & Hc & Hb).
    destruct f as [i x s w]. unfold fill in Ht. cbn [fside fid fst_ fsib] in Ht.
    destruct i; cbn [mk] in Ht; inversion Ht; subst.
    + exists false, h, false. rewrite (Hb eq_refl) in Hc.
      split; [auto|]. split; [constructor; auto|]. discriminate.
    + exists c2, h0, true. split; [auto|]. split; [|auto]. econstructor; eauto.
    + exists false, h, false. rewrite (Hb eq_refl) in Hc.
      split; [auto|]. split; [constructor; auto|]. discriminate.
    + exists c1, h0, true. split; [auto|]. split; [|auto]. econstructor; eauto.
Qed.

(** * Sequences *)

Lemma inorder_fill f t : inorder (fill f t) =
  (if fside f then inorder (fsib f) ++ [fid f] else []) ++ inorder t ++
  (if fside f then [] else fid f :: inorder (fsib f)).
Proof.
  destruct f as [i x s w]. unfold fill, mk. cbn [fside fid fst_ fsib].
  destruct i; cbn [inorder app].
  - rewrite <- app_assoc, app_nil_r. reflexivity.
  - reflexivity.
Qed.

Lemma inorder_plug : forall c t, inorder (plug t c) = before c ++ inorder t ++ after c.
Proof.
  induction c as [|f c IH]; intros t; cbn [plug before after app].
  - now rewrite app_nil_r.
  - rewrite IH, inorder_fill, !app_assoc. reflexivity.
Qed.

(** Two trees with the same sequence in the same context. *)
Lemma inorder_plug_eq t t' c : inorder t = inorder t' ->
  inorder (plug t c) = inorder (plug t' c).
Proof. intros H. now rewrite !inorder_plug, H. Qed.

Lemma inorder_fill_eq f t s' t' : inorder t = inorder t' ->
  inorder (fill (mkF (fside f) (fid f) s' (fsib f)) t) = inorder (fill f t').
Proof. intros H. now rewrite !inorder_fill, H. Qed.

Lemma rotate_inorder d t t' : rotate d t = Some t' -> inorder t' = inorder t.
Proof.
  destruct t as [|l x s r]; cbn [rotate]; [discriminate|].
  destruct d; [destruct l as [|yl y sy yr]|destruct r as [|yl y sy yr]]; try discriminate;
    intros [= <-]; cbn [inorder]; rewrite <- ?app_assoc; reflexivity.
Qed.

Lemma set_stat_inorder t f t' : set_stat t f = Some t' -> inorder t' = inorder t.
Proof.
  destruct t as [|l x s r]; cbn [set_stat]; [discriminate|].
  destruct (f s); cbn [bind]; [intros [= <-]; reflexivity|discriminate].
Qed.

Lemma bind_inv {A B} (o : option A) (f : A -> option B) b :
  bind o f = Some b -> exists a, o = Some a /\ f a = Some b.
Proof. destruct o; cbn; [eauto|discriminate]. Qed.

Lemma check_inv {B} c (k : option B) b : check c k = Some b -> c = true /\ k = Some b.
Proof. destruct c; cbn; [auto|discriminate]. Qed.

(** Sequence lemmas hold for any run that does not fail; balance is needed
    only to show that it does not. *)
Lemma balance_insert_inorder : forall n c x t, length c <= n ->
  balance_insert x c = Some t -> inorder t = inorder (plug x c).
Proof.
  induction n as [n IH] using lt_wf_ind. intros c x t Hn H.
  destruct c as [|f1 [|f2 c]]; cbn [balance_insert] in H.
  - injection H as <-. reflexivity.
  - injection H as <-. reflexivity.
  - destruct (Nat.odd (fst_ f1)); [|injection H as <-; reflexivity].
    apply check_inv in H as [_ H].
    destruct (red (fsib f2)) eqn:Ey.
    + apply bind_inv in H as (p & Hp & H). apply bind_inv in H as (y & Hy & H).
      cbn [length] in Hn. apply (IH (n - 2)) in H; [|lia|lia]. rewrite H.
      cbn [plug]. apply inorder_plug_eq. rewrite !inorder_fill. cbn [fside fid fst_ fsib].
      rewrite (set_stat_inorder _ _ _ Hy). reflexivity.
    + apply bind_inv in H as (p & Hp & H). apply bind_inv in H as (p' & Hp' & H).
      apply bind_inv in H as (q & Hq & H). apply bind_inv in H as (top & Htop & H).
      apply check_inv in H as [_ H]. injection H as <-. cbn [plug].
      apply inorder_plug_eq. rewrite (rotate_inorder _ _ _ Htop).
      apply inorder_fill_eq. rewrite (set_stat_inorder _ _ _ Hp').
      destruct (Bool.eqb (fside f1) (negb (fside f2))).
      * apply (rotate_inorder _ _ _ Hp).
      * injection Hp as <-. reflexivity.
Qed.

(** * Insertion keeps the balance *)

(** The result of the loop: balanced up to a red root with red children. *)
Definition rb_top (t : tree) : Prop :=
  balanced t \/ exists h c1 c2 l x r, t = N l x (2 * h + 1) r /\ rb c1 h l /\ rb c2 h r.

Lemma balance_insert_ok : forall n c x b h, length c <= n -> rb true h x -> cx b h c ->
  exists t, balance_insert x c = Some t /\ rb_top t.
Proof.
  induction n as [n IH] using lt_wf_ind. intros c x b h Hn Hx Hc.
  destruct c as [|f1 [|f2 c]]; cbn [balance_insert].
  - exists x. split; [reflexivity|]. left. now exists true, h.
  - exists (plug x [f1]). split; [reflexivity|]. cbn [plug].
    apply cx_cons_inv in Hc as [(i & x1 & w & -> & -> & Hw & Hc)|(i & x1 & c1 & b' & w & -> & -> & Hw & Hc)].
    + right. unfold fill; cbn [fside fid fst_ fsib]. destruct i; cbn [mk];
        [exists h, false, true|exists h, true, false]; repeat eexists; eauto.
    + left. exists false, (S h). unfold fill; cbn [fside fid fst_ fsib]. eapply rb_mk_B; eauto.
  - pose proof Hc as Hc0.
    apply cx_cons_inv in Hc as [(i1 & x1 & w1 & -> & -> & Hw1 & Hc1)|(i1 & x1 & c1 & b1 & w1 & -> & -> & Hw1 & Hc1)].
    2:{ cbn [fst_]. rewrite odd2. eexists. split; [reflexivity|].
        left. eapply plug_rb; eauto. }
    cbn [fst_]. rewrite odd1. rewrite (red_rb _ _ _ Hx). cbn [check].
    apply cx_cons_inv in Hc1 as [(? & ? & ? & ? & ? & _)|(i2 & x2 & c2 & b2 & w2 & -> & _ & Hw2 & Hc2)];
      [discriminate|].
    cbn [fside fid fst_ fsib]. rewrite (red_rb _ _ _ Hw2). cbn [length] in Hn.
    destruct c2.
    + rewrite st_ib. cbn [bind]. apply rb_true_inv in Hw2 as (wl & wx & wr & -> & Hwl & Hwr).
      unfold inc_set_black at 1. cbn [set_stat]. rewrite st_ib. cbn [bind].
      rewrite st_sr.
      apply (IH (n - 2)) with (b := b2) (h := S h); [lia|lia| |exact Hc2].
      unfold fill; cbn [fside fid fst_ fsib]. apply rb_mk_R.
      * eapply rb_mk_B; eauto.
      * econstructor; eauto.
    + apply rb_true_inv in Hx as (xl & xx & xr & -> & Hxl & Hxr).
      rewrite odd2, st_dr. unfold fill; cbn [fside fid fst_ fsib].
      destruct i1, i2; cbn [Bool.eqb negb mk rotate bind inc_set_black set_stat];
        rewrite ?st_ib; cbn [bind mk rotate negb]; cbn [red]; rewrite ?odd2; cbn [negb check];
        (eexists; split; [reflexivity|]); left;
        (eapply (plug_rb _ _ _ _ false); [exact Hc2| |discriminate]);
        (eapply rb_B; constructor; eauto).
Qed.

Lemma ensure_black_rb t : rb_top t -> t <> E ->
  exists t' h, ensure_black t = Some t' /\ rb false h t' /\ inorder t' = inorder t.
Proof.
  intros [(c & h & H)|(h & c1 & c2 & l & x & r & -> & Hl & Hr)] Ne.
  - destruct c.
    + apply rb_true_inv in H as (l & x & r & -> & Hl & Hr).
      exists (N l x (2 * h + 2) r), (S h). cbn [ensure_black red]. rewrite odd1.
      unfold inc_set_black; cbn [set_stat]. rewrite st_ib. repeat split. econstructor; eauto.
    + destruct h as [|h]; [apply rb_0_inv in H; contradiction|].
      pose proof H as H'.
      apply rb_S_inv in H as (c1 & c2 & l & x & r & -> & Hl & Hr).
      exists (N l x (2 * h + 2) r), (S h). cbn [ensure_black red]. rewrite odd2. auto.
  - exists (N l x (2 * h + 2) r), (S h). cbn [ensure_black red]. rewrite odd1.
    unfold inc_set_black; cbn [set_stat]. rewrite st_ib. repeat split. econstructor; eauto.
Qed.

Lemma plug_nonempty : forall c t, t <> E -> plug t c <> E.
Proof.
  induction c as [|f c IH]; intros t H; cbn [plug]; [auto|]. apply IH.
  unfold fill, mk. destruct (fside f); discriminate.
Qed.

Lemma insert_leaf_ok node c h b : cx b h c -> h = 0 ->
  exists t, insert_leaf node c = Some t /\ (exists h, rb false h t) /\
    inorder t = before c ++ node :: after c.
Proof.
  intros Hc ->. unfold insert_leaf.
  assert (rb true 0 (N E node 1 E)) as Hn by (apply (rb_R 0 E node E); constructor).
  destruct (balance_insert_ok _ c _ b 0 (le_n _) Hn Hc) as (t & Et & Ht).
  pose proof (balance_insert_inorder _ c _ t (le_n _) Et) as Hi.
  rewrite Et. cbn [bind].
  destruct (ensure_black_rb t Ht) as (t' & h & E' & Hrb & Hi').
  { intros ->. rewrite inorder_plug in Hi. cbn [inorder app] in Hi.
    destruct (before c); discriminate. }
  rewrite E'. cbn [bind]. rewrite (very_good_rb _ _ _ Hrb). cbn [check].
  exists t'. split; [reflexivity|]. split; [eauto|].
  rewrite Hi', Hi, inorder_plug. reflexivity.
Qed.

(** * Iteration *)

Lemma frame_fill t i f : frame_of t i = Some f -> fill f (child t i) = t.
Proof. destruct t; [discriminate|]. intros [= <-]. unfold fill; cbn. destruct i; reflexivity. Qed.

(** [start] ends at a node whose child [dir] is NULL. *)
Lemma start_spec : forall t c dir, t <> E ->
  exists t' c', start t c dir = Some (t', c') /\ plug t' c' = plug t c /\
    t' <> E /\ child t' dir = E /\
    exists c2, c' = c2 ++ c /\ Forall (fun f => fside f = dir) c2 /\ plug t' c2 = t.
Proof.
  induction t as [|l IHl x s r IHr]; intros c dir Ht; [contradiction|].
  destruct dir; cbn [start].
  - destruct r as [|rl rx rs rr].
    + exists (N l x s E), c. repeat split; [discriminate|]. exists []. repeat split; constructor.
    + destruct (IHr (mkF true x s l :: c) true ltac:(discriminate))
        as (t' & c' & E1 & E2 & E3 & E4 & c2 & E5 & E6 & E7).
      exists t', c'. repeat split; auto. exists (c2 ++ [mkF true x s l]).
      split; [rewrite E5, <- app_assoc; reflexivity|].
      split; [apply Forall_app; split; auto|].
      clear -E7. revert t' E7. induction c2 as [|f c2 IH]; intros t' E7; cbn [plug app] in *.
      * now rewrite E7.
      * apply IH. exact E7.
  - destruct l as [|ll lx ls lr].
    + exists (N E x s r), c. repeat split; [discriminate|]. exists []. repeat split; constructor.
    + destruct (IHl (mkF false x s r :: c) false ltac:(discriminate))
        as (t' & c' & E1 & E2 & E3 & E4 & c2 & E5 & E6 & E7).
      exists t', c'. repeat split; auto. exists (c2 ++ [mkF false x s r]).
      split; [rewrite E5, <- app_assoc; reflexivity|].
      split; [apply Forall_app; split; auto|].
      clear -E7. revert t' E7. induction c2 as [|f c2 IH]; intros t' E7; cbn [plug app] in *.
      * now rewrite E7.
      * apply IH. exact E7.
Qed.

Lemma before_app c1 c2 : before (c1 ++ c2) = before c2 ++ before c1.
Proof. induction c1 as [|f c1 IH]; cbn [before app]; [now rewrite app_nil_r|]. now rewrite IH, app_assoc. Qed.
Lemma after_app c1 c2 : after (c1 ++ c2) = after c1 ++ after c2.
Proof. induction c1 as [|f c1 IH]; cbn [after app]; [reflexivity|]. now rewrite IH, app_assoc. Qed.
Lemma before_side c : Forall (fun f => fside f = false) c -> before c = [].
Proof. induction 1 as [|f c H _ IH]; cbn [before]; [reflexivity|]. now rewrite H, IH. Qed.
Lemma after_side c : Forall (fun f => fside f = true) c -> after c = [].
Proof. induction 1 as [|f c H _ IH]; cbn [after]; [reflexivity|]. now rewrite H, IH. Qed.

(** The nodes strictly before / after the node at a position. *)
Definition lt_nodes (z : zip) : list nat := before (snd z) ++ inorder (child (fst z) false).
Definition gt_nodes (z : zip) : list nat := inorder (child (fst z) true) ++ after (snd z).

Lemma zip_split t z x : at_node t z x -> inorder t = lt_nodes z ++ x :: gt_nodes z.
Proof.
  destruct z as [n c]. intros [<- (l & s & r & Hn)]. cbn [fst snd] in *. subst n.
  unfold lt_nodes, gt_nodes. cbn [fst snd child].
  rewrite inorder_plug. cbn [inorder]. rewrite <- !app_assoc. reflexivity.
Qed.

Lemma start_at t c dir z : start t c dir = Some z ->
  plug (fst z) (snd z) = plug t c /\
  (exists l x s r, fst z = N l x s r) /\
  child (fst z) dir = E /\
  (if dir then gt_nodes z = after c else lt_nodes z = before c).
Proof.
  intros H. assert (t <> E) as Ht by (destruct t; [discriminate|discriminate]).
  destruct (start_spec t c dir Ht) as (t' & c' & E1 & E2 & E3 & E4 & c2 & E5 & E6 & E7).
  rewrite E1 in H. injection H as <-. cbn [fst snd].
  split; [exact E2|]. split; [destruct t'; [contradiction|eauto]|]. split; [exact E4|].
  unfold gt_nodes, lt_nodes. cbn [fst snd]. subst c'.
  destruct dir; rewrite E4; cbn [inorder]; rewrite ?after_app, ?before_app.
  - rewrite (after_side c2) by exact E6. reflexivity.
  - rewrite (before_side c2) by exact E6. now rewrite !app_nil_r.
Qed.

Lemma climb_spec : forall c t dir,
  match climb t c dir with
  | None => (if dir then before c else after c) = []
  | Some z => plug (fst z) (snd z) = plug t c /\
      exists x, at_node (plug t c) z x /\
      if dir then before c = lt_nodes z ++ [x] else after c = x :: gt_nodes z
  end.
Proof.
  induction c as [|f c IH]; intros t dir; cbn [climb].
  - destruct dir; reflexivity.
  - destruct (Bool.eqb (fside f) (negb dir)) eqn:Es.
    + apply eqb_prop in Es. specialize (IH (fill f t) dir).
      destruct (climb (fill f t) c dir) as [z|].
      * cbn [plug]. destruct IH as [H1 (x & H2 & H3)]. split; [exact H1|]. exists x. split; [exact H2|].
        cbn [before after]. rewrite Es. destruct dir; cbn [negb] in *.
        -- now rewrite app_nil_r.
        -- exact H3.
      * cbn [before after]. rewrite Es. destruct dir; cbn [negb] in *; [now rewrite IH|exact IH].
    + assert (fside f = dir) as Es' by (destruct (fside f), dir; auto; discriminate).
      cbn [fst snd plug]. split; [reflexivity|]. exists (fid f).
      destruct f as [i x s w]. cbn [fside fid] in *. subst i. split.
      * split; [reflexivity|]. unfold fill; cbn [fst fside fid fst_ fsib]. destruct dir; cbn [mk]; eauto.
      * cbn [before after fside fid fsib]. unfold lt_nodes, gt_nodes, fill. cbn [fst snd fside fid fst_ fsib].
        destruct dir; cbn [mk child].
        -- rewrite app_assoc. reflexivity.
        -- reflexivity.
Qed.

(** [step] goes to the neighbour in the sequence. *)
Lemma step_spec t z x dir : at_node t z x ->
  match step z dir with
  | None => (if dir then lt_nodes z else gt_nodes z) = []
  | Some z' => exists y, at_node t z' y /\
      if dir then lt_nodes z = lt_nodes z' ++ [y] /\ gt_nodes z' = x :: gt_nodes z
      else gt_nodes z = y :: gt_nodes z' /\ lt_nodes z' = lt_nodes z ++ [x]
  end.
Proof.
  destruct z as [n c]. intros Hz. pose proof (zip_split _ _ _ Hz) as Sp.
  destruct Hz as [Hp (l & s & r & Hn)]. cbn [fst snd] in *. subst n.
  unfold step. cbn [frame_of].
  assert (forall z' y, plug (fst z') (snd z') = t -> (exists l s r, fst z' = N l y s r) ->
    (if dir then gt_nodes z' = x :: gt_nodes (N l x s r, c) else lt_nodes z' = lt_nodes (N l x s r, c) ++ [x]) ->
    at_node t z' y /\
    (if dir then lt_nodes (N l x s r, c) = lt_nodes z' ++ [y] /\ gt_nodes z' = x :: gt_nodes (N l x s r, c)
     else gt_nodes (N l x s r, c) = y :: gt_nodes z' /\ lt_nodes z' = lt_nodes (N l x s r, c) ++ [x])) as Key.
  { intros z' y H1 H2 H3. assert (at_node t z' y) as A by (split; auto). split; [exact A|].
    pose proof (zip_split _ _ _ A) as Sp'. rewrite Sp in Sp'. destruct dir.
    - split; [|exact H3]. rewrite H3 in Sp'.
      replace (lt_nodes z' ++ y :: x :: gt_nodes (N l x s r, c))
        with ((lt_nodes z' ++ [y]) ++ x :: gt_nodes (N l x s r, c)) in Sp'
        by (rewrite <- app_assoc; reflexivity).
      apply app_inv_tail in Sp'. exact Sp'.
    - split; [|exact H3]. rewrite H3, <- app_assoc in Sp'. apply app_inv_head in Sp'.
      cbn [app] in Sp'. injection Sp' as Sp'. exact Sp'. }
  destruct (child (N l x s r) (negb dir)) as [|cl cxx cs cr] eqn:Ec.
  - pose proof (climb_spec c (N l x s r) dir) as Hc.
    destruct (climb (N l x s r) c dir) as [z'|].
    + destruct Hc as [H1 (y & [H2 H2'] & H3)]. exists y. apply Key; [congruence|exact H2'|].
      cbn [fst snd] in *. destruct dir; cbn [negb child] in Ec; subst.
      * pose proof (zip_split _ z' y (conj H1 H2')) as Sp'.
        rewrite inorder_plug in Sp'. cbn [inorder app] in Sp'.
        unfold gt_nodes at 2. cbn [fst snd child].
        rewrite H3 in Sp'. rewrite <- app_assoc in Sp'. apply app_inv_head in Sp'.
        cbn [app] in Sp'. injection Sp' as Sp'. now rewrite <- Sp'.
      * pose proof (zip_split _ z' y (conj H1 H2')) as Sp'.
        rewrite inorder_plug in Sp'. cbn [inorder app] in Sp'.
        unfold lt_nodes at 2. cbn [fst snd child].
        rewrite H3 in Sp'.
        replace (before c ++ (inorder l ++ [x]) ++ y :: gt_nodes z')
          with (((before c ++ inorder l) ++ [x]) ++ y :: gt_nodes z') in Sp' by (rewrite <- !app_assoc; reflexivity).
        apply app_inv_tail in Sp'. now rewrite <- Sp'.
    + destruct dir; cbn [negb child] in Ec; subst; unfold lt_nodes, gt_nodes; cbn [fst snd child inorder].
      * rewrite Hc. reflexivity.
      * rewrite Hc. reflexivity.
  - match goal with |- match ?X with _ => _ end => destruct X as [z'|] eqn:Es end.
    + apply start_at in Es as (H1 & (l' & y & s' & r' & H2) & H3 & H4).
      exists y. rewrite <- Ec in H1. apply Key; [|eauto|].
      * rewrite H1. cbn [plug]. rewrite frame_fill with (f := mkF (negb dir) x s (if negb dir then l else r)); [exact Hp|reflexivity].
      * destruct dir; cbn [negb before after fside fid fsib app] in H4 |- *.
        -- rewrite H4. reflexivity.
        -- rewrite H4. unfold lt_nodes. cbn [fst snd child]. rewrite app_assoc. reflexivity.
    + exfalso. destruct (start_spec (N cl cxx cs cr) (mkF (negb dir) x s (if negb dir then l else r) :: c) dir ltac:(discriminate))
        as (t' & c' & E1 & _). congruence.
Qed.

(** * Insertion by reference *)

Lemma at_leaf_h t c i f : balanced (plug t c) -> child t i = E -> frame_of t i = Some f ->
  exists b, cx b 0 (f :: c).
Proof.
  intros Hb He Hf. rewrite <- (frame_fill _ _ _ Hf) in Hb. rewrite He in Hb.
  destruct (plug_cx (f :: c) E Hb) as (col & h & b & H1 & H2 & _).
  apply rb_E_inv in H1 as [-> ->]. eauto.
Qed.

Lemma insert_ref_pos node t z x i : balanced t -> at_node t z x ->
  exists t', insert_ref node (Some z) i t = Some t' /\ balanced t' /\
    inorder t' = if i then lt_nodes z ++ x :: node :: gt_nodes z
                 else lt_nodes z ++ node :: x :: gt_nodes z.
Proof.
  destruct z as [n c]. intros Hb Hz. pose proof Hz as [Hp (l & s & r & Hn)].
  cbn [fst snd] in *. unfold insert_ref.
  destruct (child n i) as [|cl cx0 cs cr] eqn:Ec.
  - subst n. cbn [frame_of bind].
    rewrite <- Hp in Hb.
    destruct (at_leaf_h _ _ i _ Hb Ec eq_refl) as (b & Hc).
    destruct (insert_leaf_ok node _ _ _ Hc eq_refl) as (t' & E1 & (h & E2) & E3).
    exists t'. split; [exact E1|]. split; [exists false, h; exact E2|].
    rewrite E3. cbn [before after fside fid fsib]. unfold lt_nodes, gt_nodes. cbn [fst snd child] in *.
    destruct i; rewrite Ec; cbn [inorder app]; rewrite ?app_nil_r, <- ?app_assoc; cbn [app];
      rewrite <- ?app_assoc; reflexivity.
  - pose proof (step_spec t (n, c) x (negb i) Hz) as Hs.
    assert (exists z', step (n, c) (negb i) = Some z' /\ child (fst z') (negb i) = E) as (z' & Es & Ec').
    { unfold step. subst n. cbn [frame_of]. rewrite negb_involutive. rewrite Ec.
      destruct (start_spec (N cl cx0 cs cr) (mkF i x s (if i then l else r) :: c) (negb i) ltac:(discriminate))
        as (t' & c' & E1 & E2 & E3 & E4 & _). exists (t', c'). auto. }
    rewrite Es in Hs |- *. destruct z' as [n' c']. cbn [fst] in Ec'.
    destruct Hs as (y & [Hp' (l' & s' & r' & Hn')] & Hs). cbn [fst snd] in *. subst n'.
    cbn [frame_of bind]. rewrite Ec'.
    rewrite <- Hp' in Hb.
    destruct (at_leaf_h _ _ (negb i) _ Hb Ec' eq_refl) as (b & Hc).
    destruct (insert_leaf_ok node _ _ _ Hc eq_refl) as (t' & E1 & (h & E2) & E3).
    exists t'. split; [exact E1|]. split; [exists false, h; exact E2|].
    rewrite E3. cbn [before after fside fid fsib].
    destruct i; cbn [negb child] in *; destruct Hs as [Hs1 Hs2]; subst; unfold lt_nodes, gt_nodes in *;
      cbn [fst snd child app inorder] in *.
    + rewrite Hs1. rewrite !app_nil_r in *. rewrite Hs2, <- !app_assoc. reflexivity.
    + rewrite Hs1. rewrite <- app_assoc. cbn [app]. rewrite <- ?app_assoc. cbn [app].
      rewrite <- ?app_assoc. cbn [app]. rewrite Hs2. reflexivity.
Qed.

Lemma insert_ref_null node t i : balanced t ->
  exists t', insert_ref node None i t = Some t' /\ balanced t' /\
    inorder t' = if i then node :: inorder t else inorder t ++ [node].
Proof.
  intros Hb. destruct t as [|l x s r] eqn:Et.
  - exists (N E node 1 E). split.
    + unfold insert_ref. cbn [start]. rewrite (very_good_rb true 0).
      * reflexivity.
      * apply (rb_R 0 E node E); constructor.
    + split; [exists true, 0; apply (rb_R 0 E node E); constructor|]. destruct i; reflexivity.
  - rewrite <- Et in *.
    destruct (start t [] (negb i)) as [z|] eqn:Es.
    2:{ destruct (start_spec t [] (negb i)) as (? & ? & E1 & _); [subst; discriminate|congruence]. }
    pose proof (start_at _ _ _ _ Es) as (H1 & (l' & y & s' & r' & H2) & H3 & H4).
    cbn [plug] in H1. assert (at_node t z y) as A by (split; eauto).
    destruct (insert_ref_pos node t z y (negb i) Hb A) as (t' & E1 & E2 & E3).
    exists t'. split.
    { unfold insert_ref in E1 |- *. rewrite Es. exact E1. }
    split; [exact E2|]. rewrite E3. pose proof (zip_split _ _ _ A) as Sp.
    destruct i; cbn [negb before after] in *.
    + rewrite Sp. rewrite H4. reflexivity.
    + rewrite Sp. rewrite H4, <- app_assoc. reflexivity.
Qed.

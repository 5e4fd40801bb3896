(** Proofs about snap rounding: the loop that reverses a range of edges, the agendas, and the order of pixels *)
From Coq Require Import ZArith NArith List Bool Lia Arith ZifyBool Permutation.
From Verif Require Import Matq_model Matq_spec Reduce_model Reduce_spec Sweep_spec Snap_model Snap_spec.
Import ListNotations.
Local Open Scope Z_scope.

Lemma nth_mid : forall A (pre : list A) a post, nth_error (pre ++ a :: post) (length pre) = Some a.
Proof. intros. rewrite nth_error_app2 by lia. rewrite Nat.sub_diag. reflexivity. Qed.
Lemma set_mid : forall A (pre : list A) a x post, set_nth (length pre) x (pre ++ a :: post) = pre ++ x :: post.
Proof.
  intros. unfold set_nth. rewrite skipn_app, skipn_all, Nat.sub_diag. cbn [app skipn].
  rewrite firstn_app, firstn_all, Nat.sub_diag. cbn [firstn]. rewrite app_nil_r. reflexivity.
Qed.
Lemma swap_mid : forall A (pre : list A) a mid b post,
  swap (length pre) (length pre + 1 + length mid) (pre ++ a :: mid ++ b :: post) = pre ++ b :: mid ++ a :: post.
Proof.
  intros. unfold swap. rewrite nth_mid.
  assert (J : (length pre + 1 + length mid)%nat = length (pre ++ a :: mid)) by (rewrite app_length; simpl; lia).
  assert (Q : pre ++ a :: mid ++ b :: post = (pre ++ a :: mid) ++ b :: post) by (rewrite <- app_assoc; reflexivity).
  rewrite J, Q, nth_mid, set_mid, <- app_assoc. cbn [app]. apply set_mid.
Qed.
(** The loop reverses the range *)
Lemma reverse_loop_mid : forall A fuel (pre : list A) a mid b post, (length mid < fuel)%nat ->
  reverse_loop fuel (length pre) (length pre + 1 + length mid) (pre ++ a :: mid ++ b :: post) = Some (pre ++ rev (a :: mid ++ [b]) ++ post).
Proof.
  induction fuel as [|fuel IH]; intros pre a mid b post L; [lia|].
  cbn [reverse_loop]. rewrite swap_mid.
  assert (R : forall m, rev (a :: m ++ [b]) ++ post = b :: rev m ++ a :: post).
  { intros m. cbn [rev]. rewrite rev_app_distr. cbn [rev app]. rewrite <- app_assoc. reflexivity. }
  rewrite R. destruct mid as [|c mid].
  - cbn [length rev app]. replace ((length pre + 1 + 0 - 1) =? length pre)%nat with true by (symmetry; apply Nat.eqb_eq; lia). reflexivity.
  - replace ((length pre + 1 + length (c :: mid) - 1) =? length pre)%nat with false by (symmetry; apply Nat.eqb_neq; cbn [length]; lia).
    destruct mid as [|d0 mid0] using rev_ind.
    + cbn [length rev app]. replace ((length pre + 1) =? length pre + 1 + 1 - 1)%nat with true by (symmetry; apply Nat.eqb_eq; lia). reflexivity.
    + clear IHmid0. rewrite app_comm_cons, app_length. cbn [length].
      replace ((length pre + 1) =? length pre + 1 + (S (length mid0) + 1) - 1)%nat with false by (symmetry; apply Nat.eqb_neq; lia).
      replace (length pre + 1)%nat with (length (pre ++ [b])) by (rewrite app_length; reflexivity).
      replace (length (pre ++ [b]) + (S (length mid0) + 1) - 1)%nat with (length (pre ++ [b]) + 1 + length mid0)%nat by lia.
      replace (pre ++ b :: ((c :: mid0) ++ [d0]) ++ a :: post) with ((pre ++ [b]) ++ c :: mid0 ++ d0 :: a :: post)
        by (repeat (rewrite <- ?app_assoc; cbn [app]); reflexivity).
      rewrite IH by (cbn [length] in L; rewrite app_length in L; cbn [length] in L; lia).
      cbn [rev]. rewrite !rev_app_distr. cbn [rev app]. repeat (rewrite <- ?app_assoc; cbn [app]). reflexivity.
Qed.
Lemma reverse_loop_ok : forall A (l : list A) i j, (i < j)%nat -> (j < length l)%nat ->
  reverse_loop (length l) i j l = Some (firstn i l ++ rev (firstn (j - i + 1) (skipn i l)) ++ skipn (j + 1) l).
Proof.
  intros A l i j H1 H2.
  assert (HA : exists pre a r, l = pre ++ a :: r /\ length pre = i).
  { exists (firstn i l). destruct (skipn i l) as [|a r] eqn:Q.
    - apply (f_equal (@length A)) in Q. rewrite skipn_length in Q. cbn in Q. lia.
    - exists a, r. split; [rewrite <- Q; symmetry; apply firstn_skipn|apply firstn_length_le; lia]. }
  destruct HA as (pre & a & r & -> & LP). rewrite app_length in H2. cbn [length] in H2.
  assert (HB : exists mid b post, r = mid ++ b :: post /\ length mid = (j - i - 1)%nat).
  { exists (firstn (j - i - 1) r). destruct (skipn (j - i - 1) r) as [|b q] eqn:Q.
    - apply (f_equal (@length A)) in Q. rewrite skipn_length in Q. cbn in Q. lia.
    - exists b, q. split; [rewrite <- Q; symmetry; apply firstn_skipn|apply firstn_length_le; lia]. }
  destruct HB as (mid & b & post & -> & LM).
  replace j with (length pre + 1 + length mid)%nat by lia. subst i.
  rewrite reverse_loop_mid by (rewrite app_length; cbn [length]; rewrite app_length; cbn [length]; lia). f_equal.
  rewrite firstn_app, firstn_all, Nat.sub_diag. cbn [firstn]. rewrite app_nil_r. f_equal.
  rewrite skipn_app, skipn_all, Nat.sub_diag. cbn [app skipn].
  replace (length pre + 1 + length mid - length pre + 1)%nat with (length (a :: mid ++ [b])) by (cbn [length]; rewrite app_length; cbn [length]; lia).
  replace (a :: mid ++ b :: post) with ((a :: mid ++ [b]) ++ post) by (cbn [app]; rewrite <- app_assoc; reflexivity).
  rewrite firstn_app, firstn_all, Nat.sub_diag. cbn [firstn]. rewrite app_nil_r. f_equal.
  rewrite skipn_app. rewrite skipn_all2 by lia. cbn [app].
  replace (length pre + 1 + length mid + 1 - length pre)%nat with (length (a :: mid ++ [b])) by (cbn [length]; rewrite app_length; cbn [length]; lia).
  change (a :: (mid ++ [b]) ++ post) with ((a :: mid ++ [b]) ++ post). rewrite skipn_app, skipn_all, Nat.sub_diag. reflexivity.
Qed.
Lemma skip_skip : forall A (l : list A) i j, skipn i (skipn j l) = skipn (i + j) l.
Proof.
  intros A. induction l as [|a l IH]; intros i j; [rewrite !skipn_nil; reflexivity|].
  destruct j; [rewrite Nat.add_0_r; reflexivity|]. rewrite Nat.add_succ_r. cbn [skipn]. apply IH.
Qed.
Lemma reverse_loop_perm : forall A (l l' : list A) i j, (i < j)%nat -> (j < length l)%nat -> reverse_loop (length l) i j l = Some l' -> Permutation l l'.
Proof.
  intros A l l' i j H1 H2 R. rewrite reverse_loop_ok in R by assumption. assert (l' = firstn i l ++ rev (firstn (j - i + 1) (skipn i l)) ++ skipn (j + 1) l) as -> by congruence.
  rewrite <- (firstn_skipn i l) at 1. apply Permutation_app_head.
  rewrite <- (firstn_skipn (j - i + 1) (skipn i l)) at 1. rewrite skip_skip. replace (j - i + 1 + i)%nat with (j + 1)%nat by lia.
  apply Permutation_app_tail, Permutation_rev.
Qed.
Lemma index_lt : forall s l k, index_of s l = Some k -> (k < length l)%nat.
Proof.
  intros s. induction l as [|a l IH]; intros k H; [discriminate|]. cbn [index_of] in H. cbn [length].
  destruct (Nat.eqb a s); [injection H as <-; lia|]. destruct (index_of s l) as [q|]; [|discriminate]. cbn in H. injection H as <-. specialize (IH q eq_refl). lia.
Qed.
Lemma run_le : forall E it l n t k, run_length E n it t l = Some k -> (k <= length l)%nat.
Proof.
  intros E it. induction l as [|u l IH]; intros n t k H; destruct n; cbn [run_length] in H; try discriminate; [injection H as <-; lia|].
  destruct (intersection_eq E it t u); [|injection H as <-; lia]. destruct (run_length E n it u l) as [q|] eqn:Q; [|discriminate]. cbn in H. injection H as <-.
  apply IH in Q. cbn [length]. lia.
Qed.
Lemma edge_reverse_ok : forall E X south l x, edge_reverse E X south l x <> Out /\ forall l', edge_reverse E X south l x = Done l' -> Permutation l l'.
Proof.
  intros E X south l x. unfold edge_reverse. destruct (some_tb (X x) south) as [s|]; [|split; [discriminate|intros l' H; injection H as <-; auto]].
  destruct (index_of s l) as [k|] eqn:K; [|split; discriminate].
  destruct (run_length E 100 _ s (skipn (S k) l)) as [up|] eqn:U; [|split; discriminate].
  destruct (run_length E 100 _ s (rev (firstn k l))) as [dn|] eqn:D; [|split; discriminate].
  apply index_lt in K. apply run_le in U. apply run_le in D. rewrite skipn_length in U. rewrite rev_length, firstn_length_le in D by lia.
  destruct (Nat.eqb_spec (k - dn) (k + up)) as [Q|Q]; [split; [discriminate|intros l' H; injection H as <-; auto]|].
  destruct (reverse_loop (length l) (k - dn) (k + up) l) as [l'|] eqn:R.
  - split; [discriminate|]. intros l2 H. injection H as <-. eapply reverse_loop_perm; [| |exact R]; lia.
  - rewrite reverse_loop_ok in R by lia. discriminate.
Qed.

(** Minimum of an agenda *)
Lemma extract_none : forall A cmp (l : list A), extract_min cmp l = None -> l = [].
Proof. intros A cmp [|a l] H; [reflexivity|]. cbn in H. destruct (extract_min cmp l) as [[b r]|]; [destruct (cmp a b <=? 0)|]; discriminate. Qed.
Lemma extract_perm : forall A cmp (l : list A) a r, extract_min cmp l = Some (a, r) -> Permutation l (a :: r).
Proof.
  intros A cmp. induction l as [|b l IH]; intros a r H; [discriminate|]. cbn in H. destruct (extract_min cmp l) as [[c q]|] eqn:Q.
  - destruct (cmp b c <=? 0); injection H as <- <-; [auto|]. eapply Permutation_trans; [apply perm_skip, IH; reflexivity|apply perm_swap].
  - injection H as <- <-. apply extract_none in Q. subst l. auto.
Qed.
Section Order.
Variable south : bool.
Definition kle (p q : Z * Z) : Prop := ~ before south q p.
Lemma kle_trans : forall p q r, kle p q -> kle q r -> kle p r.
Proof. unfold kle, before. intros. destruct south; lia. Qed.
Lemma kle_before : forall p q r, kle p q -> before south q r -> before south p r.
Proof. unfold kle, before. intros. destruct south; lia. Qed.
Lemma before_kle : forall p q r, before south p q -> kle q r -> before south p r.
Proof. unfold kle, before. intros. destruct south; lia. Qed.
Lemma kle_ne : forall p q, kle p q -> p <> q -> before south p q.
Proof.
  unfold kle, before. intros [a b] [c d] H N. cbn [fst snd] in *. assert (a <> c \/ b <> d) by (destruct (Z.eq_dec a c), (Z.eq_dec b d); subst; auto; exfalso; apply N; auto).
  destruct south; lia.
Qed.
Lemma kle_refl : forall p, kle p p.
Proof. unfold kle, before. intros p. destruct south; lia. Qed.
Lemma before_ne : forall p q, before south p q -> vec2_cmp p q <> 0.
Proof. intros p q. unfold before, vec2_cmp, cp_cmp. destruct (Z.ltb_spec (fst p) (fst q)), (Z.ltb_spec (fst q) (fst p)), (Z.ltb_spec (snd p) (snd q)), (Z.ltb_spec (snd q) (snd p)), south; cbn; lia. Qed.
Lemma extract_kle : forall A cmp (key : A -> Z * Z), (forall a b, cmp a b <= 0 -> kle (key a) (key b)) -> (forall a b, 0 < cmp a b -> kle (key b) (key a)) ->
  forall l a r, extract_min cmp l = Some (a, r) -> forall b, In b l -> kle (key a) (key b).
Proof.
  intros A cmp key H1 H2. induction l as [|b l IH]; intros a r H; [discriminate|]. cbn in H. destruct (extract_min cmp l) as [[c q]|] eqn:Q.
  - specialize (IH _ _ eq_refl). destruct (Z.leb_spec (cmp b c) 0) as [L|L]; injection H as <- <-; intros x [<- | X].
    + apply kle_refl.
    + eapply kle_trans; [apply H1, L|apply IH, X].
    + apply H2, L.
    + apply IH, X.
  - injection H as <- <-. apply extract_none in Q. subst l. intros x [<- | []]. apply kle_refl.
Qed.
Lemma vertex2_le : forall E a b, vertex2_cmp E south a b <= 0 -> kle (coord E a) (coord E b).
Proof.
  intros E a b. unfold vertex2_cmp, kle, before, turn. generalize (cp_cmp (side b) (side a)), (cp_cmp (cross3_z (other_end E a) (coord E a) (other_end E b)) 0), (coord E a), (coord E b).
  intros s c p q. cbv zeta. unfold cp_cmp.
  destruct (Z.ltb_spec (fst p) (fst q)), (Z.ltb_spec (fst q) (fst p)), (Z.ltb_spec (snd p) (snd q)), (Z.ltb_spec (snd q) (snd p)), south; cbn; lia.
Qed.
Lemma vertex2_gt : forall E a b, 0 < vertex2_cmp E south a b -> kle (coord E b) (coord E a).
Proof.
  intros E a b. unfold vertex2_cmp, kle, before, turn. generalize (cp_cmp (side b) (side a)), (cp_cmp (cross3_z (other_end E a) (coord E a) (other_end E b)) 0), (coord E a), (coord E b).
  intros s c p q. cbv zeta. unfold cp_cmp.
  destruct (Z.ltb_spec (fst p) (fst q)), (Z.ltb_spec (fst q) (fst p)), (Z.ltb_spec (snd p) (snd q)), (Z.ltb_spec (snd q) (snd p)), south; cbn; lia.
Qed.
Lemma xing2_le : forall X a b, xing2_cmp X south a b <= 0 -> kle (xpix X a) (xpix X b).
Proof.
  intros X a b. unfold xing2_cmp, kle, before, turn. generalize (xpix X a), (xpix X b). intros p q. cbv zeta. unfold cp_cmp.
  destruct (Z.ltb_spec (fst p) (fst q)), (Z.ltb_spec (fst q) (fst p)), (Z.ltb_spec (snd p) (snd q)), (Z.ltb_spec (snd q) (snd p)), south; cbn; lia.
Qed.
Lemma xing2_gt : forall X a b, 0 < xing2_cmp X south a b -> kle (xpix X b) (xpix X a).
Proof.
  intros X a b. unfold xing2_cmp, kle, before, turn. generalize (xpix X a), (xpix X b). intros p q. cbv zeta. unfold cp_cmp.
  destruct (Z.ltb_spec (fst p) (fst q)), (Z.ltb_spec (fst q) (fst p)), (Z.ltb_spec (snd p) (snd q)), (Z.ltb_spec (snd q) (snd p)), south; cbn; lia.
Qed.

(** The pixel is the first one that has an event *)
Lemma same_pt_iff : forall a b, same_pt a b = true <-> a = b.
Proof. intros [a b] [c d]. unfold same_pt. cbn [fst snd]. rewrite andb_true_iff, !Z.eqb_eq. split; [intros [-> ->]; auto|intros H; injection H; auto]. Qed.
Variables (E : nat -> edge) (X : nat -> xing).
Lemma pixel_min : forall agv agx, (agv <> [] \/ agx <> []) -> let p := pixel E X south agv agx in
  (forall v, In v agv -> kle p (coord E v)) /\ (forall x, In x agx -> kle p (xpix X x))
  /\ ((exists v, In v agv /\ p = coord E v) \/ (exists x, In x agx /\ p = xpix X x))
  /\ next_event E X south p agv agx <> 0.
Proof.
  intros agv agx NE p. subst p. unfold pixel, next_event.
  destruct (extract_min (vertex2_cmp E south) agv) as [[v rv]|] eqn:V, (extract_min (xing2_cmp X south) agx) as [[c rc]|] eqn:C; cbn [first_of].
  4: { apply extract_none in V. apply extract_none in C. subst. tauto. }
  - pose proof (extract_kle _ _ (coord E) (vertex2_le E) (vertex2_gt E) _ _ _ V) as KV.
    pose proof (extract_kle _ _ (xpix X) (xing2_le X) (xing2_gt X) _ _ _ C) as KC.
    pose proof (Permutation_in v (Permutation_sym (extract_perm _ _ _ _ _ V)) (or_introl eq_refl)) as IV.
    pose proof (Permutation_in c (Permutation_sym (extract_perm _ _ _ _ _ C)) (or_introl eq_refl)) as IC.
    set (i := if _ =? 0 then _ else _). assert (HI : (0 < i -> kle (xpix X c) (coord E v)) /\ (i <= 0 -> kle (coord E v) (xpix X c))).
    { subst i. unfold kle, before, turn, cp_cmp. generalize (coord E v), (xpix X c). intros p q.
      destruct (Z.ltb_spec (fst p) (fst q)), (Z.ltb_spec (fst q) (fst p)), (Z.ltb_spec (snd p) (snd q)), (Z.ltb_spec (snd q) (snd p)), south; cbn; lia. }
    destruct (Z.ltb_spec 0 i) as [L|L].
    + destruct HI as [HI _]. specialize (HI L). split; [intros x H; eapply kle_trans; [exact HI|auto]|]. split; [auto|]. split; [right; eauto|].
      replace (same_pt (xpix X c) (xpix X c)) with true by (symmetry; apply same_pt_iff; auto). destruct (0 <? _); [discriminate|]. destruct (same_pt _ _); discriminate.
    + destruct HI as [_ HI]. specialize (HI L). split; [auto|]. split; [intros x H; eapply kle_trans; [exact HI|auto]|]. split; [left; eauto|].
      replace (same_pt (coord E v) (coord E v)) with true by (symmetry; apply same_pt_iff; auto).
      match goal with |- (if ?b then _ else _) <> _ => destruct b; discriminate end.
  - pose proof (extract_kle _ _ (coord E) (vertex2_le E) (vertex2_gt E) _ _ _ V) as KV.
    pose proof (Permutation_in v (Permutation_sym (extract_perm _ _ _ _ _ V)) (or_introl eq_refl)) as IV.
    apply extract_none in C. subst agx. split; [auto|]. split; [intros x []|]. split; [left; eauto|].
    replace (same_pt (coord E v) (coord E v)) with true by (symmetry; apply same_pt_iff; auto). discriminate.
  - pose proof (extract_kle _ _ (xpix X) (xing2_le X) (xing2_gt X) _ _ _ C) as KC.
    pose proof (Permutation_in c (Permutation_sym (extract_perm _ _ _ _ _ C)) (or_introl eq_refl)) as IC.
    apply extract_none in V. subst agv. split; [intros x []|]. split; [auto|]. split; [right; eauto|].
    replace (same_pt (xpix X c) (xpix X c)) with true by (symmetry; apply same_pt_iff; auto). destruct (0 <? _); discriminate.
Qed.
(** The kinds of events; after the last event in a pixel all others are in later ones *)
Lemma event_1 : forall p agv agx, next_event E X south p agv agx = 1 -> exists v r, extract_min (vertex2_cmp E south) agv = Some (v, r) /\ coord E v = p.
Proof.
  intros p agv agx H. unfold next_event in H. match type of H with (if ?b then _ else _) = _ => destruct b; [discriminate|] end.
  destruct (extract_min (vertex2_cmp E south) agv) as [[v r]|]; cbn [first_of] in H.
  - destruct (same_pt (coord E v) p) eqn:Q; [apply same_pt_iff in Q; eauto|]. destruct (match first_of (extract_min (xing2_cmp X south) agx) with Some _ => _ | None => _ end); discriminate.
  - destruct (match first_of (extract_min (xing2_cmp X south) agx) with Some _ => _ | None => _ end); discriminate.
Qed.
Lemma event_2 : forall p agv agx, next_event E X south p agv agx <> 0 -> next_event E X south p agv agx <> 1 -> exists x r, extract_min (xing2_cmp X south) agx = Some (x, r) /\ xpix X x = p.
Proof.
  intros p agv agx H1 H2. unfold next_event in *. destruct (extract_min (xing2_cmp X south) agx) as [[c r]|]; cbn [first_of] in *.
  - destruct (same_pt p (xpix X c)) eqn:Q; [apply same_pt_iff in Q; subst; eauto|].
    destruct (first_of (extract_min (vertex2_cmp E south) agv)) as [v|]; [destruct (same_pt (coord E v) p)|]; lia.
  - destruct (first_of (extract_min (vertex2_cmp E south) agv)) as [v|]; [destruct (same_pt (coord E v) p)|]; lia.
Qed.
Lemma event_0 : forall p agv agx, next_event E X south p agv agx = 0 ->
  (forall v, In v agv -> kle p (coord E v)) -> (forall x, In x agx -> kle p (xpix X x)) ->
  (forall v, In v agv -> before south p (coord E v)) /\ (forall x, In x agx -> before south p (xpix X x)).
Proof.
  intros p agv agx H KV KX. unfold next_event in H.
  match type of H with (if ?b then _ else _) = _ => destruct b eqn:B0; [discriminate|clear B0] end. split.
  - destruct (extract_min (vertex2_cmp E south) agv) as [[v r]|] eqn:V; cbn [first_of] in H; [|apply extract_none in V; subst; intros ? []].
    destruct (same_pt (coord E v) p) eqn:Q; [discriminate|]. intros w W.
    pose proof (Permutation_in v (Permutation_sym (extract_perm _ _ _ _ _ V)) (or_introl eq_refl)) as IV.
    eapply before_kle; [apply kle_ne; [apply KV, IV|]|eapply extract_kle; [apply vertex2_le|apply vertex2_gt|exact V|exact W]].
    intros Q2. rewrite <- Q2 in Q. rewrite (proj2 (same_pt_iff p p) eq_refl) in Q. discriminate.
  - destruct (extract_min (xing2_cmp X south) agx) as [[c r]|] eqn:C; cbn [first_of] in H; [|apply extract_none in C; subst; intros ? []].
    assert (Q : same_pt p (xpix X c) = false).
    { destruct (same_pt p (xpix X c)); [|reflexivity]. destruct (first_of (extract_min (vertex2_cmp E south) agv)) as [v|]; [destruct (same_pt (coord E v) p)|]; discriminate. }
    intros w W. pose proof (Permutation_in c (Permutation_sym (extract_perm _ _ _ _ _ C)) (or_introl eq_refl)) as IC.
    eapply before_kle; [apply kle_ne; [apply KX, IC|]|eapply extract_kle; [apply xing2_le|apply xing2_gt|exact C|exact W]].
    intros Q2. rewrite <- Q2 in Q. rewrite (proj2 (same_pt_iff p p) eq_refl) in Q. discriminate.
Qed.
End Order.

(** C46: the hull command yields the convex hull of the points *)
From Coq Require Import ZArith Bool List Lia Arith Permutation Sorting.Sorted ZifyBool Psatz.
From Verif Require Import Hull_model Hull_spec Hull_proofs Hull_proofs2.
Import ListNotations.
Local Open Scope Z_scope.

(** For every list of points, and every sorting function: the result has points of the input only, is a strictly convex polygon in clockwise
    order, and every point of the input is in the convex hull of the result.  [T]: the squared distances that the comparison tells
    apart; the default is 2048.  Missing for C46: points that are not [spread]; for those, see [C46_hull_refuted]. *)
Theorem C46_hull_partial : forall sort T l, 0 < T -> spread T l -> (2 < length l)%nat -> (forall F, is_first l F -> sorted_by (y_angle_cmp T F) l (sort (y_angle_cmp T F) l)) ->
  exists h, hull sort T l = Some h /\ incl h l /\ convex h /\ (forall q, In q l -> within h q) /\ (2 <= length h)%nat.
Proof. exact hull_ok. Qed.
(** With exact comparisons (T = 1), there is no condition for the points *)
Theorem C46_exact : forall sort l, (2 < length l)%nat -> (forall F, is_first l F -> sorted_by (y_angle_cmp 1 F) l (sort (y_angle_cmp 1 F) l)) ->
  exists h, hull sort 1 l = Some h /\ incl h l /\ convex h /\ (forall q, In q l -> within h q) /\ (2 <= length h)%nat.
Proof. intros sort l. apply hull_ok; [lia|]. intros f a b _ _ _ _. lia. Qed.
Fixpoint insert (cmp : point -> point -> Z) (p : point) (l : list point) : list point := match l with [] => [p] | q :: l' => if cmp p q <=? 0 then p :: l else q :: insert cmp p l' end.
Definition isort (cmp : point -> point -> Z) (l : list point) : list point := fold_right (insert cmp) [] l.
Fixpoint sorted_b (cmp : point -> point -> Z) (l : list point) : bool := match l with [] => true | a :: r => forallb (fun b => cmp a b <=? 0) r && sorted_b cmp r end.
Lemma sorted_b_ok cmp l : sorted_b cmp l = true -> StronglySorted (fun a b => cmp a b <= 0) l.
Proof. induction l as [|a r IH]; cbn; intros H; [constructor|]. apply andb_prop in H as (H1 & H2). constructor; auto. rewrite forallb_forall in H1. apply Forall_forall. intros b I. specialize (H1 b I). lia. Qed.
Definition ex : list point := [(400, 0); (200, 100); (0, 400); (0, 0); (400, 400); (200, 0); (0, 200); (400, 200)].
Lemma first_ex F : is_first ex F -> F = (0, 0).
Proof. intros (A & B). specialize (B (0, 0) ltac:(cbn; tauto)). cbn in A. unfold lower in B. repeat (destruct A as [<-|A]; [cbn in B; (reflexivity || lia)|]). destruct A. Qed.
Example C46_hull_ex : spread 2048 ex /\ (forall F, is_first ex F -> sorted_by (y_angle_cmp 2048 F) ex (isort (y_angle_cmp 2048 F) ex)) /\
  hull isort 2048 ex = Some [(0, 0); (0, 400); (400, 400); (400, 0)].
Proof.
  split; [|split; [|reflexivity]].
  - intros f a b H. apply first_ex in H. subst f. intros Ha Hb Z0.
    assert (K : forallb (fun a => forallb (fun b => negb (area2 (0, 0) a b =? 0) || (dist2 (0, 0) a =? dist2 (0, 0) b) || (2048 <=? Z.abs (dist2 (0, 0) a - dist2 (0, 0) b))) ex) ex = true) by (vm_compute; reflexivity).
    rewrite forallb_forall in K. specialize (K a Ha). cbv beta in K. rewrite forallb_forall in K. specialize (K b Hb). lia.
  - intros F H. apply first_ex in H. subst F. split.
    + change ex with ([(400, 0); (200, 100); (0, 400); (0, 0); (400, 400); (200, 0); (0, 200); (400, 200)] : list point).
      replace (isort (y_angle_cmp 2048 (0, 0)) [(400, 0); (200, 100); (0, 400); (0, 0); (400, 400); (200, 0); (0, 200); (400, 200)])
        with ([(0, 0); (0, 200); (0, 400); (400, 400); (200, 100); (400, 200); (200, 0); (400, 0)] : list point) by (vm_compute; reflexivity).
      apply NoDup_Permutation; [repeat constructor; cbn; intuition discriminate|repeat constructor; cbn; intuition discriminate|]. intros x. cbn. tauto.
    + apply sorted_b_ok. vm_compute. reflexivity.
Qed.
(** For all points, and all edges of the result including the last one: no point is on the left side of the edge *)
Theorem C46_sides : forall (h : list point) (q : point) i j a b, convex h -> within h q -> (j = S i \/ S i = length h /\ j = 0%nat) ->
  nth_error h i = Some a -> nth_error h j = Some b -> 0 <= area2 a b q.
Proof.
  intros h q i j a b C (W & WP & H) J A B.
  assert (K : forall p, In p h -> 0 <= area2 a b p).
  { intros p I. apply In_nth_error in I as (k & K). assert (LK : (k < length h)%nat) by (apply nth_error_Some; congruence). assert (LI : (i < length h)%nat) by (apply nth_error_Some; congruence).
    destruct (Nat.eq_dec k i) as [->|Ni]; [assert (p = a) by congruence; subst; unfold area2; lia|]. destruct (Nat.eq_dec k j) as [->|Nj]; [assert (p = b) by congruence; subst; unfold area2; lia|].
    destruct J as [->|(E & ->)].
    - destruct (Nat.lt_ge_cases k i); [pose proof (C k i (S i) p a b ltac:(lia) K A B) as Q|pose proof (C i (S i) k a b p ltac:(lia) A B K) as Q]; unfold area2 in *; lia.
    - pose proof (C 0%nat k i b p a ltac:(lia) B K A) as Q. unfold area2 in *. lia. }
  assert (G : forall V X Y, weighted h V X Y -> 0 <= (X - V * fst a) * (snd b - snd a) - (fst b - fst a) * (Y - V * snd a)).
  { induction 1 as [|p w V X Y I P H' IH]; [lia|]. specialize (K p I). unfold area2 in K. replace ((X + w * fst p - (V + w) * fst a) * (snd b - snd a) - (fst b - fst a) * (Y + w * snd p - (V + w) * snd a)) with (((X - V * fst a) * (snd b - snd a) - (fst b - fst a) * (Y - V * snd a)) + w * ((fst p - fst a) * (snd b - snd a) - (fst b - fst a) * (snd p - snd a))) by ring. nia. }
  specialize (G _ _ _ H). replace ((W * fst q - W * fst a) * (snd b - snd a) - (fst b - fst a) * (W * snd q - W * snd a)) with (W * area2 a b q) in G by (unfold area2; ring). nia.
Qed.
Example C46_sides_ex : convex [(0, 0); (0, 400); (400, 400); (400, 0)] /\ within [(0, 0); (0, 400); (400, 400); (400, 0)] (200, 100).
Proof.
  split.
  - intros i j k a b c L A B D. do 4 (destruct i as [|i]; [cbn in A; inversion A; subst; do 4 (destruct j as [|j]; [try lia; cbn in B; inversion B; subst; do 4 (destruct k as [|k]; [try lia; cbn in D; inversion D; subst; vm_compute; reflexivity|]); cbn in D; destruct k; discriminate|]); cbn in B; destruct j; discriminate|]). cbn in A. destruct i; discriminate.
  - apply (within3 _ (0, 0) (400, 400) (400, 0) (200, 100) 2 1 1); cbn; try lia; auto.
Qed.
(** The comparison is a total preorder, as qsort_r requires *)
Theorem C46_order : forall T l F, 0 < T -> spread T l -> is_first l F ->
  (forall a b, Z.sgn (y_angle_cmp T F a b) = - Z.sgn (y_angle_cmp T F b a)) /\
  (forall a b c, In a l -> In b l -> In c l -> y_angle_cmp T F a b <= 0 -> y_angle_cmp T F b c <= 0 -> y_angle_cmp T F a c <= 0).
Proof.
  intros T l F HT SP FI.
  assert (AS : forall a b, Z.sgn (y_angle_cmp T F a b) = - Z.sgn (y_angle_cmp T F b a)).
  { intros a b. unfold y_angle_cmp, normal3. rewrite !cross_area. replace (area2 b F a) with (- area2 a F b) by (unfold area2; ring). unfold e_cmp. set (x := area2 a F b). set (y := sqr_dist F a). set (z := sqr_dist F b). destruct (Z.sgn_spec x) as [(H & E)|[(H & E)|(H & E)]], (Z.sgn_spec (- x)) as [(H' & E')|[(H' & E')|(H' & E')]]; rewrite E, E'; try lia; cbn [Z.eqb negb]; try reflexivity.
    destruct (Z.abs (y - z) <? T) eqn:Q, (Z.abs (z - y) <? T) eqn:Q', (y <? z) eqn:Q1, (z <? y) eqn:Q2; try lia; reflexivity. }
  split; auto. intros a b c Ia Ib Ic H1 H2.
  pose proof (cmp_ord T l F a b HT SP FI Ia Ib H1) as (O1 & D1). pose proof (cmp_ord T l F b c HT SP FI Ib Ic H2) as (O2 & D2).
  assert (DZ : forall p, dist2 F p <= 0 -> p = F) by (intros (px, py) H; unfold dist2 in H; destruct F as (fx, fy); cbn [fst snd] in *; f_equal; nia). assert (DP : forall p, 0 <= dist2 F p) by (intros; unfold dist2; nia). assert (DF : dist2 F F = 0) by (unfold dist2; ring).
  assert (O : ord F a c).
  { destruct (list_eq_dec Z.eq_dec [fst b; snd b] [fst F; snd F]) as [E|E].
    - assert (b = F) by (destruct b, F; cbn in E; congruence). subst b. assert (a = F) by (apply DZ; rewrite <- DF; apply D1; unfold area2; ring). subst a. split; [unfold area2; lia|intros _; rewrite DF; auto].
    - assert (NB : b <> F) by (intros ->; auto). destruct (turn_trans0 F a b c ltac:(apply FI; auto) ltac:(apply FI; auto) ltac:(apply FI; auto) NB O1 O2) as (X & Y). split; auto. intros Z0. destruct (Y Z0) as [(Y1 & Y2)|[-> | ->]]; [specialize (D1 Y1); specialize (D2 Y2); lia|rewrite DF; auto|]. exfalso. apply NB. apply DZ. rewrite <- DF. apply D2. unfold area2. ring. }
  destruct O as (O & D). unfold y_angle_cmp, normal3. rewrite cross_area. replace (area2 a F c) with (- area2 F a c) by (unfold area2; ring). destruct (Z.sgn_spec (- area2 F a c)) as [(H & E)|[(H & E)|(H & E)]]; rewrite E; cbn [Z.eqb negb Z.opp]; try lia. specialize (D ltac:(lia)). unfold e_cmp. rewrite !sqr_dist_eq. destruct (Z.abs (dist2 F a - dist2 F c) <? T) eqn:Q3; [lia|]. destruct (dist2 F a <? dist2 F c) eqn:Q; lia.
Qed.
Example C46_order_ex : is_first ex (0, 0) /\ y_angle_cmp 2048 (0, 0) (0, 200) (0, 400) = -1 /\ y_angle_cmp 2048 (0, 0) (0, 400) (400, 400) = -1.
Proof. split; [|split; reflexivity]. split; [cbn; tauto|]. intros p H. cbn in H. unfold lower. repeat (destruct H as [<-|H]; [cbn; lia|]). destruct H. Qed.

(** With the default, T = 2048: a point of the hull is lost, because distances below 45 grid units are taken to be equal *)
Theorem C46_hull_refuted : exists l, (forall F, is_first l F -> sorted_by (y_angle_cmp 2048 F) l l) /\
  exists h q, hull (fun _ l => l) 2048 l = Some h /\ In q l /\ ~ within h q.
Proof.
  exists [(0, 0); (0, 40); (0, 10); (30, 0)]. split.
  - intros F (A & B). specialize (B (0, 0) ltac:(cbn; tauto)). assert (F = (0, 0)). { cbn in A. unfold lower in B. repeat (destruct A as [<-|A]; [cbn in B; (reflexivity || lia)|]). destruct A. } subst F. split; [apply Permutation_refl|]. apply sorted_b_ok. vm_compute. reflexivity.
  - exists [(0, 0); (0, 10); (30, 0)], (0, 40). split; [reflexivity|]. split; [cbn; tauto|]. intros (W & P & H).
    assert (G : forall V X Y, weighted [(0, 0); (0, 10); (30, 0)] V X Y -> Y <= 10 * V) by (induction 1 as [|p w V X Y I P' H' IH]; [lia|]; cbn in I; destruct I as [<-|[<-|[<-|[]]]]; cbn [snd]; lia).
    specialize (G _ _ _ H). cbn [snd] in G. lia.
Qed.

Print Assumptions C46_hull_partial.
Print Assumptions C46_exact.
Print Assumptions C46_sides.
Print Assumptions C46_order.
Print Assumptions C46_hull_refuted.

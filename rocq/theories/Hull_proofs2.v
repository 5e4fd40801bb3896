(** C46: the scan *)
From Coq Require Import ZArith Bool List Lia Arith Permutation Sorting.Sorted ZifyBool Psatz.
From Verif Require Import Hull_model Hull_spec Hull_proofs.
Import ListNotations.
Local Open Scope Z_scope.

(** ** The stack: [u] is what is above the first point, top first *)
Section Stack.
Variable F : pt.
Fixpoint pops (p : pt) (u : list pt) : list pt := match u with [] => [] | t :: r => if 0 <? R (hd F r) t p then u else pops p r end.
Fixpoint graham (u l : list pt) : list pt := match l with [] => u | p :: l => graham (p :: pops p u) l end.
Fixpoint cvx (u : list pt) : Prop :=
  match u with [] => True | t :: r => (forall a, In a r -> 0 < R F a t) /\ ForallOrdPairs (fun m i => 0 < R i m t) r /\ cvx r end.
Fixpoint ordered (u : list pt) : Prop := match u with [] => True | t :: r => (forall a, In a r -> ord F a t) /\ ordered r end.
Lemma pops_suffix p u : exists v, u = v ++ pops p u.
Proof. induction u as [|t r (v & IH)]; cbn; [exists []; auto|]. destruct (0 <? _); [exists []; auto|]. exists (t :: v). cbn. now f_equal. Qed.
Lemma cvx_suffix v u : cvx (v ++ u) -> cvx u.
Proof. induction v as [|x v IH]; cbn; auto. tauto. Qed.
Lemma ordered_suffix v u : ordered (v ++ u) -> ordered u.
Proof. induction v as [|x v IH]; cbn; auto. tauto. Qed.
(** what is kicked out is within the rest *)
Lemma pops_within p u q : lower F p -> Forall (lower F) u -> ordered u -> (forall x, In x u -> ord F x p) -> ord F F p ->
  within (p :: u ++ [F]) q -> within (p :: pops p u ++ [F]) q.
Proof.
  intros Lp. induction u as [|t r IH]; intros L O P PF W; auto. cbn [pops]. destruct (0 <? R (hd F r) t p) eqn:E; auto.
  inversion L; subst. destruct O as (O1 & O2). apply IH; auto; [intros x Hx; apply P; now right|].
  eapply within_trans; [|exact W]. intros x [<-|[<-|I]]; [apply within_in; now left| |apply within_in; now right].
  assert (S1 : ord F (hd F r) t). { destruct r as [|s r]; cbn; [|apply O1; now left]. split; unfold area2; [lia|]. unfold dist2. nia. }
  apply (kicked F (hd F r) t p); auto; [apply P; now left|lia|right; rewrite in_app_iff; right; now left| |now left].
  right. rewrite in_app_iff. destruct r; [right|left]; now left.
Qed.
Lemma area_rot a b c : R a b c = R b c a. Proof. unfold area2. ring. Qed.
(** a point that stays makes a convex polygon *)
Lemma push_cvx p u : lower F p -> Forall (lower F) u -> (forall x, In x u -> ord F x p) -> cvx u ->
  match u with [] => True | t :: r => 0 < R (hd F r) t p end -> cvx (p :: u).
Proof.
  intros Lp L O C H. destruct u as [|t r]; [cbn; repeat split; auto; [tauto|constructor]|].
  destruct C as (C1 & C2 & C3). inversion L as [|? ? Lt Lr]; subst. rewrite Forall_forall in Lr.
  assert (A : 0 < R F t p). { destruct r as [|s r]; [exact H|]. cbn in H. destruct (O t ltac:(now left)) as (O1 & O2). destruct (Z.eq_dec (R F t p) 0) as [E|]; [|lia]. pose proof (ray_turn F s t p Lt Lp (C1 s ltac:(now left)) E (O2 E)). lia. }
  assert (B : forall a, In a r -> 0 < R a t p).
  { intros a I. destruct r as [|s r]; [destruct I|]. cbn in H. destruct I as [->|I]; auto. inversion C2 as [|? ? C2a C2b]; subst. rewrite Forall_forall in C2a. pose proof (C1 s ltac:(now left)) as X1. pose proof (C1 a ltac:(now right)) as X2. pose proof (C2a a I) as X3.
    assert (G : R F s t * R a t p = R a s t * R F t p + R F a t * R s t p) by (unfold area2; ring). apply Z.lt_nge. intros N. assert (R F s t * R a t p <= 0) by (apply Z.mul_nonneg_nonpos; lia). assert (0 < R a s t * R F t p) by (apply Z.mul_pos_pos; lia). assert (0 < R F a t * R s t p) by (apply Z.mul_pos_pos; lia). lia. }
  assert (D : forall m, In m r -> 0 < R F m p) by (intros m I; apply (turn_trans F m t p); auto).
  assert (E : ForallOrdPairs (fun m i => 0 < R i m p) r).
  { cbn in C3. clear H L O. induction r as [|m r IH]; [constructor|]. inversion C2 as [|? ? C2a C2b]; subst. destruct C3 as (C3a & C3b & C3c). constructor.
    - rewrite Forall_forall in C2a |- *. intros i I. pose proof (C2a i I) as Y1. pose proof (C3a i I) as Y2. pose proof (D m ltac:(now left)) as Y3. pose proof (B m ltac:(now left)) as Y4. pose proof (C1 m ltac:(now left)) as Y5.
      assert (G : R F m t * R i m p = R m t p * R F i m + R F m p * R i m t) by (unfold area2; ring). apply Z.lt_nge. intros N. assert (R F m t * R i m p <= 0) by (apply Z.mul_nonneg_nonpos; lia). assert (0 < R m t p * R F i m) by (apply Z.mul_pos_pos; lia). assert (0 < R F m p * R i m t) by (apply Z.mul_pos_pos; lia). lia.
    - apply IH; auto; try (intros; apply C1 || apply B || apply D || apply Lr; now right). }
  cbn [cvx]. repeat split; auto; [intros a [<-|I]; auto|]. constructor; auto. apply Forall_forall. auto.
Qed.
Lemma pops_test p u : match pops p u with [] => True | t :: r => 0 < R (hd F r) t p end.
Proof. induction u as [|t r IH]; cbn; auto. destruct (0 <? R (hd F r) t p) eqn:E; auto. lia. Qed.
Lemma graham_ok l : forall u done, lower F F -> Forall (lower F) u -> Forall (lower F) l -> cvx u -> ordered u -> (forall x y, In x (F :: u) -> In y l -> ord F x y) -> StronglySorted (ord F) l ->
  (forall q, In q done -> within (u ++ [F]) q) -> incl u done ->
  cvx (graham u l) /\ (forall q, In q (done ++ l) -> within (graham u l ++ [F]) q) /\ incl (graham u l) (done ++ l).
Proof.
  induction l as [|p l IH]; intros u done LF Lu Ll C O X S W I; cbn [graham]; [rewrite app_nil_r; auto|].
  inversion Ll as [|? ? Lp Ll']; subst. inversion S as [|? ? S1 S2]; subst. rewrite Forall_forall in S2. destruct (pops_suffix p u) as (v & E).
  assert (SUB : forall x, In x (pops p u) -> In x u) by (intros x H; rewrite E, in_app_iff; auto).
  assert (Lu' : Forall (lower F) (pops p u)) by (rewrite Forall_forall in *; auto).
  assert (C' : cvx (p :: pops p u)). { apply push_cvx; auto; [intros x H; apply X; [right; auto|now left]|rewrite E in C; eapply cvx_suffix; eauto|apply pops_test]. }
  destruct (IH (p :: pops p u) (done ++ [p])) as (A & B & D); auto.
  - cbn. split; [intros a H; apply X; [right; auto|now left]|]. rewrite E in O. eapply ordered_suffix; eauto.
  - intros x y [<-|[<-|Hx]] Hy; [apply X; [now left|now right]|auto|apply X; [right; auto|now right]].
  - intros q H. rewrite in_app_iff in H. destruct H as [H|[<-|[]]]; [|apply within_in; now left]. cbn [app]. apply pops_within; auto.
    + intros x Hx. apply X; [now right|now left].
    + apply X; [now left|now left].
    + eapply within_incl; [|apply W; auto]. intros x Hx. now right.
  - intros x [<-|Hx]; rewrite in_app_iff; [right; now left|left; auto].
  - rewrite <- !app_assoc in *. cbn [app] in *. auto.
Qed.
(** the points in their order *)
Lemma fop_rev (P : pt -> pt -> Prop) r : ForallOrdPairs P r -> forall i j a b, (i < j)%nat -> nth_error (rev r) i = Some a -> nth_error (rev r) j = Some b -> P b a.
Proof.
  induction 1 as [|m r A H IH]; intros i j a b L Ia Ib; [destruct i; discriminate|]. cbn [rev] in *. assert (J : (j < length (rev r ++ [m]))%nat) by (apply nth_error_Some; congruence). rewrite app_length in J. cbn in J.
  rewrite nth_error_app1 in Ia by lia. destruct (Nat.lt_ge_cases j (length (rev r))).
  - rewrite nth_error_app1 in Ib by lia. apply (IH i j a b); auto.
  - rewrite nth_error_app2 in Ib by lia. replace (j - length (rev r))%nat with 0%nat in Ib by lia. cbn in Ib. inversion Ib; subst. rewrite Forall_forall in A. apply A. apply nth_error_In in Ia. now apply in_rev.
Qed.
Lemma cvx_convex u : cvx u -> convex (F :: rev u).
Proof.
  induction u as [|t r IH]; intros C.
  - intros i j k a b c (L1 & L2) A B D. destruct k as [|k]; [lia|]. destruct k; discriminate.
  - destruct C as (C1 & C2 & C3). specialize (IH C3). intros i j k a b c (L1 & L2) A B D. cbn [rev] in *. change (F :: rev r ++ [t]) with ((F :: rev r) ++ [t]) in *. assert (K : (k < length ((F :: rev r) ++ [t]))%nat) by (apply nth_error_Some; intros N; pose proof (eq_trans (eq_sym N) D); discriminate). rewrite app_length in K. cbn [length] in K.
    rewrite nth_error_app1 in A by (cbn; lia). rewrite nth_error_app1 in B by (cbn; lia). destruct (Nat.lt_ge_cases k (length (F :: rev r))) as [KL|KL]; cbn [length] in KL.
    + rewrite nth_error_app1 in D by (cbn; lia). eapply (IH i j k); eauto.
    + rewrite nth_error_app2 in D by (cbn; lia). replace (k - length (F :: rev r))%nat with 0%nat in D by (cbn; lia). cbn in D. inversion D; subst. destruct j as [|j]; [lia|]. cbn in B. destruct i as [|i]; cbn in A.
      * inversion A; subst. apply C1. apply nth_error_In in B. now apply in_rev.
      * apply (fop_rev _ r C2 i j a b); auto. lia.
Qed.
End Stack.

(** ** The vector *)
Lemma upd_length l : forall i p, length (upd l i p) = length l.
Proof. induction l as [|x l IH]; intros [|i] p; cbn; auto. Qed.
Lemma upd_firstn l : forall i p, (i < length l)%nat -> firstn (S i) (upd l i p) = firstn i l ++ [p].
Proof. induction l as [|x l IH]; intros [|i] p L; cbn in *; try lia; auto. f_equal. apply IH. lia. Qed.
Lemma upd_skipn l : forall i j p, (i < j)%nat -> skipn j (upd l i p) = skipn j l.
Proof. induction l as [|x l IH]; intros [|i] [|j] p L; cbn in *; try lia; auto. apply IH. lia. Qed.
Lemma nth_skipn {A} (l : list A) : forall i x r, skipn i l = x :: r -> nth_error l i = Some x /\ skipn (S i) l = r.
Proof. induction l as [|y l IH]; intros [|i] x r H; cbn in *; try discriminate; [inversion H; auto|]. apply IH. exact H. Qed.
Lemma nth_first {A} (l : list A) n i : (i < n)%nat -> nth_error (firstn n l) i = nth_error l i.
Proof. revert n i. induction l as [|x l IH]; intros [|n] [|i] L; cbn; try lia; auto. apply IH. lia. Qed.
Lemma kick_ok F point i p last : forall u, length u = last -> firstn (S last) point = rev (u ++ [F]) -> nth_error point i = Some p -> (last < length point)%nat ->
  kick point i last = Some (length (pops F p u)) /\ firstn (S (length (pops F p u))) point = rev (pops F p u ++ [F]) /\ (length (pops F p u) <= last)%nat.
Proof.
  induction last as [|last IH]; intros u Lu Hf Hp Lp.
  - destruct u; [|discriminate]. cbn [kick pops length]. repeat split; auto.
  - destruct u as [|t r]; [discriminate|]. cbn [length] in Lu. cbn [kick]. rewrite Hp.
    assert (N1 : nth_error point (S last) = Some t). { rewrite <- (nth_first point (S (S last))) by lia. rewrite Hf. cbn [app rev]. rewrite nth_error_app2 by (rewrite rev_length, app_length; cbn; lia). rewrite rev_length, app_length. replace (S last - (length r + length [F]))%nat with 0%nat by (change (length [F]) with 1%nat; lia). reflexivity. }
    assert (Hf' : firstn (S last) point = rev (r ++ [F])). { replace (S last) with (Nat.min (S last) (S (S last))) by lia. rewrite <- firstn_firstn, Hf. cbn [app rev]. rewrite firstn_app, rev_length, app_length. cbn [length]. replace (S last - (length r + 1))%nat with 0%nat by lia. rewrite firstn_O, app_nil_r, firstn_all2; auto. rewrite rev_length, app_length. cbn. lia. }
    assert (N2 : nth_error point last = Some (hd F r)). { rewrite <- (nth_first point (S last)) by lia. rewrite Hf'. destruct r as [|s r]; cbn in *; [now replace last with 0%nat by lia|]. rewrite nth_error_app2 by (rewrite rev_length, app_length; cbn; lia). rewrite rev_length, app_length. replace (last - (length r + length [F]))%nat with 0%nat by (change (length [F]) with 1%nat; lia). reflexivity. }
    rewrite N1, N2, normal_pos. cbn [pops]. destruct (0 <? R (hd F r) t p).
    + cbn [length]. rewrite Lu. split; [auto|]. split; [exact Hf|lia].
    + destruct (IH r ltac:(lia) Hf' Hp ltac:(lia)) as (A & B & C). split; [auto|]. split; [auto|lia].
Qed.
Lemma scan_ok F rest : forall point i u, firstn (S (length u)) point = rev (u ++ [F]) -> (length u < i)%nat -> skipn i point = rest ->
  exists point' , scan point (length rest) i (length u) = Some (point', length (graham F u rest)) /\ firstn (S (length (graham F u rest))) point' = F :: rev (graham F u rest) /\
    (length point > 0 -> length (graham F u rest) < length point')%nat.
Proof.
  induction rest as [|p rest IH]; intros point i u Hf L Hs; cbn [length scan graham].
  - exists point. split; auto. rewrite Hf, rev_app_distr. split; auto. intros Q. assert (X : length (firstn (S (length u)) point) = S (length u)) by (rewrite Hf, rev_length, app_length; cbn; lia). rewrite firstn_length in X. lia.
  - apply nth_skipn in Hs as (Np & Hs). assert (LI : (i < length point)%nat) by (apply nth_error_Some; congruence).
    destruct (kick_ok F point i p (length u) u eq_refl Hf Np ltac:(lia)) as (A & B & C). rewrite A, Np. set (v := pops F p u) in *. destruct (nth_error point (S (length v))) as [x|] eqn:Nx; [|apply nth_error_None in Nx; lia].
    destruct (IH (upd point (S (length v)) p) (S i) (p :: v)) as (point' & A' & B' & C').
    + cbn [length app rev]. rewrite upd_firstn by lia. now rewrite B.
    + cbn. lia.
    + rewrite upd_skipn by lia. exact Hs.
    + exists point'. cbn [length] in A'. split; [exact A'|]. split; auto. intros Q. apply C'. rewrite upd_length. auto.
Qed.

(** ** The first point and the order *)
Lemma lower_refl a : lower a a. Proof. unfold lower. lia. Qed.
Lemma lower_trans a b c : lower a b -> lower b c -> lower a c. Proof. unfold lower. lia. Qed.
Lemma lex_lower a b : lex_cmp a b < 0 -> lower a b. Proof. unfold lex_cmp, lower. repeat (match goal with |- context [if ?c then _ else _] => destruct c eqn:? end); lia. Qed.
Lemma lex_not a b : ~ lex_cmp a b < 0 -> lower b a. Proof. unfold lex_cmp, lower. repeat (match goal with |- context [if ?c then _ else _] => destruct c eqn:? end); lia. Qed.
Lemma lowest_ok l : forall p, is_first (p :: l) (lowest l p).
Proof.
  induction l as [|x l IH]; intros p; [split; [now left|]; intros q [<-|[]]; apply lower_refl|]. unfold lowest in *. cbn [fold_left]. destruct (lex_cmp x p <? 0) eqn:E.
  - destruct (IH x) as (A & B). split; [now right|]. intros q [<-|I]; [|auto]. apply (lower_trans _ x); [apply B; now left|]. apply lex_lower. lia.
  - destruct (IH p) as (A & B). split; [destruct A; [now left|right; now right]|]. intros q [<-|[<-|I]]; [apply B; now left| |apply B; now right]. apply (lower_trans _ p); [apply B; now left|]. apply lex_not. lia.
Qed.
Lemma sqr_dist_eq a b : sqr_dist a b = dist2 a b. Proof. unfold sqr_dist, dist2. ring. Qed.
Lemma cmp_ord T l F a b : 0 < T -> spread T l -> is_first l F -> In a l -> In b l -> y_angle_cmp T F a b <= 0 -> ord F a b.
Proof.
  intros HT SP FI Ia Ib. unfold y_angle_cmp, normal3. rewrite cross_area. replace (R a F b) with (- R F a b) by (unfold area2; ring). destruct (Z.sgn (- R F a b) =? 0) eqn:E; cbn [negb].
  - assert (Z0 : R F a b = 0) by (destruct (Z.sgn_spec (- R F a b)); lia). unfold e_cmp. rewrite !sqr_dist_eq. intros H. split; [lia|]. intros _. destruct (SP F a b FI Ia Ib Z0) as [Q|Q]; [lia|]. destruct (Z.abs _ <? T) eqn:Q1; [lia|]. destruct (dist2 F a <? dist2 F b) eqn:Q2; lia.
  - intros H. split; destruct (Z.sgn_spec (- R F a b)); lia.
Qed.
Lemma head_first T l F h : 0 < T -> spread T l -> is_first l F -> In h l -> y_angle_cmp T F h F <= 0 -> h = F.
Proof.
  intros HT SP FI Ih H. destruct (cmp_ord T l F h F HT SP FI Ih (proj1 FI) H) as (_ & D). specialize (D ltac:(unfold area2; ring)). unfold dist2 in D. destruct h as (hx, hy), F as (fx, fy). cbn [fst snd] in *. f_equal; nia.
Qed.
Lemma hull_ok sort T l : 0 < T -> spread T l -> (2 < length l)%nat -> (forall F, is_first l F -> sorted_by (y_angle_cmp T F) l (sort (y_angle_cmp T F) l)) ->
  exists h, hull sort T l = Some h /\ incl h l /\ convex h /\ (forall q, In q l -> within h q) /\ (2 <= length h)%nat.
Proof.
  intros HT SP L HS. unfold hull. destruct l as [|p l0] eqn:El; [cbn in L; lia|]. rewrite <- El in *. set (F := lowest l0 p). assert (FI : is_first l F) by (rewrite El; apply lowest_ok).
  destruct (HS F FI) as (Pm & Ss). set (l' := sort (y_angle_cmp T F) l) in *. pose proof (Permutation_length Pm) as PL.
  destruct l' as [|h0 rest] eqn:El'; [cbn in PL; lia|]. inversion Ss as [|? ? S1 S2]; subst a l1. rewrite Forall_forall in S2.
  assert (INl : forall x, In x (h0 :: rest) -> In x l) by (intros x Hx; apply (Permutation_in x (Permutation_sym Pm)); auto).
  assert (H0 : h0 = F). { assert (IF : In F (h0 :: rest)) by (apply (Permutation_in F Pm); apply FI). destruct IF as [IF|IF]; auto. apply (head_first T l F h0); auto. apply INl. now left. } subst h0.
  assert (LOW : forall x, In x (F :: rest) -> lower F x) by (intros x Hx; apply FI; auto).
  assert (SO : StronglySorted (ord F) rest). { clear - S1 INl HT SP FI. assert (IN : incl rest l) by (intros x Hx; apply INl; now right). clear INl. induction S1 as [|x r S1 IH A]; constructor; [apply IH; intros y Hy; apply IN; now right|]. rewrite Forall_forall in *. intros y Hy. apply (cmp_ord T l); auto; apply IN; [now left|now right]. }
  destruct (graham_ok F rest [] [F] (lower_refl F) (Forall_nil _)) as (A & B & C).
  { apply Forall_forall. intros x Hx. apply LOW. now right. } { exact I. } { exact I. }
  { intros x y [<-|[]] Hy. apply (cmp_ord T l); auto; [apply FI|apply INl; now right]. } { exact SO. }
  { intros q [<-|[]]. apply within_in. now left. } { intros x []. }
  destruct (scan_ok F rest (F :: rest) 1 [] eq_refl ltac:(cbn; lia) eq_refl) as (point' & K1 & K2 & K3). cbn [length] in K1.
  exists (F :: rev (graham F [] rest)). split.
  { rewrite (proj2 (Nat.leb_gt _ _) L). change (length (F :: rest)) with (S (length rest)). replace (S (length rest) - 1)%nat with (length rest) by lia. match goal with |- match ?s with _ => _ end = _ => replace s with (Some (point', length (graham F [] rest))) end. rewrite K2. rewrite (proj2 (Nat.ltb_lt _ _) (K3 ltac:(cbn; lia))). reflexivity. }
  split; [|split; [|split]].
  - intros x [<-|Hx]; [apply FI|]. apply in_rev in Hx. apply INl. apply (C x Hx).
  - apply cvx_convex. exact A.
  - intros q Hq. eapply within_incl; [|apply (B q)]; [|apply (Permutation_in q Pm) in Hq; exact Hq]. intros x Hx. rewrite in_app_iff in Hx. destruct Hx as [Hx|[<-|[]]]; [right; now apply in_rev in Hx || (apply -> in_rev; auto)|now left].
  - cbn. rewrite rev_length. assert (G : forall l u, l <> [] -> graham F u l <> []). { intros k. induction k as [|z k IHk]; intros u N; [congruence|]. cbn. destruct k as [|q k]; [discriminate|]. apply IHk. discriminate. } specialize (G rest []). destruct (graham F [] rest); cbn; [|lia]. exfalso. apply G; auto. destruct rest; [cbn in PL; lia|discriminate].
Qed.

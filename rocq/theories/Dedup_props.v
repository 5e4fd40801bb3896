(** C38: points are numbered consistently *)
From Coq Require Import ZArith List Bool Arith Lia Sorted Permutation.
From Verif Require Import Dict_model Dict_spec Dedup_model Dedup_spec Dedup_proofs Dedup_proofs2.
Import ListNotations.

Lemma empty_inv : inv0 empty. Proof. split; [exists false, 0; constructor|constructor]. Qed.

(** For any points: entering them never fails, the search tree stays balanced, numbers are given in the order of first occurrence,
    starting from 0 without gaps, and the point stored at the number of a point is one of the points, and is close to it. *)
Theorem C38_numbers : forall e dim vs, (0 < e)%Z -> same_dim dim vs ->
  exists idx d, insert_all e vs empty = Some (idx, d) /\ balanced (root d) /\ length idx = length vs
  /\ in_order_of_occurrence idx /\ (forall n, In n idx <-> n < vsize d)
  /\ (forall n, n < vsize d -> In (coord d n) vs)
  /\ Forall2 (fun v n => close e v (coord d n)) vs idx.
Proof.
  intros e dim vs E D. destruct (insert_all_any e vs empty [] E empty_inv) as (idx & d & R & I & L & _ & _ & F & P & O & W).
  - intros x. simpl. split; [intros []|lia].
  - exists idx, d. split; [exact R|]. split; [apply I|]. split; [exact L|]. split; [exact O|]. split; [exact P|].
    assert (W' : forall n, n < vsize d -> In (coord d n) vs) by (intros n H; apply W; simpl; lia). split; [exact W'|].
    assert (G : forall l k, (forall v, In v l -> In v vs) -> Forall2 (fun v n => n < vsize d /\ lex_cmp e v (coord d n) = 0%Z) l k -> Forall2 (fun v n => close e v (coord d n)) l k).
    { intros l k IN H. induction H as [|v n l k (H1 & H2) _ IH]; constructor; [|apply IH; intros u U; apply IN; right; exact U].
      apply lex_close; [|exact H2]. rewrite (D v (IN v (or_introl eq_refl))), (D _ (W' n H1)). reflexivity. }
    exact (G vs idx (fun v H => H) F).
Qed.

(** For points whose coordinates are the same or clearly different: two points have the same number if and only if they are close *)
Theorem C38_same_number : forall e dim vs idx d, (0 < e)%Z -> same_dim dim vs -> separated e vs -> insert_all e vs empty = Some (idx, d) ->
  forall i j u v a b, nth_error vs i = Some u -> nth_error vs j = Some v -> nth_error idx i = Some a -> nth_error idx j = Some b ->
  (a = b <-> close e u v).
Proof.
  intros e dim vs idx d E D S R i j u v a b U V A B.
  destruct (insert_all_any e vs empty [] E empty_inv) as (idx' & d' & R' & _ & _ & _ & _ & F & _); [intros x; simpl; split; [intros []|lia]|].
  rewrite R in R'. inversion R'; subst idx' d'. eapply (same_number e vs dim E S D idx d i j); eauto.
Qed.

(** Not so in general: closeness is not transitive, and the search depends on the shape of the tree.  The same point, entered
    twice, can get two different numbers (e.g., for an STL file, a vertex that two facets share becomes two points). *)
Theorem C38_same_point_refuted : ~ (forall e vs idx d, (0 < e)%Z -> same_dim 3 vs -> insert_all e vs empty = Some (idx, d) ->
  forall i j v a b, nth_error vs i = Some v -> nth_error vs j = Some v -> nth_error idx i = Some a -> nth_error idx j = Some b -> a = b).
Proof.
  intros H. pose (vs := [[0; 0; 0]; [10; 0; 0]; [5; 0; 0]; [20; 0; 0]; [5; 0; 0]]%Z).
  destruct (insert_all 10 vs empty) as [[idx d]|] eqn:R; [|vm_compute in R; discriminate].
  assert (IDX : idx = [0; 1; 0; 2; 1]).
  { assert (Q : (match insert_all 10 vs empty with Some (idx, _) => idx | None => [] end) = [0; 1; 0; 2; 1]) by (vm_compute; reflexivity). rewrite R in Q. exact Q. }
  assert (D : same_dim 3 vs) by (intros v; simpl; intuition (subst; reflexivity)).
  specialize (H 10%Z vs idx d ltac:(lia) D R 2 4 [5; 0; 0]%Z 0 1 eq_refl eq_refl). subst idx. specialize (H eq_refl eq_refl). discriminate.
Qed.

(** A file is imported: each vertex of a facet refers to a point close to the one in the file *)
Theorem C38_dedup : forall e dim vs, (0 < e)%Z -> same_dim dim vs ->
  exists out, dedup e vs = Some out /\ Forall2 (close e) vs out /\ (forall v, In v out -> In v vs).
Proof.
  intros e dim vs E D. destruct (C38_numbers e dim vs E D) as (idx & d & R & B & L & _ & P & W & F).
  destruct (insert_all_any e vs empty [] E empty_inv) as (idx' & d' & R' & I & _); [intros x; simpl; split; [intros []|lia]|].
  rewrite R in R'. inversion R'; subst idx' d'. destruct (make_points_ok d I) as (q & Q & LQ & NQ).
  destruct (make_refs_ok (fun v c => close e v c /\ In c vs) q vs idx) as (out & RO & FO).
  - assert (G : forall l k, (forall n, In n k -> In n idx) -> Forall2 (fun v n => close e v (coord d n)) l k ->
      Forall2 (fun v n => exists c, nth_error q n = Some c /\ close e v c /\ In c vs) l k).
    { intros l k IN H. induction H as [|v n l k H _ IH]; constructor; [|apply IH; intros u U; apply IN; right; exact U].
      assert (N : n < vsize d) by (apply P, IN; left; reflexivity). exists (coord d n). split; [apply NQ, N|]. split; [exact H|apply W, N]. }
    exact (G vs idx (fun n H => H) F).
  - exists out. unfold dedup. rewrite R. cbn [bind]. rewrite Q. cbn [bind]. split; [exact RO|]. clear RO. split.
    + clear - FO. induction FO as [|v c l k H _ IH]; constructor; [apply H|exact IH].
    + assert (G : forall (A B : Type) (R : A -> B -> Prop) l k, Forall2 R l k -> forall y, In y k -> exists x, R x y).
      { intros A B' R0 l k H. induction H as [|x y l k H _ IH]; intros z [].
        - subst. eauto.
        - apply IH. assumption. }
      intros v V. destruct (G _ _ _ _ _ FO v V) as (x & _ & X). exact X.
Qed.
(** ... and it is exactly this point if coordinates are never close without being equal *)
Theorem C38_exact : forall e dim vs, (0 < e)%Z -> same_dim dim vs -> (forall u v, In u vs -> In v vs -> close e u v -> u = v) -> dedup e vs = Some vs.
Proof.
  intros e dim vs E D H. destruct (C38_dedup e dim vs E D) as (out & R & F & I). rewrite R. f_equal.
  assert (G : forall l k, (forall x, In x l -> In x vs) -> (forall x, In x k -> In x vs) -> Forall2 (close e) l k -> k = l).
  { intros l k A B X. induction X as [|x y l k X _ IH]; [reflexivity|]. f_equal.
    - symmetry. apply H; [apply A|apply B|exact X]; left; reflexivity.
    - apply IH; intros z Z; [apply A|apply B]; right; exact Z. }
  apply (G vs out); auto.
Qed.

(** SVG paths: with any order of the points, each place in a path gets a point, close to the one that it had *)
Theorem C38_paths : forall e L, (0 < e)%Z -> NoDup (map (fun p => (aux2 p, aux1 p)) L) ->
  exists pts pth, uniquify e L = Some (pts, pth)
  /\ (forall p, In p L -> exists r c, pth (aux2 p) (aux1 p) = Some r /\ nth_error pts r = Some c /\ lex_cmp e (scoord p) (scoord c) = 0%Z)
  /\ (forall x y r, pth x y = Some r -> exists p, In p L /\ aux2 p = x /\ aux1 p = y).
Proof. intros e L E ND. exact (uniq_ok e E L ND). Qed.
(** With the points sorted: places have the same number if and only if their points are close *)
Theorem C38_paths_same : forall e dim L pts pth, (0 < e)%Z -> NoDup (map (fun p => (aux2 p, aux1 p)) L) ->
  separated e (map scoord L) -> same_dim dim (map scoord L) -> StronglySorted (not_after e) L -> uniquify e L = Some (pts, pth) ->
  (forall p q r t, In p L -> In q L -> pth (aux2 p) (aux1 p) = Some r -> pth (aux2 q) (aux1 q) = Some t -> (r = t <-> close e (scoord p) (scoord q)))
  /\ (forall c, In c pts -> In c L).
Proof. intros e dim L pts pth E ND S D SS. exact (uniq_sep e E L ND dim S D SS pts pth). Qed.

Definition ex_vs : list (list Z) := [[0; 0; 0]; [100; 0; 0]; [0; 100; 0]; [100; 1; 0]; [0; 0; 100]; [1; 0; 0]; [0; 0; 100]]%Z.
Example C38_ex : (match insert_all 10 ex_vs empty with Some (idx, d) => Some (idx, vsize d, inorder (root d)) | None => None end)
  = Some ([0; 1; 2; 1; 3; 0; 3], 4, [0; 3; 2; 1]) /\ separated 10 ex_vs /\ same_dim 3 ex_vs
  /\ dedup 10 ex_vs = Some [[0; 0; 0]; [100; 0; 0]; [0; 100; 0]; [100; 0; 0]; [0; 0; 100]; [0; 0; 0]; [0; 0; 100]]%Z.
Proof.
  split; [vm_compute; reflexivity|]. split; [|split; [intros v; simpl; intuition (subst; reflexivity)|vm_compute; reflexivity]].
  assert (G : forall v i x, In v ex_vs -> nth_error v i = Some x -> (x = 0 \/ x = 1 \/ x = 100)%Z).
  { intros v i x I. simpl in I. repeat (destruct I as [<-|I]; [destruct i as [|[|[|i]]]; simpl; intros Q; inversion Q; auto; destruct i; discriminate|]). destruct I. }
  intros i u v w x y z U V W X Y Z. apply (G u i x U) in X. apply (G v i y V) in Y. apply (G w i z W) in Z. lia.
Qed.
(** The same point twice, in two paths *)
Definition ex_L : list spoint :=
  [mk_spoint [0; 0]%Z 0 0; mk_spoint [0; 1]%Z 2 1; mk_spoint [0; 50]%Z 1 0; mk_spoint [50; 0]%Z 2 0; mk_spoint [50; 0]%Z 0 1; mk_spoint [90; 0]%Z 1 1].
Example C38_paths_ex : NoDup (map (fun p => (aux2 p, aux1 p)) ex_L) /\ StronglySorted (not_after 10) ex_L /\ same_dim 2 (map scoord ex_L)
  /\ separated 10 (map scoord ex_L) /\ match uniquify 10 ex_L with
     | Some (pts, pth) => map scoord pts = [[0; 0]; [0; 50]; [50; 0]; [90; 0]]%Z
       /\ map (pth 0) [0; 1; 2; 3] = [Some 0; Some 1; Some 2; None] /\ map (pth 1) [0; 1; 2; 3] = [Some 2; Some 3; Some 0; None]
     | None => False end.
Proof.
  split; [repeat constructor; simpl; intuition congruence|]. split; [repeat (constructor; [|repeat (constructor; [vm_compute; congruence|])]); constructor|].
  split; [intros v; simpl; intuition (subst; reflexivity)|]. split; [|vm_compute; auto].
  assert (G : forall v i x, In v (map scoord ex_L) -> nth_error v i = Some x -> (x = 0 \/ x = 1 \/ x = 50 \/ x = 90)%Z).
  { intros v i x I. simpl in I. repeat (destruct I as [<-|I]; [destruct i as [|[|i]]; simpl; intros Q; inversion Q; auto; destruct i; discriminate|]). destruct I. }
  intros i u v w x y z U V W X Y Z. apply (G u i x U) in X. apply (G v i y V) in Y. apply (G w i z W) in Z. lia.
Qed.

Print Assumptions C38_numbers.
Print Assumptions C38_same_number.
Print Assumptions C38_same_point_refuted.
Print Assumptions C38_dedup.
Print Assumptions C38_exact.
Print Assumptions C38_paths.
Print Assumptions C38_paths_same.

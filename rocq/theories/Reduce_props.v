(** C09: the reduction pass keeps exactly the edges on the boundary of the combined region *)
From Coq Require Import ZArith NArith List Bool Lia Arith.
From Verif Require Import Reduce_model Reduce_spec Reduce_proofs Reduce_proofs2 Reduce_proofs3.
Import ListNotations.
Open Scope Z_scope.

(** For edges that meet at ends only, with each polygon closed, and the ends in the order of the result dictionary: the pass ends
    without a failing assertion, and the result has the same order; it has both ends of an edge e if and only if the combination
    has different values just below and just above any inner point of e. *)
Theorem C09_reduce : forall E ids comb n below0 keep0 res,
  planar E ids -> closed E ids -> ends_of E ids res -> (forall e, In e ids -> (member (E e) < 2 ^ n)%N) ->
  exists out, reduce E comb (2 ^ n) below0 keep0 res = Some out
  /\ (exists sel, out = filter sel res)
  /\ (forall e s p, In e ids -> 0 < pd p -> inside_edge p (E e) ->
      (In (e, s) out <-> comb (inside E ids p) <> comb (N.lxor (inside E ids p) (member (E e))))).
Proof.
  intros E ids comb n b0 k0 res HP HC HE Hm. destruct (reduce_ok E ids comb n b0 k0 res HP HC HE Hm) as (out & R & K & Q & HK).
  exists out. split; [exact R|]. split; [exists (fun v => K (fst v)); exact Q|].
  intros e s p I D IN. rewrite Q, filter_In. cbn [fst]. rewrite (HK e p I D IN).
  assert (In (e, s) res) by (apply HE, I).
  destruct (comb (inside E ids p)), (comb (N.lxor (inside E ids p) (member (E e)))); simpl; split; intros; try (split; auto); try congruence;
    destruct H0; congruence.
Qed.

(** The region that the kept edges describe by the even-odd rule is the combination of the regions: for each point that is not
    above or below an end of an edge *)
Theorem C09_region : forall E ids comb n below0 keep0 res out,
  planar E ids -> closed E ids -> ends_of E ids res -> (forall e, In e ids -> (member (E e) < 2 ^ n)%N) ->
  reduce E comb (2 ^ n) below0 keep0 res = Some out ->
  forall r, 0 < pd r -> (forall e, In e ids -> pd r * fst (left (E e)) <> px r /\ pd r * fst (rigt (E e)) <> px r) ->
  Nat.odd (length (filter (fun e => beneath r (E e) && existsb (vertex_eqb (e, LEFT)) out) ids))
  = xorb (comb (inside E ids r)) (comb 0%N).
Proof. exact region_ok. Qed.

(** The comparison function of the result dictionary gives the order that the pass needs *)
Theorem C09_order : forall E v w, result_vertex_cmp E v w < 0 -> comes_before E v w.
Proof.
  intros E [v sv] [w sw] H. unfold result_vertex_cmp in H.
  assert (EN : forall u, coord E u = end_of E u) by reflexivity. cbv zeta in H. rewrite (EN (v, sv)), (EN (w, sw)) in H. unfold comes_before.
  destruct (end_of E (v, sv)) as [a b] eqn:Qv, (end_of E (w, sw)) as [c d] eqn:Qw. unfold vec2_cmp in H. cbn [fst snd] in *. unfold lex_lt. cbn [fst snd].
  assert (CP : forall x y, cp_cmp x y < 0 -> x < y) by (intros x y; unfold cp_cmp; destruct (Z.ltb_spec x y), (Z.ltb_spec y x); lia).
  assert (CE : forall x y, cp_cmp x y = 0 -> x = y) by (intros x y; unfold cp_cmp; destruct (Z.ltb_spec x y), (Z.ltb_spec y x); lia).
  destruct (cp_cmp a c =? 0) eqn:Q1; cbn [negb] in H.
  - apply Z.eqb_eq, CE in Q1. destruct (cp_cmp b d =? 0) eqn:Q2; cbn [negb] in H.
    + apply Z.eqb_eq, CE in Q2. right. split; [congruence|].
      destruct sv, sw; unfold side in H; cbn [snd] in H; cbn in H; try lia; auto.
      right. split; [reflexivity|]. split; [reflexivity|]. unfold end_of in Qv, Qw. cbn [fst snd] in Qv, Qw.
      unfold height. cbn [px py pd]. rewrite Qv.
      assert (X : sign (cross3_z (rigt (E w)) (a, b) (rigt (E v))) < 0) by exact H. unfold sign in X. apply CP in X. unfold cross3_z in X. cbn [fst snd] in *. lia.
    + left. right. split; [exact Q1|]. apply CP, H.
  - left. left. rewrite Q1 in H. apply CP, H.
Qed.

(** Two squares side by side, with a common edge *)
Definition ex_E (i : nat) : edge :=
  match i with
  | 0%nat => mk_edge (0, 0) (2, 0) 1
  | 1%nat => mk_edge (0, 2) (2, 2) 1
  | 2%nat => mk_edge (0, 0) (0, 2) 1
  | 3%nat => mk_edge (2, 0) (2, 2) 3
  | 4%nat => mk_edge (2, 0) (4, 0) 2
  | 5%nat => mk_edge (2, 2) (4, 2) 2
  | _ => mk_edge (4, 0) (4, 2) 2
  end.
Definition ex_ids : list nat := [0; 1; 2; 3; 4; 5; 6]%nat.
Definition ex_res : list vertex :=
  [(0, LEFT); (2, LEFT); (2, RIGT); (1, LEFT); (0, RIGT); (4, LEFT); (3, LEFT); (1, RIGT); (3, RIGT); (5, LEFT); (4, RIGT); (6, LEFT);
   (5, RIGT); (6, RIGT)]%nat.
Definition ex_union (i : N) : bool := negb (i =? 0)%N.

Lemma pairs_split : forall (A : Type) (R : A -> A -> Prop) l, ForallOrdPairs R l -> forall a b c v w, l = a ++ v :: b ++ w :: c -> R v w.
Proof.
  intros A R l H. induction H as [|x l H1 H2 IH]; intros a b c v w Q; [destruct a; discriminate|].
  destruct a as [|y a]; simpl in Q; inversion Q; subst.
  - rewrite Forall_forall in H1. apply H1. apply in_or_app. right. left. reflexivity.
  - eapply IH. reflexivity.
Qed.
Lemma ex_planar : planar ex_E ex_ids.
Proof.
  split; [unfold ex_ids; do 7 (apply NoDup_cons; [simpl; intuition lia|]); apply NoDup_nil|]. split.
  - intros e H. simpl in H. unfold lex_lt. repeat (destruct H as [ <- |H]; [simpl; lia|]). destruct H.
  - intros e f [x y d] He Hf N D. unfold on_edge, is_end, height, lex_le, scale, pt. cbn [px py pd] in *.
    simpl in He, Hf. 
    repeat (destruct He as [ <- |He]; [repeat (destruct Hf as [ <- |Hf];
      [try congruence; cbn [ex_E left rigt fst snd]; intros X Y; split; first [left; f_equal; lia|right; f_equal; lia|exfalso; lia]|]); destruct Hf|]). destruct He.
Qed.
Lemma ex_closed : closed ex_E ex_ids.
Proof.
  intros [x y]. unfold same, ex_ids. cbn [filter ex_E left rigt fst snd].
  destruct (Z.eqb_spec x 0), (Z.eqb_spec x 2), (Z.eqb_spec x 4), (Z.eqb_spec y 0), (Z.eqb_spec y 2); try lia; reflexivity.
Qed.
Lemma ex_ends : ends_of ex_E ex_ids ex_res.
Proof.
  split; [|split].
  - unfold ex_res, LEFT, RIGT. do 14 (apply NoDup_cons; [simpl; intros H; repeat (destruct H as [H|H]; [discriminate|]); exact H|]). apply NoDup_nil.
  - intros e s. unfold ex_res, ex_ids, LEFT, RIGT. split; intros H; simpl in H.
    + repeat (destruct H as [H|H]; [inversion H; simpl; auto 10|]). destruct H.
    + repeat (destruct H as [ <- |H]; [destruct s; simpl; auto 20|]). destruct H.
  - apply pairs_split. unfold ex_res.
    repeat (apply FOP_cons; [repeat (apply Forall_cons; [unfold comes_before, lex_lt, height, end_of; simpl; first [left; lia|right; split; [reflexivity|]; first [left; reflexivity|right; split; [reflexivity|split; reflexivity]]]|]); apply Forall_nil|]).
    apply FOP_nil.
Qed.
Lemma ex_members : forall e, In e ex_ids -> (member (ex_E e) < 2 ^ 2)%N.
Proof. intros e H. simpl in H. repeat (destruct H as [ <- |H]; [reflexivity|]). destruct H. Qed.
(** The union of the squares: the common edge 3 is removed, and only this one *)
Example C09_reduce_ex :
  planar ex_E ex_ids /\ closed ex_E ex_ids /\ ends_of ex_E ex_ids ex_res /\ (forall e, In e ex_ids -> (member (ex_E e) < 2 ^ 2)%N)
  /\ reduce ex_E ex_union (2 ^ 2) (fun _ => 0%N) (fun _ => false) ex_res = Some (filter (fun v => negb (Nat.eqb (fst v) 3)) ex_res)
  /\ ex_union (inside ex_E ex_ids (mk_point 2 1 1)) = ex_union (N.lxor (inside ex_E ex_ids (mk_point 2 1 1)) 3).
Proof.
  split; [exact ex_planar|]. split; [exact ex_closed|]. split; [exact ex_ends|]. split; [exact ex_members|]. split; reflexivity.
Qed.
(** So does the symmetric difference *)
Example C09_xor_ex : reduce ex_E (fun i => N.odd (N.lxor i (N.div2 i))) (2 ^ 2) (fun _ => 0%N) (fun _ => false) ex_res
  = Some (filter (fun v => negb (Nat.eqb (fst v) 3)) ex_res).
Proof. reflexivity. Qed.
(** The first square only *)
Example C09_first_ex : reduce ex_E N.odd (2 ^ 2) (fun _ => 0%N) (fun _ => false) ex_res
  = Some (filter (fun v => Nat.ltb (fst v) 4) ex_res).
Proof. reflexivity. Qed.
(** A point inside the right square, above edge 4 *)
Example C09_region_ex : forall out, reduce ex_E ex_union (2 ^ 2) (fun _ => 0%N) (fun _ => false) ex_res = Some out ->
  Nat.odd (length (filter (fun e => beneath (mk_point 3 1 1) (ex_E e) && existsb (vertex_eqb (e, LEFT)) out) ex_ids)) = true
  /\ inside ex_E ex_ids (mk_point 3 1 1) = 2%N.
Proof.
  intros out H. split; [|reflexivity].
  rewrite (C09_region ex_E ex_ids ex_union 2 (fun _ => 0%N) (fun _ => false) ex_res out ex_planar ex_closed ex_ends ex_members H (mk_point 3 1 1)).
  - reflexivity.
  - reflexivity.
  - intros e I. simpl in I. repeat (destruct I as [ <- |I]; [simpl; lia|]). destruct I.
Qed.
Example C09_order_ex : result_vertex_cmp ex_E (4, LEFT)%nat (3, LEFT)%nat < 0 /\ result_vertex_cmp ex_E (0, RIGT)%nat (4, LEFT)%nat < 0.
Proof. split; reflexivity. Qed.

Print Assumptions C09_reduce.
Print Assumptions C09_region.
Print Assumptions C09_order.

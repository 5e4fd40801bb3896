(** C27: the paths that are constructed from edges *)
From Coq Require Import ZArith List Bool Lia Arith Permutation.
From Verif Require Import Reduce_model Reduce_spec Reduce_props Poly_model Poly_spec Poly_proofs Poly_proofs2 Poly_proofs3 Poly_proofs4 Poly_proofs6 Poly_proofs7 Poly_proofs8.
Import ListNotations.
Open Scope Z_scope.

(** Appending the points of a closed chain to a new path: the result is a set of paths in each of which no point occurs twice, and
    the edges of these paths are the edges of the chain.  The marks stay in the range that the offset of the next chain needs. *)
Theorem C27_append : forall c r o, c <> [] -> 0 < o -> o + Z.of_nat (length c) <= 2 ^ 32 ->
  (forall p, In p c -> (p < length (points r))%nat) -> (forall p, (p < length (points r))%nat -> 0 <= aux r p < o) ->
  exists r' ex, appends (length (paths r)) o c (mk_gon (points r) (aux r) (paths r ++ [[]])) = Done r'
  /\ points r' = points r /\ paths r' = paths r ++ ex
  /\ Forall (fun w => NoDup w /\ w <> []) ex /\ Permutation (cyc_pairs c) (flat_map cyc_pairs ex) /\ (forall x, In x (concat ex) -> In x c)
  /\ (forall p, (p < length (points r))%nat -> 0 <= aux r' p < o + Z.of_nat (length c)).
Proof. exact chain_ok. Qed.

(** If the construction succeeds: no two points are equal, no path visits a point twice, and the edges of the paths are exactly the
    given edges, each once, in some direction.  Nothing is assumed about the arrangement of the edges. *)
Theorem C27_poly : forall E ids res fuel b0 h0 p0 r, NoDup ids -> ends_of E ids res ->
  (length ids <= fuel)%nat -> 2 * Z.of_nat (length ids) + 3 < 2 ^ 32 ->
  poly E fuel b0 h0 p0 res = Done r ->
  exists b, NoDup (points r) /\ Forall (fun w => NoDup w /\ w <> [] /\ forall i, In i w -> (i < length (points r))%nat) (paths r)
  /\ Permutation (flat_map (fun w => cyc_pairs (coords (points r) w)) (paths r)) (map (fun e => directed (E e) (b e)) ids).
Proof. exact poly_partial. Qed.

(** A chain of points that visits one point three times is cut into three paths *)
Example C27_append_ex :
  match appends 1 7 [0; 1; 2; 1; 3; 4; 1]%nat (mk_gon [(0, 0); (1, 0); (2, 1); (2, 5); (7, 7)] (fun p => Z.of_nat p) [[4]; []]%nat) with
  | Done r => paths r = [[4]; [0; 1]; [1; 2]; [1; 3; 4]]%nat
  | _ => False
  end.
Proof. vm_compute. reflexivity. Qed.

(** Two squares with a common corner, around a smaller square in the first one *)
Definition pex_E (i : nat) : edge :=
  match i with
  | 0%nat => mk_edge (0, 0) (6, 0) 1
  | 1%nat => mk_edge (0, 0) (0, 6) 1
  | 2%nat => mk_edge (2, 2) (4, 2) 1
  | 3%nat => mk_edge (2, 2) (2, 4) 1
  | 4%nat => mk_edge (2, 4) (4, 4) 1
  | 5%nat => mk_edge (4, 2) (4, 4) 1
  | 6%nat => mk_edge (0, 6) (6, 6) 1
  | 7%nat => mk_edge (6, 0) (6, 6) 1
  | 8%nat => mk_edge (6, 6) (9, 6) 1
  | 9%nat => mk_edge (6, 6) (6, 9) 1
  | 10%nat => mk_edge (6, 9) (9, 9) 1
  | _ => mk_edge (9, 6) (9, 9) 1
  end.
Definition pex_ids : list nat := seq 0 12.
Definition pex_res : list vertex :=
  [(0, LEFT); (1, LEFT); (1, RIGT); (6, LEFT); (2, LEFT); (3, LEFT); (3, RIGT); (4, LEFT); (2, RIGT); (5, LEFT); (4, RIGT); (5, RIGT);
   (0, RIGT); (7, LEFT); (6, RIGT); (7, RIGT); (8, LEFT); (9, LEFT); (9, RIGT); (10, LEFT); (8, RIGT); (11, LEFT); (10, RIGT); (11, RIGT)]%nat.
Definition pex_run := poly pex_E 12 (fun _ => false) (List_model.mk_heap (fun _ => 0%nat) (fun _ => 0%nat)) (fun _ => 0%nat) pex_res.
Lemma pex_nodup : NoDup pex_ids.
Proof. apply seq_NoDup. Qed.
Fixpoint in_order (E : nat -> edge) (l : list vertex) : bool :=
  match l with [] => true | v :: l => forallb (fun w => result_vertex_cmp E v w <? 0) l && in_order E l end.
Lemma in_order_ok : forall E l, in_order E l = true -> forall a b c v w, l = a ++ v :: b ++ w :: c -> result_vertex_cmp E v w < 0.
Proof.
  intros E. induction l as [|x l IH]; intros H a b c v w Q; [destruct a; discriminate|]. cbn [in_order] in H. apply andb_prop in H. destruct H as (H1 & H2).
  destruct a as [|y a]; cbn [app] in Q; injection Q as -> ->.
  - rewrite forallb_forall in H1. apply Z.ltb_lt, H1, in_or_app. right. left. reflexivity.
  - apply (IH H2 a b c). reflexivity.
Qed.
Lemma pex_ends : ends_of pex_E pex_ids pex_res.
Proof.
  split; [|split].
  - unfold pex_res, LEFT, RIGT. repeat (apply NoDup_cons; [simpl; intros H; repeat (destruct H as [H|H]; [discriminate|]); exact H|]). apply NoDup_nil.
  - intros e s. unfold pex_res, pex_ids, LEFT, RIGT. cbn [seq]. split; intros H; simpl in H.
    + repeat (destruct H as [H|H]; [inversion H; simpl; auto 15|]). destruct H.
    + repeat (destruct H as [ <- |H]; [destruct s; simpl; auto 30|]). destruct H.
  - intros a b c v w Q. apply C09_order. apply (in_order_ok pex_E pex_res eq_refl a b c v w Q).
Qed.
Example C27_poly_ex : ends_of pex_E pex_ids pex_res /\
  match pex_run with
  | Done r => points r = [(0, 0); (0, 6); (2, 2); (2, 4); (4, 2); (4, 4); (6, 0); (6, 6); (6, 9); (9, 6); (9, 9)]
      /\ paths r = [[5; 3; 2; 4]; [7; 6; 0; 1]; [10; 9; 7; 8]]%nat
  | _ => False
  end.
Proof. split; [exact pex_ends|]. vm_compute. split; reflexivity. Qed.

(** The construction succeeds if the edges meet at ends only and each point has an even number of edge ends.  The result is as in
    C27_poly, no path has fewer than three points, and the direction of each edge is such that the area with an odd number of edges
    beneath it is on the right: an edge runs to the left (b e = true) iff there is an even number of edges beneath it. *)
Theorem C27_total : forall E ids res fuel b0 h0 p0, planar E ids -> even_ends E ids -> ends_of E ids res -> rigt_order E res ->
  (length ids <= fuel)%nat -> 2 * Z.of_nat (length ids) + 3 < 2 ^ 32 ->
  exists r b, poly E fuel b0 h0 p0 res = Done r
  /\ NoDup (points r) /\ Forall (fun w => NoDup w /\ (3 <= length w)%nat /\ forall i, In i w -> (i < length (points r))%nat) (paths r)
  /\ Permutation (path_edges (points r) (paths r)) (map (fun e => directed (E e) (b e)) ids)
  /\ forall e p, In e ids -> 0 < pd p -> inside_edge p (E e) -> b e = Nat.even (length (filter (fun f => beneath p (E f)) ids)).
Proof.
  intros E ids res fuel b0 h0 p0 HP HV HE HRo HF HS.
  destruct (poly_total E ids res fuel b0 h0 p0 HP HV HE HRo HF HS) as (r & b & R & N1 & F1 & PE & BI).
  exists r, b. split; [exact R|]. split; [exact N1|]. split; [|split; [exact PE|exact BI]].
  assert (T3 := three_points E ids b (points r) (paths r) HP N1 F1 PE).
  rewrite Forall_forall in *. intros w W. destruct (F1 w W) as (X1 & X2 & X3). split; [exact X1|]. split; [apply T3, W|exact X3].
Qed.
(** The order that C27_total needs is the one of the comparison function of the dictionary *)
Theorem C27_order : forall E res, (forall a b c v w, res = a ++ v :: b ++ w :: c -> result_vertex_cmp E v w < 0) -> rigt_order E res.
Proof.
  intros E res H a b c v w Q Qp. specialize (H a b c (v, true) (w, true) Q). unfold result_vertex_cmp, coord in H. cbn [fst snd] in H. cbv zeta in H. rewrite Qp in H.
  assert (V0 : forall x, vec2_cmp x x = 0) by (intros [x y]; unfold vec2_cmp, cp_cmp; cbn [fst snd]; rewrite !Z.ltb_irrefl; reflexivity).
  rewrite V0 in H. cbn in H. unfold sign, cp_cmp, cross3_z in H. unfold height. cbn [px py pd]. rewrite Qp. cbn [fst snd left rigt] in *.
  repeat match type of H with context [?u <? ?t] => destruct (Z.ltb_spec u t) end; cbn in H; try lia.
Qed.
(** The polygon of a boolean combination: the reduction pass followed by the construction of paths succeeds for edges of closed
    polygons that meet at ends only.  The edges of the result are the edges that the reduction pass keeps.  Around a point that is
    inside of the combination, the winding number of the result is 1, and around any other point it is 0. *)
Theorem C44_combination : forall E ids comb n b0 k0 res fuel q0 h0 p0,
  planar E ids -> closed E ids -> ends_of E ids res -> rigt_order E res -> (forall e, In e ids -> (member (E e) < 2 ^ n)%N) ->
  (length ids <= fuel)%nat -> 2 * Z.of_nat (length ids) + 3 < 2 ^ 32 ->
  exists out r, reduce E comb (2 ^ n) b0 k0 res = Some out /\ poly E fuel q0 h0 p0 out = Done r
  /\ NoDup (points r)
  /\ Forall (fun w => NoDup w /\ (3 <= length w)%nat /\ forall i, In i w -> (i < length (points r))%nat) (paths r)
  /\ (exists b, Permutation (path_edges (points r) (paths r)) (map (fun e => directed (E e) (b e)) (filter (fun e => existsb (vertex_eqb (e, LEFT)) out) ids)))
  /\ forall p, 0 < pd p -> (forall e, In e ids -> pd p * fst (left (E e)) <> px p /\ pd p * fst (rigt (E e)) <> px p) ->
     winding p (path_edges (points r) (paths r)) = if xorb (comb (inside E ids p)) (comb 0%N) then 1 else 0.
Proof. exact reduce_poly. Qed.

Lemma pex_rigt : rigt_order pex_E pex_res.
Proof. apply C27_order. exact (in_order_ok pex_E pex_res eq_refl). Qed.
Lemma pex_planar : planar pex_E pex_ids.
Proof.
  split; [exact pex_nodup|]. split.
  - intros e H. simpl in H. unfold lex_lt. repeat (destruct H as [ <- |H]; [simpl; lia|]). destruct H.
  - intros e f [x y d] He Hf N D. unfold on_edge, is_end, height, lex_le, scale, pt. cbn [px py pd] in *.
    simpl in He, Hf.
    repeat (destruct He as [ <- |He]; [repeat (destruct Hf as [ <- |Hf];
      [try congruence; cbn [pex_E left rigt fst snd]; intros X Y; first [exfalso; lia|split; first [left; f_equal; lia|right; f_equal; lia]]|]); destruct Hf|]). destruct He.
Qed.
Lemma even_ends_by : forall E ids,
  forallb (fun x => Nat.even (length (filter (fun e => same x (left (E e))) ids) + length (filter (fun e => same x (rigt (E e))) ids)))
    (map (fun e => left (E e)) ids ++ map (fun e => rigt (E e)) ids) = true -> even_ends E ids.
Proof.
  intros E ids H x. rewrite forallb_forall in H.
  assert (FN : forall (h : nat -> bool) l, (forall e, In e l -> h e = false) -> filter h l = []).
  { intros h. induction l as [|e l IH]; intros K; [reflexivity|]. cbn [filter]. rewrite K by (left; auto). apply IH. intros; apply K; right; auto. }
  destruct (existsb (fun e => same x (left (E e)) || same x (rigt (E e))) ids) eqn:X.
  - apply existsb_exists in X. destruct X as (e & I & X). apply Nat.even_spec, H, in_or_app. apply orb_true_iff in X. rewrite !same_iff in X.
    destruct X as [->| ->]; [left|right]; [apply (in_map (fun e => left (E e)))|apply (in_map (fun e => rigt (E e)))]; exact I.
  - assert (Z : forall e, In e ids -> same x (left (E e)) = false /\ same x (rigt (E e)) = false).
    { intros e I. apply orb_false_iff. destruct (same x (left (E e)) || same x (rigt (E e))) eqn:Y; [|reflexivity]. rewrite <- X. symmetry. apply existsb_exists. eauto. }
    rewrite !FN by (intros e I; apply Z, I). exists 0%nat. reflexivity.
Qed.
Lemma pex_even : even_ends pex_E pex_ids.
Proof. apply even_ends_by. reflexivity. Qed.
(** The inner square is a hole: edge 2 runs to the left, and its number of edges beneath is odd in the middle *)
Example C27_total_ex : planar pex_E pex_ids /\ even_ends pex_E pex_ids /\ ends_of pex_E pex_ids pex_res /\ rigt_order pex_E pex_res
  /\ (length pex_ids <= 12)%nat /\ 2 * Z.of_nat (length pex_ids) + 3 < 2 ^ 32
  /\ length (filter (fun f => beneath (mk_point 3 2 1) (pex_E f)) pex_ids) = 1%nat
  /\ match pex_run with
     | Done r => In ((2, 2), (4, 2)) (path_edges (points r) (paths r)) /\ In ((6, 0), (0, 0)) (path_edges (points r) (paths r))
         /\ winding (mk_point 3 3 1) (path_edges (points r) (paths r)) = 0 /\ winding (mk_point 3 1 1) (path_edges (points r) (paths r)) = 1
     | _ => False
     end.
Proof.
  split; [exact pex_planar|]. split; [exact pex_even|]. split; [exact pex_ends|]. split; [exact pex_rigt|]. split; [simpl; lia|]. split; [reflexivity|]. split; [reflexivity|].
  vm_compute. split; [auto 15|]. split; [auto 15|]. split; reflexivity.
Qed.
Example C27_order_ex : result_vertex_cmp pex_E (6, RIGT)%nat (7, RIGT)%nat < 0 /\ height (mk_point 6 0 1) (pex_E 6) < 0.
Proof. split; reflexivity. Qed.
(** The union of two squares with a common edge is one path with six points *)
Lemma ex_rigt : rigt_order ex_E ex_res.
Proof. apply C27_order. exact (in_order_ok ex_E ex_res eq_refl). Qed.
Example C44_combination_ex : planar ex_E ex_ids /\ closed ex_E ex_ids /\ ends_of ex_E ex_ids ex_res /\ rigt_order ex_E ex_res
  /\ (forall e, In e ex_ids -> (member (ex_E e) < 2 ^ 2)%N) /\ (length ex_ids <= 7)%nat /\ 2 * Z.of_nat (length ex_ids) + 3 < 2 ^ 32
  /\ match reduce ex_E ex_union (2 ^ 2) (fun _ => 0%N) (fun _ => false) ex_res with
     | Some out => match poly ex_E 7 (fun _ => false) (List_model.mk_heap (fun _ => 0%nat) (fun _ => 0%nat)) (fun _ => 0%nat) out with
       | Done r => points r = [(0, 0); (0, 2); (2, 0); (2, 2); (4, 0); (4, 2)] /\ map (coords (points r)) (paths r) = [[(4, 2); (4, 0); (2, 0); (0, 0); (0, 2); (2, 2)]]
           /\ winding (mk_point 3 2 2) (path_edges (points r) (paths r)) = 1 /\ winding (mk_point 3 6 2) (path_edges (points r) (paths r)) = 0
       | _ => False
       end
     | None => False
     end.
Proof.
  split; [exact ex_planar|]. split; [exact ex_closed|]. split; [exact ex_ends|]. split; [exact ex_rigt|]. split; [exact ex_members|]. split; [simpl; lia|]. split; [reflexivity|].
  vm_compute. repeat split; reflexivity.
Qed.

Print Assumptions C27_append.
Print Assumptions C27_poly.
Print Assumptions C27_total.
Print Assumptions C27_order.
Print Assumptions C44_combination.

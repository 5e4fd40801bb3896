(** C10, C11, C41: slicing polyhedra. *)
From Coq Require Import ZArith Bool List Permutation Sorted Lia.
From Verif Require Import Matq_model Slice_model Slice_spec Slice_proofs Slice_proofs2.
Import ListNotations.
Local Open Scope Z_scope.

(** For the examples: insertion sort, and a tetrahedron. *)
Fixpoint ins1 (x : Z * vec2) (l : list (Z * vec2)) : list (Z * vec2) :=
  match l with
  | [] => [x]
  | y :: l => if fst x <=? fst y then x :: y :: l else y :: ins1 x l
  end.
Definition isort (l : list (Z * vec2)) := fold_right ins1 [] l.
Lemma isort_sorts : sorts isort.
Proof.
  assert (P : forall x l, Permutation (x :: l) (ins1 x l)).
  { intros x l. induction l as [|y l IH]; cbn; [reflexivity|]. destruct (fst x <=? fst y); [reflexivity|].
    rewrite perm_swap. constructor. exact IH. }
  intros l. split.
  - induction l as [|x l IH]; cbn; [constructor|]. rewrite <- P. constructor. exact IH.
  - induction l as [|x l IH]; cbn; [constructor|]. change (fold_right ins1 [] l) with (isort l).
    induction IH as [|y m S IH2 F]; cbn; [repeat constructor|].
    destruct (Z.leb_spec (fst x) (fst y)).
    + constructor; [constructor; assumption|]. constructor; [assumption|].
      eapply Forall_impl; [|exact F]. cbn. intros. lia.
    + constructor; [assumption|]. eapply Permutation_Forall; [apply P|]. constructor; [lia|exact F].
Qed.

Definition t0 := mk_vec3 0 0 0.
Definition t1 := mk_vec3 10 0 0.
Definition t2 := mk_vec3 0 10 0.
Definition t3 := mk_vec3 0 0 10.
Definition tetra := [[t0; t2; t1]; [t0; t1; t3]; [t1; t2; t3]; [t2; t0; t3]].
(** a 6-cycle with vertices on the plane z = 5 *)
Definition zigzag := [mk_vec3 0 0 0; mk_vec3 1 0 9; mk_vec3 2 0 5; mk_vec3 3 0 9; mk_vec3 4 0 5; mk_vec3 5 0 5].

(** deciding [closed] *)
Definition closedb (faces : list (list vec3)) : bool :=
  forallb (fun e => Nat.even (occurs (fst e) (snd e) faces)) (flat_map edges faces).
Lemma closedb_ok faces : closedb faces = true -> closed faces.
Proof.
  intros H a b _. unfold closedb in H. rewrite forallb_forall in H. unfold occurs in *.
  destruct (filter (edge_is a b) (flat_map edges faces)) as [|e l] eqn:E; [exists 0%nat; reflexivity|].
  rewrite <- E. assert (I : In e (filter (edge_is a b) (flat_map edges faces))) by (rewrite E; left; reflexivity).
  apply filter_In in I as [I J]. apply Nat.even_spec. specialize (H e I). cbn beta in H.
  apply edge_is_eq in J as [ -> | -> ]; cbn [fst snd] in H; [exact H|].
  rewrite <- H. do 2 f_equal. apply filter_ext. intros x. unfold edge_is.
  destruct (v3eq (fst x) a), (v3eq (snd x) b), (v3eq (fst x) b), (v3eq (snd x) a); reflexivity.
Qed.

(** ** C10 *)

(** The cut points of a face with at least 3 corners are an even number, one for each edge that
    crosses the plane, at the right place. *)
Theorem C10_face : forall qsort out z f,
  sorts qsort -> Forall small3 f -> Nat.Even (length out) -> (3 <= length f)%nat ->
  exists cuts new, add_face qsort out z f = Ok (out ++ new) /\ Nat.Even (length new) /\
    Forall2 (cut_point z) (filter (crossing z) (edges f)) cuts /\ Permutation cuts new.
Proof. exact add_face_ok. Qed.
Example C10_face_ex : add_face isort [(8, 8); (9, 9)] 5 zigzag = Ok [(8, 8); (9, 9); (1, 0); (2, 0); (2, 0); (4, 0)] /\
  Forall small3 zigzag /\ filter (crossing 5) (edges zigzag) <> [].
Proof.
  split; [reflexivity|]. split; [|discriminate]. repeat constructor; cbn; lia.
Qed.

(** Whatever the coordinates are (so that other checks may fail), the number of new cut points
    is even whenever it is computed, and so is the number of points in the result. *)
Theorem C10_parity : forall z f out out2, face_loop z f (length f) 0 out = Ok out2 ->
  Nat.even (length out2 - length out) = true.
Proof. exact face_parity. Qed.
Example C10_parity_ex : exists out2, face_loop 5 zigzag 6 0 [(7, 7)] = Ok out2 /\ length out2 = 5%nat.
Proof. eexists. split; reflexivity. Qed.

(** The direction of an edge does not matter. *)
Theorem C10_direction : forall out z a b, polyline out z a b = polyline out z b a.
Proof. exact polyline_sym. Qed.
Example C10_direction_ex : polyline [] 5 (mk_vec3 0 0 0) (mk_vec3 3 1 10) = Ok [(2, 1)] /\
  polyline [] 5 (mk_vec3 3 1 10) (mk_vec3 0 0 0) = Ok [(2, 1)].
Proof. split; reflexivity. Qed.

(** ** C11 *)

Theorem C11_slice : forall qsort z faces lines,
  sorts qsort -> closed faces -> slice_poly qsort z faces = Ok lines ->
  (forall p, Nat.Even (ends p lines)) /\ (forall a b, In (a, b) lines -> a <> b).
Proof. exact slice_closed. Qed.
Example C11_slice_ex : slice_poly isort 3 tetra = Ok [((0, 0), (7, 0)); ((0, 7), (7, 0)); ((0, 0), (0, 7))] /\
  slice_poly isort 0 tetra = Ok [((0, 0), (10, 0)); ((0, 10), (10, 0)); ((0, 0), (0, 10))] /\ closed tetra.
Proof. split; [reflexivity|]. split; [reflexivity|]. apply closedb_ok. reflexivity. Qed.

(** Dropping: exactly the lines with two different ends are kept. *)
Theorem C11_drop : forall out, Nat.Even (length out) ->
  exists r r', pairs_up out = Ok r /\ fini out = Ok r' /\
    Permutation (filter (fun l => negb (veq (fst l) (snd l))) r) r'.
Proof. exact fini_ok. Qed.
Example C11_drop_ex : fini [(1, 1); (1, 1); (2, 2); (2, 3); (4, 4); (4, 4)] = Ok [((2, 2), (2, 3))].
Proof. reflexivity. Qed.

(** There is a result if all coordinates are small. *)
Theorem C11_result : forall qsort z faces, sorts qsort -> Forall (Forall small3) faces ->
  exists lines, slice_poly qsort z faces = Ok lines.
Proof. exact slice_ok. Qed.
Example C11_result_ex : Forall (Forall small3) tetra.
Proof. repeat constructor; cbn; lia. Qed.

(** ** C41 *)

(** a face in the plane x + y = 10, in the shape of a U; and one in the plane y = 0 *)
Definition U_shape := [mk_vec3 0 10 (-1); mk_vec3 0 10 9; mk_vec3 2 8 9; mk_vec3 2 8 0;
                       mk_vec3 8 2 0; mk_vec3 8 2 9; mk_vec3 10 0 9; mk_vec3 10 0 (-1)].

(** The comment in the code states that cut points are sorted by x, then y.  This holds if the line of cut points
    does not descend. *)
Theorem C41_sorted_partial : forall qsort out z f new,
  sorts qsort -> add_face qsort out z f = Ok (out ++ new) -> ascending new ->
  StronglySorted (fun p q => before p q /\ snd p <= snd q) new.
Proof. exact sorted_ascending. Qed.
Example C41_sorted_ex : add_face isort [] 5 zigzag = Ok [(1, 0); (2, 0); (2, 0); (4, 0)] /\ ascending [(1, 0); (2, 0); (2, 0); (4, 0)].
Proof. split; [reflexivity|]. intros p q P Q. cbn in P, Q. intuition (subst; cbn; lia). Qed.

(** The full statement: cut points on one line are sorted along this line, in either direction. *)
Definition sorted_full : Prop := forall qsort z f new,
  sorts qsort -> Forall small3 f -> add_face qsort [] z f = Ok new -> collinear new ->
  StronglySorted before new \/ StronglySorted (fun p q => before q p) new.
(** It is false: the distance to the corner of the bounding box does not increase along a descending line. *)
Theorem C41_sorted_refuted : ~ sorted_full.
Proof.
  intros H. destruct (H isort 5 U_shape [(2, 8); (8, 2); (0, 10); (10, 0)]) as [S|S].
  - apply isort_sorts.
  - repeat constructor; cbn; lia.
  - reflexivity.
  - intros p q r P Q R. cbn in P, Q, R.
    repeat match goal with K : _ \/ _ |- _ => destruct K as [<-|K] | K : False |- _ => destruct K end; reflexivity.
  - inversion S as [|a l S' F]. inversion S' as [|b m _ F']. inversion F' as [|c n B _]. destruct B as [B|[B _]]; cbn in B; lia.
  - inversion S as [|a l _ F]. inversion F as [|c n B _]. destruct B as [B|[B _]]; cbn in B; lia.
Qed.

(** Nevertheless, whatever the order is, a position along the line is passed by an odd number of the resulting lines iff
    an odd number of edges of the face cross the plane before that position, i.e. iff it is inside of the face. *)
Theorem C41_even_odd : forall qsort z f new lines u v t,
  sorts qsort -> add_face qsort [] z f = Ok new -> pairs_up new = Ok lines ->
  (3 <= length f)%nat -> Forall small3 f -> (forall p, In p new -> at_ u v p <> t) ->
  exists cuts, Forall2 (cut_point z) (filter (crossing z) (edges f)) cuts /\
    Nat.odd (length (filter (covers u v t) lines)) = Nat.odd (length (filter (fun p => at_ u v p <? t) cuts)).
Proof. exact face_cover. Qed.
Example C41_even_odd_ex : Forall small3 U_shape /\
  add_face isort [] 5 U_shape = Ok [(2, 8); (8, 2); (0, 10); (10, 0)] /\
  pairs_up [(2, 8); (8, 2); (0, 10); (10, 0)] = Ok [((2, 8), (8, 2)); ((0, 10), (10, 0))] /\
  map (fun t => length (filter (covers 1 0 t) [((2, 8), (8, 2)); ((0, 10), (10, 0))])) [1; 5; 9; 11] = [1; 2; 1; 0]%nat.
Proof. repeat split; repeat constructor; cbn; lia. Qed.

Print Assumptions C10_face.
Print Assumptions C10_parity.
Print Assumptions C10_direction.
Print Assumptions C11_slice.
Print Assumptions C11_drop.
Print Assumptions C11_result.
Print Assumptions C41_sorted_partial.
Print Assumptions C41_sorted_refuted.
Print Assumptions C41_even_odd.

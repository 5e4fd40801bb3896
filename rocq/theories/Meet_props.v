(** C60: the check for intersections that the tests of the project rely on. *)
From Coq Require Import ZArith QArith Bool List Lia Lqa.
From Verif Require Import Matq_model Matq_spec Matq_proofs4 Meet_model Meet_spec Meet_proofs Meet_proofs2.
Import ListNotations.
Local Open Scope Z_scope.

(** In range, the check never fails.  It returns 0 exactly if no two lines have a common inner
    point, except for lines that are the same.  Otherwise it returns two lines of the list that
    have a common inner point and either exactly such a point, as a valid fraction, or, for
    collinear lines, an end point of one of them. *)
Theorem C60_no_intersection : forall gon : list line,
  Forall proper gon -> Forall line_int gon -> Forall line_range gon ->
  exists o, has_intersect gon = Ok o /\
    (o = None <-> forall a b, In a gon -> In b gon -> ~ meet a b) /\
    forall i a b, o = Some (i, a, b) ->
      In a gon /\ In b gon /\ meet a b /\
      ((valid (fst i) /\ valid (snd i) /\
        inside (value (fst i)) (value (snd i)) a /\ inside (value (fst i)) (value (snd i)) b) \/
       (parallel (fst a) (snd a) (fst b) (snd b) /\ (end_of i a \/ end_of i b))).
Proof.
  intros gon P I R.
  assert (G : Forall good gon).
  { rewrite Forall_forall in *. intros l L. split; auto. }
  pose proof (outer_sat (Forall line_range gon) gon gon G G ltac:(auto)) as S.
  unfold has_intersect. destruct (outer gon gon) as [o| |]; cbn [sat] in S; [|contradiction|contradiction].
  exists o. split; [reflexivity|]. destruct o as [[[i a] b]|]; cbn in S.
  - destruct S as (IA & IB & M & F). split.
    + split; [discriminate|]. intros N. elim (N a b IA IB M).
    + intros i' a' b' E. injection E as <- <- <-. unfold found in F. auto.
  - split; [tauto|]. discriminate.
Qed.

(** For all coordinates that are ints: whatever is returned is right (but the overflow checks may
    reject), and nothing is undefined. *)
Theorem C60_any_ints : forall gon : list line,
  Forall proper gon -> Forall line_int gon ->
  has_intersect gon <> UB /\
  (has_intersect gon = Ok None -> forall a b, In a gon -> In b gon -> ~ meet a b) /\
  (forall i a b, has_intersect gon = Ok (Some (i, a, b)) -> In a gon /\ In b gon /\ meet a b).
Proof.
  intros gon P I.
  assert (G : Forall good gon).
  { rewrite Forall_forall in *. intros l L. split; auto. }
  pose proof (outer_sat (Forall line_range gon) gon gon G G ltac:(auto)) as S.
  unfold has_intersect. destruct (outer gon gon) as [o| |]; cbn [sat] in S; [|split; [discriminate|split; discriminate]|contradiction].
  split; [discriminate|]. split.
  - intros E. injection E as ->. exact S.
  - intros i a b E. injection E as ->. cbn in S. tauto.
Qed.

(** Two lines that cross at (8/3, 4/3), two that overlap, and lines that only share end points. *)
Example C60_examples :
  has_intersect [((0, 0), (8, 4)); ((4, 0), (2, 2))] =
    Ok (Some ((mk_dimif 2 16 24, mk_dimif 1 8 24), ((0, 0), (8, 4)), ((4, 0), (2, 2)))) /\
  has_intersect [((0, 0), (0, 3)); ((0, 5), (0, 2))] =
    Ok (Some ((mk_dimif 0 0 1, mk_dimif 3 0 1), ((0, 0), (0, 3)), ((0, 5), (0, 2)))) /\
  has_intersect [((0, 0), (4, 0)); ((4, 0), (2, 3)); ((2, 3), (0, 0)); ((4, 0), (0, 0)); ((4, 0), (6, 0))] = Ok None /\
  Forall proper [((0, 0), (8, 4)); ((4, 0), (2, 2))] /\
  Forall line_int [((0, 0), (8, 4)); ((4, 0), (2, 2))] /\
  Forall line_range [((0, 0), (8, 4)); ((4, 0), (2, 2))].
Proof.
  split; [vm_compute; reflexivity|]. split; [vm_compute; reflexivity|]. split; [vm_compute; reflexivity|].
  split; [|split]; repeat (constructor; [|]); try apply Forall_nil;
    unfold proper, line_int, line_range, vec_int, vec_range, is_int, in_range; cbn;
    try discriminate; repeat split; lia.
Qed.

(** op-sweep.h 180: "(including junctions)" -- an end of a line on the inside of another is not found. *)
Theorem C60_junctions_refuted :
  ~ (forall gon, Forall proper gon -> Forall line_range gon ->
       has_intersect gon = Ok None -> forall a b, In a gon -> In b gon -> ~ touch a b).
Proof.
  intros H.
  refine (H [((0, 0), (4, 0)); ((2, 0), (2, 3))] _ _ _ ((0, 0), (4, 0)) ((2, 0), (2, 3)) _ _ _).
  - repeat constructor; discriminate.
  - repeat constructor; cbn; lia.
  - vm_compute. reflexivity.
  - cbn. auto.
  - cbn. auto.
  - split; [intros [E|E]; discriminate E|]. exists 2%Q, 0%Q. split; [|split].
    + exists (1 # 2)%Q. cbn. repeat split; vm_compute; congruence.
    + exists 0%Q. cbn. repeat split; vm_compute; congruence.
    + left. exists (1 # 2)%Q. cbn. repeat split; vm_compute; congruence.
Qed.

(** op-sweep.h 189-190: the point returned for an overlap "will be equal to one of the end points
    and will be a strictly inner point on the other line" -- it need not be on the other line. *)
Theorem C60_inner_point_refuted :
  ~ (forall gon i a b, Forall proper gon -> Forall line_range gon ->
       has_intersect gon = Ok (Some (i, a, b)) ->
       (end_of i a /\ inside (value (fst i)) (value (snd i)) b) \/
       (end_of i b /\ inside (value (fst i)) (value (snd i)) a) \/
       ~ parallel (fst a) (snd a) (fst b) (snd b)).
Proof.
  intros H.
  assert (NI : ~ inside (value (mk_dimif 10 0 1)) (value (mk_dimif 0 0 1)) ((0, 0), (5, 0))).
  { intros (t & T & X & _). change (value (mk_dimif 10 0 1)) with (10 # 1)%Q in X. cbn [fst snd] in X.
    change (inject_Z 5) with (5 # 1)%Q in X. change (inject_Z 0) with 0%Q in X. destruct T. lra. }
  assert (NE : ~ end_of (mk_dimif 10 0 1, mk_dimif 0 0 1) ((0, 0), (5, 0))).
  { intros [E|E]; discriminate E. }
  destruct (H [((10, 0), (2, 0)); ((0, 0), (5, 0))] (mk_dimif 10 0 1, mk_dimif 0 0 1)
              ((10, 0), (2, 0)) ((0, 0), (5, 0))) as [[_ J]|[[J _]|J]].
  - repeat constructor; discriminate.
  - repeat constructor; cbn; lia.
  - vm_compute. reflexivity.
  - exact (NI J).
  - exact (NE J).
  - apply J. unfold parallel. cbn. reflexivity.
Qed.

(** A line of length zero makes an assertion fail. *)
Theorem C60_zero_length_refuted :
  ~ (forall gon, Forall line_range gon -> has_intersect gon <> Fail).
Proof.
  intros H. apply (H [((1, 1), (1, 1))]); [repeat constructor; cbn; lia|]. vm_compute. reflexivity.
Qed.

Print Assumptions C60_no_intersection.
Print Assumptions C60_any_ints.
Print Assumptions C60_junctions_refuted.
Print Assumptions C60_inner_point_refuted.
Print Assumptions C60_zero_length_refuted.

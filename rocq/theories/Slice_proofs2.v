(** The order of cut points along the cut line. *)
From Coq Require Import ZArith Bool List Permutation Sorted Lia ZifyBool.
From Verif Require Import Matq_model Slice_model Slice_spec Slice_proofs.
Import ListNotations.
Local Open Scope Z_scope.

Definition dist2 (o p : vec2) : Z :=
  (fst p - fst o) * (fst p - fst o) + (snd p - snd o) * (snd p - snd o).

Lemma sqr_dist_val a b k : vec2_sqr_dist a b = Ok k -> k = dist2 b a.
Proof.
  unfold vec2_sqr_dist, sqr_len, dim_sub, dim_mul, dimw_add, ck32, ck64, dist2.
  repeat match goal with |- context [if ?c then _ else _] => destruct c; cbn [bind]; try discriminate end.
  intros [= <-]. reflexivity.
Qed.

Lemma keys_val o l ks : keys o l = Ok ks -> Forall (fun k => fst k = dist2 o (snd k)) ks.
Proof.
  revert ks. induction l as [|p l IH]; intros ks; cbn [keys].
  - intros [= <-]. constructor.
  - intros H. apply bind_ok in H as (k & K & H). apply bind_ok in H as (r & R & [= <-]).
    constructor; [cbn; apply sqr_dist_val, K|auto].
Qed.

Lemma bb_min_le l m : let b := fold_left (fun m p : vec2 => (Z.min (fst m) (fst p), Z.min (snd m) (snd p))) l m in
  fst b <= fst m /\ snd b <= snd m /\ forall p, In p l -> fst b <= fst p /\ snd b <= snd p.
Proof.
  revert m. induction l as [|p l IH]; intros m; cbn [fold_left].
  - split; [|split]; try reflexivity. intros p [].
  - destruct (IH (Z.min (fst m) (fst p), Z.min (snd m) (snd p))) as (H1 & H2 & H3). cbn [fst snd] in *.
    cbv zeta. split; [lia|]. split; [lia|]. intros q [<-|I]; [lia|auto].
Qed.

Lemma sorted_map {A B} (R : A -> A -> Prop) (S : B -> B -> Prop) (g : A -> B) l :
  (forall a b, In a l -> In b l -> R a b -> S (g a) (g b)) -> StronglySorted R l -> StronglySorted S (map g l).
Proof.
  intros H SS. induction SS as [|a l SS IH F]; cbn [map]; constructor.
  - apply IH. intros x y X Y. apply H; right; assumption.
  - rewrite Forall_forall in *. intros y Y. apply in_map_iff in Y as (x & <- & X).
    apply H; [left; reflexivity|right; assumption|auto].
Qed.

(** what is known about the order in general *)
Lemma add_face_sorted qsort out z f new : sorts qsort -> add_face qsort out z f = Ok (out ++ new) ->
  exists o, (forall p, In p new -> fst o <= fst p /\ snd o <= snd p) /\
    StronglySorted (fun p q => dist2 o p <= dist2 o q) new.
Proof.
  intros QS. unfold add_face. destruct (Nat.ltb (length f) 3).
  { intros [= E]. assert (new = []) as ->. { apply (app_inv_head out). rewrite app_nil_r. auto. }
    exists (0, 0). split; [intros p []|constructor]. }
  intros H. apply bind_ok in H as (_ & _ & H). apply bind_ok in H as (o2 & L & H).
  rewrite face_loop_eq in L by lia. cbn [skipn] in L. apply bind_ok in L as (r & R & [= <-]).
  rewrite skipn_app, firstn_app, firstn_all, skipn_all, Nat.sub_diag, app_length in H. cbn [skipn firstn app] in H.
  rewrite app_nil_r in H. replace (length out + length r - length out)%nat with (length r) in H by lia.
  apply bind_ok in H as (_ & _ & H).
  destruct (Nat.eqb_spec (length r) 0) as [Z|Z].
  - injection H as H. apply app_inv_head in H as <-. destruct r; [|discriminate].
    exists (0, 0). split; [intros p []|constructor].
  - apply bind_ok in H as (ks & K & H). injection H as H. apply app_inv_head in H as <-.
    exists (bb_min r). destruct (QS ks) as [P S]. split.
    + intros p I. apply in_map_iff in I as (k & <- & I). apply (Permutation_in _ (Permutation_sym P)) in I.
      pose proof (in_map snd _ _ I) as J. rewrite (keys_snd _ _ _ K) in J.
      apply (proj2 (proj2 (bb_min_le r (2147483647, 2147483647)))), J.
    + refine (sorted_map _ _ _ _ _ S). intros a b A B AB. pose proof (keys_val _ _ _ K) as V.
      rewrite Forall_forall in V.
      rewrite <- (V a), <- (V b); [exact AB| |];
      apply (Permutation_in _ (Permutation_sym P)); assumption.
Qed.

Lemma dist_before o p q : fst o <= fst p -> snd o <= snd p -> fst o <= fst q -> snd o <= snd q ->
  0 <= (fst q - fst p) * (snd q - snd p) -> dist2 o p <= dist2 o q -> before p q /\ snd p <= snd q.
Proof.
  destruct o as [ox oy], p as [px py], q as [qx qy]. unfold dist2, before. cbn [fst snd]. intros.
  assert (px <= qx /\ py <= qy); [|lia].
  destruct (Z.lt_trichotomy px qx) as [C|[C|C]].
  - split; [lia|]. nia.
  - subst. split; [lia|]. nia.
  - exfalso. assert (qy <= py) by nia. nia.
Qed.

Lemma sorted_ascending qsort out z f new : sorts qsort -> add_face qsort out z f = Ok (out ++ new) ->
  ascending new -> StronglySorted (fun p q => before p q /\ snd p <= snd q) new.
Proof.
  intros QS A AS. destruct (add_face_sorted _ _ _ _ _ QS A) as (o & O & S).
  rewrite <- (map_id new). refine (sorted_map _ _ _ _ _ S). intros p q P Q. apply dist_before.
  all: try apply O; auto.
Qed.

Lemma odd_S n : Nat.odd (S n) = negb (Nat.odd n).
Proof. rewrite Nat.odd_succ, <- Nat.negb_odd. reflexivity. Qed.

(** positions are passed by an odd number of lines iff an odd number of points is on either side *)
Lemma pairs_cover u v t : forall out lines, pairs_up out = Ok lines -> (forall p, In p out -> at_ u v p <> t) ->
  Nat.odd (length (filter (covers u v t) lines)) = Nat.odd (length (filter (fun p => at_ u v p <? t) out)).
Proof.
  fix IH 1. intros [|a [|b out]] lines; cbn [pairs_up].
  - intros [= <-] _. reflexivity.
  - discriminate.
  - intros H N. apply bind_ok in H as (r & R & [= <-]).
    assert (N' : forall p, In p out -> at_ u v p <> t) by (intros p I; apply N; right; right; exact I).
    specialize (IH out r R N').
    pose proof (N a (or_introl eq_refl)) as NA. pose proof (N b (or_intror (or_introl eq_refl))) as NB.
    cbn [filter]. unfold covers at 1. cbn [fst snd].
    destruct (Z.ltb_spec (at_ u v a) t), (Z.ltb_spec (at_ u v b) t),
      (Z.ltb_spec t (at_ u v a)), (Z.ltb_spec t (at_ u v b)); try lia; cbn [andb orb length];
      rewrite ?odd_S, ?negb_involutive, ?IH; reflexivity.
Qed.

Lemma face_cover qsort z f new lines u v t : sorts qsort -> add_face qsort [] z f = Ok new -> pairs_up new = Ok lines ->
  (3 <= length f)%nat -> Forall small3 f -> (forall p, In p new -> at_ u v p <> t) ->
  exists cuts, Forall2 (cut_point z) (filter (crossing z) (edges f)) cuts /\
    Nat.odd (length (filter (covers u v t) lines)) = Nat.odd (length (filter (fun p => at_ u v p <? t) cuts)).
Proof.
  intros QS A P L S N. destruct (add_face_ok qsort [] z f QS S) as (cuts & new' & A' & _ & F & PM); [exists 0%nat; reflexivity|exact L|].
  cbn [app] in A'. rewrite A in A'. injection A' as <-. exists cuts. split; [exact F|].
  rewrite (pairs_cover u v t new lines P N). f_equal. symmetry. apply filter_perm_length. exact PM.
Qed.

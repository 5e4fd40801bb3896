(** Rotational extrusion: indices of points, and faces *)
From Coq Require Import List Bool Arith Lia ZifyBool Permutation ZArith QArith.
From Verif Require Import Mesh_spec Mesh_proofs Tower_model Tower_spec Tower_proofs Tower_proofs2 Rot_model Rot_spec.
Import ListNotations.
Local Open Scope nat_scope.

(** ** Ranks *)
Section Rank.
Context {A : Type} (f : A -> bool).
Definition rank (l : list A) (i : nat) : nat := length (filter f (firstn i l)).
Lemma rank_S : forall l i x, nth_error l i = Some x -> rank l (S i) = rank l i + (if f x then 1 else 0).
Proof.
  unfold rank. induction l as [|y l IH]; intros [|i] x H; try discriminate.
  - injection H as ->. cbn. destruct (f x); reflexivity.
  - cbn [firstn filter]. specialize (IH i x H). cbn [firstn] in IH. destruct (f y); cbn [length]; rewrite IH; reflexivity.
Qed.
Lemma rank_le : forall l i j, i <= j -> rank l i <= rank l j.
Proof.
  intros l i j H. induction H as [|j H IH]; [lia|]. destruct (nth_error l j) as [x|] eqn:E.
  - rewrite (rank_S l j x E). lia.
  - apply nth_error_None in E. unfold rank in *. rewrite (firstn_all2 l (n := S j)) by lia. rewrite (firstn_all2 l (n := j)) in IH by lia. exact IH.
Qed.
Lemma rank_lt : forall l i j x, nth_error l i = Some x -> f x = true -> i < j -> rank l i < rank l j.
Proof. intros l i j x E F L. pose proof (rank_S l i x E). rewrite F in H. pose proof (rank_le l (S i) j L). lia. Qed.
Lemma rank_all : forall l, rank l (length l) = length (filter f l).
Proof. intros. unfold rank. rewrite firstn_all. reflexivity. Qed.
Lemma rank_max : forall l i x, nth_error l i = Some x -> f x = true -> rank l i < length (filter f l).
Proof. intros l i x E F. rewrite <- rank_all. apply (rank_lt l i (length l) x E F). apply nth_error_Some. congruence. Qed.
End Rank.
Lemma filter_len : forall {A} (f : A -> bool) l, length (filter f l) + length (filter (fun x => negb (f x)) l) = length l.
Proof. induction l as [|x l IH]; [reflexivity|]. cbn. destruct (f x); cbn; lia. Qed.

Lemma edges_nth : forall (f : list nat), edges f = map (fun l => (nth l f 0, nth (wrap_add1 l (length f)) f 0)) (seq 0 (length f)).
Proof.
  intros [|x r]; [reflexivity|]. cbn [edges]. set (f := x :: r). set (g := fun l => (nth l f 0, nth (wrap_add1 l (length f)) f 0)).
  apply (nth_ext _ _ (0, 0) (g 0)).
  - rewrite combine_length, map_length, seq_length, app_length. unfold f. cbn [length]. lia.
  - intros i L. rewrite (map_nth g). unfold g. rewrite combine_length, app_length in L. unfold f in L. cbn [length] in L.
    rewrite combine_nth by (rewrite app_length; unfold f; cbn; lia). rewrite seq_nth by (unfold f; cbn; lia). cbn [Nat.add]. f_equal.
    unfold wrap_add1. cbn zeta. destruct (S i =? length f) eqn:E.
    + apply Nat.eqb_eq in E. unfold f in E. cbn in E. injection E as E. rewrite app_nth2 by lia. subst i. rewrite Nat.sub_diag. reflexivity.
    + apply Nat.eqb_neq in E. unfold f in E. cbn in E. rewrite app_nth1 by lia. reflexivity.
Qed.
Lemma foldM_flat : forall {A B} (step : list B -> A -> option (list B)) (g : A -> list B) l st,
  (forall x st, In x l -> step st x = Some (st ++ g x)) -> foldM step l st = Some (st ++ flat_map g l).
Proof.
  intros A B step g. induction l as [|x l IH]; intros st H; cbn; [rewrite app_nil_r; reflexivity|].
  rewrite H by (left; reflexivity). cbn [bind]. rewrite IH by (intros; apply H; right; assumption). rewrite <- app_assoc. reflexivity.
Qed.
Lemma edge_in : forall {A} (f : list A) e, In e (edges f) -> In (fst e) f /\ In (snd e) f.
Proof.
  intros A f e I. split; [rewrite <- (map_fst_edges f); apply in_map; exact I|]. apply (Permutation_in _ (map_snd_edges f)). apply in_map. exact I.
Qed.
Lemma face4_in : forall a b c d i, In i (face4 a b c d) -> i = a \/ i = b \/ i = c \/ i = d.
Proof.
  intros a b c d i I. unfold face4 in I. destruct (negb (a =? b)), (negb (a =? c) && negb (b =? c)), (negb (a =? d) && negb (b =? d) && negb (c =? d));
    cbn in I; intuition.
Qed.

Section Rot.
Variables (zero : Q -> bool) (p2 : list (Q * Q)).
Definition axq (q : Q * Q) : bool := zero (fst q).
Definition n0 : nat := length (filter axq p2).
Definition n1 : nat := length (filter (fun q => negb (axq q)) p2).
Definition ax (i : nat) : bool := axq (nth i p2 (0, 0)%Q).
Definition V (i j : nat) : nat := if ax i then rank axq p2 i else rank (fun q => negb (axq q)) p2 i + n0 + n1 * j.
Definition idx_of (l : list (Q * Q)) (x0 xi i : nat) : nat :=
  if axq (nth i l (0, 0)%Q) then 2 * (x0 + rank axq l i) else 2 * (xi + rank (fun q => negb (axq q)) l i) + 1.
Definition isneg (q : Q * Q) : bool := negb (Qle_bool 0 (fst q)).

Lemma tup5 : forall {A B C D E} (a a' : A) (b b' : B) (c c' : C) (d d' : D) (e e' : E), a = a' -> b = b' -> c = c' -> d = d' -> e = e' -> (a, b, c, d, e) = (a', b', c', d', e').
Proof. intros. subst. reflexivity. Qed.
Lemma partition_ok : forall l x0 xi hf ht, partition zero l x0 xi hf ht =
  (map (idx_of l x0 xi) (seq 0 (length l)), x0 + length (filter axq l), xi + length (filter (fun q => negb (axq q)) l),
   hf || existsb (fun q => negb (axq q) && negb (isneg q)) l, ht || existsb (fun q => negb (axq q) && isneg q) l).
Proof.
  induction l as [|q l IH]; intros x0 xi hf ht.
  - cbn. rewrite !Nat.add_0_r, !orb_false_r. reflexivity.
  - cbn [partition length seq map filter existsb]. change (zero (fst q)) with (axq q). rewrite <- seq_shift, map_map. destruct (axq q) eqn:E; cbn [negb andb orb].
    + rewrite IH. cbn [length]. apply tup5; try lia; try reflexivity.
      * f_equal; [unfold idx_of; cbn [nth]; rewrite E; unfold rank; cbn; lia|]. apply map_ext. intros i. unfold idx_of. cbn [nth]. unfold rank. cbn [firstn filter]. rewrite E. cbn [negb length].
        destruct (axq (nth i l (0, 0)%Q)); lia.
    + rewrite IH. cbn [length]. change (negb (Qle_bool 0 (fst q))) with (isneg q). apply tup5; try lia; try (rewrite <- orb_assoc; reflexivity).
      * f_equal; [unfold idx_of; cbn [nth]; rewrite E; unfold rank; cbn; lia|]. apply map_ext. intros i. unfold idx_of. cbn [nth]. unfold rank. cbn [firstn filter]. rewrite E. cbn [negb length].
        destruct (axq (nth i l (0, 0)%Q)); lia.
Qed.

Definition idx : list nat := map (idx_of p2 0 0) (seq 0 (length p2)).
Lemma n0n1 : n0 + n1 = length p2.
Proof. unfold n0, n1. apply filter_len. Qed.
Lemma xi_n1 : xi_cnt p2 n0 = n1.
Proof. unfold xi_cnt. pose proof n0n1. lia. Qed.
Lemma nth_p2 : forall i, i < length p2 -> nth_error p2 i = Some (nth i p2 (0, 0)%Q).
Proof. intros. apply nth_error_nth'. assumption. Qed.
Lemma nth_idx : forall i, i < length p2 -> nth_error idx i = Some (idx_of p2 0 0 i).
Proof.
  intros i H. unfold idx. rewrite nth_error_map. rewrite (nth_error_nth' _ 0) by (rewrite seq_length; exact H). rewrite seq_nth by exact H. reflexivity.
Qed.
Lemma idx_odd : forall i, Nat.odd (idx_of p2 0 0 i) = negb (ax i).
Proof.
  intros. unfold idx_of. fold (ax i). destruct (ax i); cbn [negb].
  - rewrite <- Nat.negb_even, Nat.even_mul. reflexivity.
  - rewrite Nat.odd_add, <- Nat.negb_even, Nat.even_mul. reflexivity.
Qed.
Lemma idx_div : forall i, Nat.div2 (idx_of p2 0 0 i) = if ax i then rank axq p2 i else rank (fun q => negb (axq q)) p2 i.
Proof. intros. unfold idx_of. fold (ax i). destruct (ax i); rewrite ?Nat.add_0_l; [apply Nat.div2_double|rewrite Nat.add_1_r; apply Nat.div2_succ_double]. Qed.
Lemma rank0_lt : forall i, i < length p2 -> ax i = true -> rank axq p2 i < n0.
Proof. intros i H A. apply (rank_max axq p2 i _ (nth_p2 i H) A). Qed.
Lemma rank1_lt : forall i, i < length p2 -> ax i = false -> rank (fun q => negb (axq q)) p2 i < n1.
Proof. intros i H A. apply (rank_max (fun q => negb (axq q)) p2 i _ (nth_p2 i H)). change (negb (ax i) = true). rewrite A. reflexivity. Qed.
Lemma rotext_idx_ok : forall i j, i < length p2 -> rotext_idx n0 (xi_cnt p2 n0) idx i j = Some (V i j).
Proof.
  intros i j H. unfold rotext_idx, V. rewrite (nth_idx i H). cbn [bind]. rewrite idx_odd, idx_div, xi_n1. destruct (ax i) eqn:A; cbn [negb]; [|reflexivity].
  pose proof (rank0_lt i H A). unfold check. replace (rank axq p2 i <? n0) with true by (symmetry; lia). reflexivity.
Qed.
Lemma rank_inj : forall f i i', i < length p2 -> i' < length p2 -> f (nth i p2 (0, 0)%Q) = true -> f (nth i' p2 (0, 0)%Q) = true -> rank f p2 i = rank f p2 i' -> i = i'.
Proof.
  intros f i i' H H' F F' E. destruct (lt_eq_lt_dec i i') as [[L|L]|L]; [|exact L|].
  - pose proof (rank_lt f p2 i i' _ (nth_p2 i H) F L). lia.
  - pose proof (rank_lt f p2 i' i _ (nth_p2 i' H') F' L). lia.
Qed.
Lemma V_inj : forall i j i' j', i < length p2 -> i' < length p2 -> V i j = V i' j' -> i = i' /\ (ax i = true \/ j = j').
Proof.
  intros i j i' j' H H' E. unfold V in E. destruct (ax i) eqn:A, (ax i') eqn:A'.
  - split; [apply (rank_inj axq); assumption|left; reflexivity].
  - pose proof (rank0_lt i H A). nia.
  - pose proof (rank0_lt i' H' A'). nia.
  - pose proof (rank1_lt i H A). pose proof (rank1_lt i' H' A'). assert (j = j').
    { destruct (lt_eq_lt_dec j j') as [[L|L]|L]; [|exact L|]; exfalso.
      - assert (n1 * S j <= n1 * j') by (apply Nat.mul_le_mono_l; lia). lia.
      - assert (n1 * S j' <= n1 * j) by (apply Nat.mul_le_mono_l; lia). lia. }
    subst. split; [|right; reflexivity]. apply (rank_inj (fun q => negb (axq q))); try assumption; try lia.
    + change (negb (ax i) = true). rewrite A. reflexivity.
    + change (negb (ax i') = true). rewrite A'. reflexivity.
Qed.
Lemma V_ax : forall i j j', ax i = true -> V i j = V i j'.
Proof. intros i j j' A. unfold V. rewrite A. reflexivity. Qed.
Lemma V_bound : forall i j s, i < length p2 -> j < s -> V i j < n0 + n1 * s.
Proof.
  intros i j s H J. unfold V. destruct (ax i) eqn:A.
  - pose proof (rank0_lt i H A). lia.
  - pose proof (rank1_lt i H A). assert (n1 * S j <= n1 * s) by (apply Nat.mul_le_mono_l; lia). lia.
Qed.
Lemma V_eqb : forall i j i' j', i < length p2 -> i' < length p2 -> (V i j =? V i' j') = (i =? i') && (ax i || (j =? j')).
Proof.
  intros i j i' j' H H'. destruct (V i j =? V i' j') eqn:E; symmetry.
  - apply Nat.eqb_eq in E. apply V_inj in E; [|assumption..]. destruct E as (-> & [A|A]); rewrite Nat.eqb_refl; [rewrite A; reflexivity|]. subst. rewrite Nat.eqb_refl, orb_true_r. reflexivity.
  - apply Nat.eqb_neq in E. apply andb_false_iff. destruct (i =? i') eqn:I; [right|left; reflexivity]. apply Nat.eqb_eq in I. subst. destruct (ax i') eqn:A; cbn.
    + exfalso. apply E. apply V_ax. exact A.
    + apply Nat.eqb_neq. intros ->. apply E. reflexivity.
Qed.

(** ** Faces *)
Variables (paths : list (list nat)) (s : nat).
Hypothesis (POK : paths_ok (length p2) paths) (S2 : 2 <= s).
Definition quad (rv : bool) (j : nat) (e : nat * nat) : list (list nat) :=
  let f := face4 (V (fst e) j) (V (snd e) j) (V (snd e) (S j)) (V (fst e) (S j)) in if length f <? 3 then [] else [rev_perhaps rv f].
Definition caps (rv : bool) (pa : list nat) : list (list nat) :=
  [rev_perhaps (negb rv) (map (fun i => V i 0) pa); rev_perhaps rv (map (fun i => V i (s - 1)) pa)].
Definition arc_faces (rv : bool) : list (list nat) :=
  flat_map (fun j => flat_map (quad rv j) (all_edges paths)) (seq 0 (s - 1)) ++ flat_map (caps rv) paths.

Lemma path_pts : forall e, In e (all_edges paths) -> fst e < length p2 /\ snd e < length p2.
Proof.
  intros e I. apply in_flat_map in I. destruct I as (f & F & I). apply edge_in in I. split; apply POK; apply in_concat; exists f; tauto.
Qed.
Lemma connect_ok : forall rv, connect p2 paths idx n0 (pt_cnt p2 n0 s) s rv = Some (flat_map (fun j => flat_map (quad rv j) (all_edges paths)) (seq 0 (s - 1))).
Proof.
  intros rv. unfold connect. rewrite (foldM_flat _ (fun j1 => flat_map (quad rv (j1 - 1)) (all_edges paths))).
  - cbn [app]. rewrite <- seq_shift, flat_map_concat_map, map_map, <- flat_map_concat_map. f_equal. apply flat_map_in_ext. intros j _. rewrite Nat.sub_succ, Nat.sub_0_r. reflexivity.
  - intros j1 st J. apply in_seq in J. rewrite (foldM_flat _ (fun pa => flat_map (quad rv (j1 - 1)) (edges pa))).
    + f_equal. f_equal. unfold all_edges. rewrite flat_flat. reflexivity.
    + intros pa st' IP. rewrite (foldM_flat _ (fun l => quad rv (j1 - 1) (nth l pa 0, nth (wrap_add1 l (length pa)) pa 0))).
      * f_equal. f_equal. rewrite edges_nth, flat_map_concat_map, (flat_map_concat_map _ (map _ _)), map_map. reflexivity.
      * intros l st'' IL. apply in_seq in IL. unfold connect1.
        assert (W : wrap_add1 l (length pa) < length pa) by (apply wrap_lt; lia).
        rewrite (nth_error_nth' pa 0) by lia. cbn [bind]. rewrite (nth_error_nth' pa 0) by exact W. cbn [bind].
        set (a := nth l pa 0). set (b := nth _ pa 0).
        assert (LA : a < length p2) by (apply POK, in_concat; exists pa; split; [exact IP|apply nth_In; lia]).
        assert (LB : b < length p2) by (apply POK, in_concat; exists pa; split; [exact IP|apply nth_In; exact W]).
        rewrite !rotext_idx_ok by assumption. cbn [bind]. unfold push_face4, quad. cbn [fst snd]. replace (S (j1 - 1)) with j1 by lia.
        set (f := face4 _ _ _ _). destruct (length f <? 3); [rewrite app_nil_r; reflexivity|].
        replace (forallb (fun i => i <? pt_cnt p2 n0 s) f) with true; [reflexivity|]. symmetry. apply forallb_forall. intros i I. apply face4_in in I.
        unfold pt_cnt. rewrite xi_n1. apply Nat.ltb_lt. destruct I as [->|[->|[->| ->]]]; apply V_bound; try assumption; lia.
Qed.
Lemma end_ok : forall j rv st pa, In pa paths -> j < s -> end_face p2 idx n0 (pt_cnt p2 n0 s) j rv st pa = Some (st ++ [rev_perhaps rv (map (fun i => V i j) pa)]).
Proof.
  intros j rv st pa I J. unfold end_face.
  assert (H : forall l, (forall i, In i l -> i < length p2) ->
    mapM (fun i2 => bind (rotext_idx n0 (xi_cnt p2 n0) idx i2 j) (fun i3 => check (i3 <? pt_cnt p2 n0 s) (Some i3))) l = Some (map (fun i => V i j) l)).
  { induction l as [|x l IH]; intros L; [reflexivity|]. cbn [mapM map]. rewrite rotext_idx_ok by (apply L; left; reflexivity). cbn [bind].
    replace (V x j <? pt_cnt p2 n0 s) with true by (unfold pt_cnt; rewrite xi_n1; pose proof (V_bound x j s (L x (or_introl eq_refl)) J); symmetry; lia).
    cbn [check bind]. rewrite IH by (intros; apply L; right; assumption). reflexivity. }
  rewrite H; [reflexivity|]. intros i K. apply POK, in_concat. exists pa. split; assumption.
Qed.
Lemma ends_ok : forall rv st, ends p2 paths idx n0 (pt_cnt p2 n0 s) s rv st = Some (st ++ flat_map (caps rv) paths).
Proof.
  intros rv st. unfold ends. apply foldM_flat. intros pa st' I. rewrite end_ok by (try exact I; lia). cbn [bind]. rewrite end_ok by (try exact I; lia).
  rewrite <- app_assoc. reflexivity.
Qed.
Lemma arc_rev : arc_faces true = map (@rev nat) (arc_faces false).
Proof.
  unfold arc_faces. rewrite map_app. f_equal.
  - rewrite map_flat. apply flat_map_in_ext. intros j _. rewrite map_flat. apply flat_map_in_ext. intros e _. unfold quad. destruct (_ <? 3); reflexivity.
  - rewrite map_flat. apply flat_map_in_ext. intros pa _. unfold caps. cbn. rewrite rev_involutive. reflexivity.
Qed.
End Rot.

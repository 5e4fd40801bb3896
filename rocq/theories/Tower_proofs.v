(** Proofs about towers: the faces are a closed surface *)
From Coq Require Import List Bool Arith Lia ZifyBool Permutation.
From Verif Require Import Mesh_spec Mesh_proofs Tower_model.
Import ListNotations.

(** ** The faces as a list *)
Lemma foldM_app : forall {A B} (step : list B -> A -> option (list B)) (g : A -> list B) N l st,
  (forall x st, In x l -> length st + length (g x) <= N -> step st x = Some (st ++ g x)) ->
  length st + length (flat_map g l) <= N -> foldM step l st = Some (st ++ flat_map g l).
Proof.
  induction l as [|x l IH]; intros st H L; cbn [foldM flat_map] in *; [rewrite app_nil_r; reflexivity|].
  rewrite app_length in L. rewrite H; [|left; reflexivity|lia]. cbn [bind]. rewrite IH.
  - rewrite app_assoc. reflexivity.
  - intros y s I. apply H. right. exact I.
  - rewrite app_length. lia.
Qed.
Lemma flat_map_len : forall {A B} (g : A -> list B) k l, (forall x, In x l -> length (g x) = k) -> length (flat_map g l) = length l * k.
Proof. induction l as [|x l IH]; intros H; cbn; [reflexivity|]. rewrite app_length, H by (left; reflexivity). rewrite IH; [reflexivity|]. intros. apply H. right. assumption. Qed.

Definition turn (r : bool) (f : list nat) : list nat := if r then rev f else f.
Section Faces.
Variables (npts fn fcnt : nat).
Lemma push_ok : forall st f r, length st < fcnt -> (forall i, In i f -> i < npts) -> 3 <= length f -> push_face npts fcnt st f r = Some (st ++ [turn r f]).
Proof.
  intros st f r L P H. unfold push_face, check. replace (length st <? fcnt) with true by (symmetry; lia).
  replace (points_ok npts f) with true. { replace (3 <=? length f) with true by (symmetry; lia). reflexivity. }
  symmetry. apply forallb_forall. intros i I. apply P in I. lia.
Qed.
Definition sides (t : tri) (i j : nat) : list (list nat) :=
  let k1 := i * fn in let k0 := k1 - fn in let j1 := wrap_add1 j fn in
  match t with
  | TRI_LEFT => [[k0 + j; k0 + j1; k1 + j]; [k1 + j1; k1 + j; k0 + j1]]
  | TRI_RIGHT => [[k0 + j; k0 + j1; k1 + j1]; [k1 + j1; k1 + j; k0 + j]]
  | TRI_NONE => [[k0 + j; k0 + j1; k1 + j1; k1 + j]]
  end.
Lemma wrap_lt : forall j n, j < n -> wrap_add1 j n < n.
Proof. intros. unfold wrap_add1. destruct (S j =? n) eqn:E; lia. Qed.
Lemma side_ok : forall rev t i st j, 1 <= i -> j < fn -> i * fn + fn <= npts -> length st + length (sides t i j) <= fcnt ->
  side npts fn fcnt rev t i st j = Some (st ++ map (turn (negb rev)) (sides t i j)).
Proof.
  intros r t i st j I J P L. pose proof (wrap_lt j fn J) as W. unfold side, sides in *. destruct t; cbn [length] in L.
  - rewrite push_ok; [reflexivity|lia| |cbn; lia]. intros x Q. cbn in Q. lia.
  - rewrite push_ok; [|lia| |cbn; lia]. 2:{ intros x Q. cbn in Q. lia. }
    cbn [bind]. rewrite push_ok; [rewrite <- app_assoc; reflexivity|rewrite app_length; cbn; lia| |cbn; lia]. intros x Q. cbn in Q. lia.
  - rewrite push_ok; [|lia| |cbn; lia]. 2:{ intros x Q. cbn in Q. lia. }
    cbn [bind]. rewrite push_ok; [rewrite <- app_assoc; reflexivity|rewrite app_length; cbn; lia| |cbn; lia]. intros x Q. cbn in Q. lia.
Qed.
Definition roofs (j : nat) : list nat := let kw := npts - 1 in let kv := kw - fn in [kv + j; kv + wrap_add1 j fn; kw].
Definition row (k : nat) : list nat := map (fun j => j + k) (seq 0 fn).
End Faces.

(** [m]: the number of layers of sides *)
Definition faces (npts fn m : nat) (has_top : bool) (t : tri) (r : bool) : list (list nat) :=
  turn r (row fn 0) :: (if has_top then [turn (negb r) (row fn (npts - fn))] else []) ++
  flat_map (fun i => flat_map (fun j => map (turn (negb r)) (sides fn t i j)) (seq 0 fn)) (seq 1 m) ++
  (if has_top then [] else map (fun j => turn (negb r) (roofs npts fn j)) (seq 0 fn)).
Lemma tower_ok : forall npts fn fnz neg rev t has_top, 3 <= fn -> 2 <= fnz -> npts = (if has_top : bool then fn * fnz else 1 + fn * (fnz - 1)) ->
  tower npts fn fnz neg rev t = Some (faces npts fn (fnz - b2n (negb has_top) - 1) has_top t (xorb neg rev)).
Proof.
  intros npts fn fnz neg rev t ht H3 H2 E. unfold tower. unfold check at 1. replace (3 <=? fn) with true by (symmetry; lia).
  replace (if neg then negb rev else rev) with (xorb neg rev) by (destruct neg, rev; reflexivity). set (r := xorb neg rev).
  assert (NE : fn * fnz <> 1 + fn * (fnz - 1)) by (replace fnz with (S (fnz - 1)) at 1 by lia; rewrite Nat.mul_succ_r; lia).
  replace (npts =? fn * fnz) with ht. 2:{ destruct ht; symmetry; lia. }
  replace (ht || (npts =? 1 + fn * (fnz - 1))) with true. 2:{ destruct ht; [reflexivity|]. symmetry. lia. } unfold check at 1.
  assert (EZ : exists z, fnz = S (S z)) by (exists (fnz - 2); lia). destruct EZ as (z & ->).
  replace (S (S z) - 2) with z by lia. replace (S (S z) - 1) with (S z) in * by lia.
  set (c := 1 + b2n (is_tri t)).
  assert (LS : forall i j, length (sides fn t i j) = c) by (intros; destruct t; reflexivity).
  set (fcnt := 1 + b2n ht + z * fn * c + fn * (1 + b2n (is_tri t && ht))).
  assert (FC : fcnt = 1 + b2n ht + (S (S z) - b2n (negb ht) - 1) * (fn * c) + (if ht then 0 else fn)).
  { unfold fcnt, c, b2n. destruct ht, t; cbn [is_tri andb negb]; replace (S (S z) - 0 - 1) with (S z) by lia; replace (S (S z) - 1 - 1) with z by lia; lia. }
  set (m := S (S z) - b2n (negb ht) - 1) in *.
  assert (RL : forall k, length (row fn k) = fn) by (intros; unfold row; rewrite map_length, seq_length; reflexivity).
  assert (RI : forall k i, k + fn <= npts -> In i (row fn k) -> i < npts).
  { intros k i K I. unfold row in I. apply in_map_iff in I. destruct I as (j & <- & I). apply in_seq in I. lia. }
  assert (FN : fn + fn <= fn * S (S z)) by (rewrite !Nat.mul_succ_r; lia).
  assert (FZ : fn <= fn * S z) by (rewrite !Nat.mul_succ_r; lia).
  assert (NP : fn < npts) by (destruct ht; lia).
  unfold face_from_poly_lid at 1. fold (row fn 0). rewrite push_ok; [|cbn; lia|intros i; apply RI; lia|rewrite RL; lia]. cbn [bind app].
  rewrite xorb_false_r.
  set (st1 := [turn r (row fn 0)]).
  assert (ST1 : (if ht then face_from_poly_lid npts fn fcnt st1 r true else Some st1) = Some (st1 ++ (if ht then [turn (negb r) (row fn (npts - fn))] else []))).
  { destruct ht; [|rewrite app_nil_r; reflexivity]. unfold face_from_poly_lid. fold (row fn (npts - fn)).
    rewrite push_ok; [rewrite xorb_true_r; reflexivity|cbn [length st1]; unfold fcnt, b2n; lia|intros i; apply RI; lia|rewrite RL; lia]. }
  rewrite ST1. cbn [bind]. set (st2 := st1 ++ _).
  assert (L2 : length st2 = 1 + b2n ht) by (unfold st2, st1; destruct ht; reflexivity).
  assert (LI : forall i, length (flat_map (fun j => map (turn (negb r)) (sides fn t i j)) (seq 0 fn)) = fn * c).
  { intros i. rewrite (flat_map_len _ c); [rewrite seq_length; reflexivity|]. intros. rewrite map_length. apply LS. }
  assert (MB : m * fn + fn <= npts).
  { unfold m. destruct ht; cbn [negb b2n]; [replace (S (S z) - 0 - 1) with (S z) by lia|replace (S (S z) - 1 - 1) with z by lia]; rewrite E, !Nat.mul_succ_r; lia. }
  rewrite (foldM_app _ (fun i => flat_map (fun j => map (turn (negb r)) (sides fn t i j)) (seq 0 fn)) fcnt).
  - cbn [bind]. set (st3 := st2 ++ _).
    assert (L3 : length st3 = 1 + b2n ht + m * (fn * c)) by (unfold st3; rewrite app_length, L2, (flat_map_len _ (fn * c)), seq_length; auto).
    assert (ST4 : (if ht then Some st3 else foldM (roof npts fn fcnt r) (seq 0 fn) st3) = Some (st3 ++ (if ht then [] else map (fun j => turn (negb r) (roofs npts fn j)) (seq 0 fn)))).
    { destruct ht; [rewrite app_nil_r; reflexivity|].
      rewrite (foldM_app _ (fun j => [turn (negb r) (roofs npts fn j)]) fcnt).
      - reflexivity.
      - intros j st I L. apply in_seq in I. unfold roof. apply (push_ok _ _ st (roofs npts fn j)); [cbn in L; lia| |cbn; lia].
        pose proof (wrap_lt j fn). intros i Q. unfold roofs in Q. cbn in Q. lia.
      - rewrite (flat_map_len _ 1), seq_length by reflexivity. lia. }
    rewrite ST4. cbn [bind]. unfold check.
    replace (length (st3 ++ _) =? fcnt) with true. 2:{ symmetry. rewrite app_length, L3. destruct ht; cbn [length]; rewrite ?map_length, ?seq_length; lia. }
    unfold st3, st2, st1, faces. cbn [app]. rewrite <- !app_assoc. reflexivity.
  - intros i st I L. apply in_seq in I. rewrite LI in L.
    apply (foldM_app _ (fun j => map (turn (negb r)) (sides fn t i j)) fcnt); [|rewrite LI; exact L].
    intros j st' J L'. apply in_seq in J. rewrite map_length in L'. apply side_ok; try lia.
    assert (i * fn <= m * fn) by (apply Nat.mul_le_mono_r; lia). lia.
  - rewrite (flat_map_len _ (fn * c)), seq_length by (intros; apply LI). lia.
Qed.

(** ** Points as pairs of layer and number *)
Section Sym.
Variables (n m : nat) (t : tri) (ht : bool).
Hypothesis N3 : 3 <= n.
Notation s := (fun j => wrap_add1 j n).
Definition ssides (i j : nat) : list (list (nat * nat)) :=
  match t with
  | TRI_LEFT => [[(i, j); (i, s j); (S i, j)]; [(S i, s j); (S i, j); (i, s j)]]
  | TRI_RIGHT => [[(i, j); (i, s j); (S i, s j)]; [(S i, s j); (S i, j); (i, j)]]
  | TRI_NONE => [[(i, j); (i, s j); (S i, s j); (S i, j)]]
  end.
Definition srow (i : nat) : list (nat * nat) := map (pair i) (seq 0 n).
Definition sroof (j : nat) : list (nat * nat) := [(m, j); (m, s j); (S m, 0)].
Definition sfaces : list (list (nat * nat)) :=
  rev (srow 0) :: (if ht then [srow m] else []) ++ flat_map (fun i => flat_map (ssides i) (seq 0 n)) (seq 0 m) ++ (if ht then [] else map sroof (seq 0 n)).

Definition dec2 (a b : nat * nat) : {a = b} + {a <> b}.
Proof. decide equality; apply Nat.eq_dec. Defined.
Definition dec (a b : (nat * nat) * (nat * nat)) : {a = b} + {a <> b}.
Proof. decide equality; apply dec2. Defined.
Definition evt := ((nat * nat) * (nat * nat))%type.
Notation c := (count_occ dec).
Notation on := (fun e x => one dec e x).

Lemma edges_seq : forall k a, edges (seq a (S k)) = map (fun j => (j, if S j =? a + S k then a else S j)) (seq a (S k)).
Proof.
  clear N3. intros k a. cbn [seq edges]. change (a :: seq (S a) k) with (seq a (S k)). 
  assert (H : forall k b, a <= b -> combine (seq b (S k)) (seq (S b) k ++ [a]) = map (fun j => (j, if S j =? b + S k then a else S j)) (seq b (S k))).
  { induction k0 as [|k0 IH]; intros b L; cbn [seq app combine map].
    - replace (S b =? b + 1) with true by (symmetry; lia). reflexivity.
    - replace (S b =? b + S (S k0)) with false by (symmetry; lia). f_equal.
      replace (b + S (S k0)) with (S b + S k0) by lia. exact (IH (S b) ltac:(lia)). }
  apply H. lia.
Qed.
Lemma edges_srow : forall i, edges (srow i) = map (fun j => ((i, j), (i, s j))) (seq 0 n).
Proof.
  intros i. unfold srow. rewrite edges_map. destruct n as [|k]; [lia|]. rewrite edges_seq. rewrite map_map. apply map_ext_in. intros j J. apply in_seq in J.
  unfold both. cbn [fst snd]. do 2 f_equal.
Qed.
Lemma wrap_perm : Permutation (map s (seq 0 n)) (seq 0 n).
Proof.
  destruct n as [|k]; [lia|]. apply (Permutation_trans (l' := seq 1 k ++ [0])).
  - rewrite seq_S, map_app. cbn [map]. unfold wrap_add1 at 2. cbn [plus]. rewrite Nat.eqb_refl. apply Permutation_app_tail.
    rewrite <- seq_shift. erewrite map_ext_in; [apply Permutation_refl|]. intros j J. apply in_seq in J. unfold wrap_add1. replace (S j =? S k) with false by (symmetry; lia). reflexivity.
  - cbn [seq]. rewrite Permutation_app_comm. reflexivity.
Qed.
Lemma sum_wrap : forall f, sum (fun j => f (s j)) (seq 0 n) = sum f (seq 0 n).
Proof. intros f. rewrite <- (sum_perm f _ _ wrap_perm). rewrite sum_map. reflexivity. Qed.

(** Kinds of edges *)
Definition kR (i j : nat) : evt := ((i, j), (i, s j)).
Definition kV (i j : nat) : evt := ((i, j), (S i, j)).
Definition kD (i j : nat) : evt := match t with TRI_RIGHT => ((i, j), (S i, s j)) | _ => ((i, s j), (S i, j)) end.
Definition kW (j : nat) : evt := ((m, j), (S m, 0)).
Definition cnt (e : evt) (k : nat -> evt) : nat := sum (fun j => one dec e (k j)) (seq 0 n).
Definition d01 (x : nat) : nat := match t with TRI_NONE => 0 | _ => x end.
Definition total (e : evt) : nat :=
  sum (fun i => cnt e (kR i) + cnt e (fun j => swap (kR i j))) (seq 0 (S m)) +
  sum (fun i => cnt e (kV i) + cnt e (fun j => swap (kV i j)) + d01 (cnt e (kD i) + cnt e (fun j => swap (kD i j)))) (seq 0 m) +
  (if ht then 0 else cnt e kW + cnt e (fun j => swap (kW j))).

Lemma flat_flat : forall {A B C} (f : A -> list B) (g : B -> list C) l, flat_map g (flat_map f l) = flat_map (fun x => flat_map g (f x)) l.
Proof. induction l as [|x l IH]; cbn; [reflexivity|]. rewrite flat_map_app, IH. reflexivity. Qed.
Lemma layer_count : forall e i, c (all_edges (flat_map (ssides i) (seq 0 n))) e =
  cnt e (kR i) + cnt e (fun j => swap (kR (S i) j)) + cnt e (kV i) + cnt e (fun j => swap (kV i j)) + d01 (cnt e (kD i) + cnt e (fun j => swap (kD i j))).
Proof.
  intros e i. unfold all_edges. rewrite flat_flat, count_flat. unfold cnt.
  assert (VW : sum (fun j => one dec e (kV i j)) (seq 0 n) = sum (fun j => one dec e (kV i (s j))) (seq 0 n)) by (symmetry; apply (sum_wrap (fun j => one dec e (kV i j)))).
  rewrite VW. unfold d01, kD, ssides. destruct t; rewrite <- ?sum_plus; rewrite ?Nat.add_0_r; rewrite <- ?sum_plus; apply sum_ext; intros j _;
    cbn [flat_map edges combine app]; rewrite !count_cons; cbn [count_occ]; unfold kR, kV, swap; cbn [fst snd]; lia.
Qed.
Lemma total_count : forall e, c (all_edges sfaces) e = total e.
Proof.
  intros e. unfold sfaces, total. cbn [all_edges flat_map]. change (flat_map edges) with (@all_edges (nat * nat)). unfold all_edges at 1. rewrite count_app.
  assert (B : c (edges (rev (srow 0))) e = cnt e (fun j => swap (kR 0 j))).
  { rewrite (proj1 (Permutation_count_occ dec _ _) (edges_rev (srow 0))), edges_srow, map_map, count_map. reflexivity. }
  change (flat_map edges ?x) with (all_edges x). 
  rewrite B, !all_edges_app, !count_app.
  assert (L : c (all_edges (flat_map (fun i => flat_map (ssides i) (seq 0 n)) (seq 0 m))) e =
    sum (fun i => cnt e (kR i) + cnt e (fun j => swap (kR (S i) j)) + cnt e (kV i) + cnt e (fun j => swap (kV i j)) + d01 (cnt e (kD i) + cnt e (fun j => swap (kD i j)))) (seq 0 m)).
  { unfold all_edges at 1. rewrite flat_flat, count_flat. apply sum_ext. intros i _. apply layer_count. }
  rewrite L.
  assert (T : sum (fun i => cnt e (kR i) + cnt e (fun j => swap (kR (S i) j)) + cnt e (kV i) + cnt e (fun j => swap (kV i j)) + d01 (cnt e (kD i) + cnt e (fun j => swap (kD i j)))) (seq 0 m)
      + cnt e (fun j => swap (kR 0 j)) + cnt e (kR m) =
    sum (fun i => cnt e (kR i) + cnt e (fun j => swap (kR i j))) (seq 0 (S m)) +
    sum (fun i => cnt e (kV i) + cnt e (fun j => swap (kV i j)) + d01 (cnt e (kD i) + cnt e (fun j => swap (kD i j)))) (seq 0 m)).
  { clear. generalize m. induction m0 as [|k IH]; [cbn; lia|]. rewrite (sum_seq_S _ 0 (S k)), !(sum_seq_S _ 0 k) in *. cbn [plus] in *. lia. }
  destruct ht.
  - cbn [all_edges flat_map count_occ app]. rewrite app_nil_r, edges_srow, count_map. change (sum (fun x => one dec e (m, x, (m, wrap_add1 x n))) (seq 0 n)) with (cnt e (kR m)). lia.
  - cbn [all_edges flat_map count_occ]. 
    assert (W : c (all_edges (map sroof (seq 0 n))) e = cnt e (kR m) + cnt e kW + cnt e (fun j => swap (kW j))).
    { unfold all_edges. rewrite count_flat, sum_map. unfold cnt.
      assert (VW : sum (fun j => one dec e (kW j)) (seq 0 n) = sum (fun j => one dec e (kW (s j))) (seq 0 n)) by (symmetry; apply (sum_wrap (fun j => one dec e (kW j)))).
      rewrite VW. rewrite <- !sum_plus. apply sum_ext. intros j _. unfold sroof. cbn [edges combine app]. rewrite !count_cons. cbn [count_occ]. unfold kR, kW, swap. cbn [fst snd]. lia. }
    rewrite W. lia.
Qed.
Lemma one_swap : forall e x, one dec (swap e) x = one dec e (swap x).
Proof.
  intros e x. unfold one. destruct (dec x (swap e)) as [E|E], (dec (swap x) e) as [F|F]; try reflexivity.
  - exfalso. apply F. rewrite E, swap_swap. reflexivity.
  - exfalso. apply E. rewrite <- F, swap_swap. reflexivity.
Qed.
Lemma cnt_swap : forall e k, cnt (swap e) k = cnt e (fun j => swap (k j)).
Proof. intros. unfold cnt. apply sum_ext. intros. apply one_swap. Qed.
Lemma cnt_swap2 : forall e k, cnt (swap e) (fun j => swap (k j)) = cnt e k.
Proof. intros. rewrite cnt_swap. unfold cnt. apply sum_ext. intros. rewrite swap_swap. reflexivity. Qed.
Lemma total_swap : forall e, total (swap e) = total e.
Proof.
  intros e. unfold total. f_equal; [f_equal|].
  - apply sum_ext. intros i _. rewrite cnt_swap, cnt_swap2. lia.
  - apply sum_ext. intros i _. rewrite (cnt_swap e (kV i)), (cnt_swap2 e (kV i)), (cnt_swap e (kD i)), (cnt_swap2 e (kD i)). unfold d01. destruct t; lia.
  - rewrite (cnt_swap e kW), (cnt_swap2 e kW). destruct ht; lia.
Qed.

(** Each edge at most once *)
Definition ind (b : bool) : nat := if b then 1 else 0.
Lemma sum_prod : forall {A B} (f : A * B -> nat) a b, sum f (list_prod a b) = sum (fun i => sum (fun j => f (i, j)) b) a.
Proof. induction a as [|x a IH]; intros b; cbn; [reflexivity|]. rewrite sum_app, IH, sum_map. reflexivity. Qed.
Lemma kind_le : forall e (k : nat -> nat -> evt) (g : evt -> nat * nat) q (P : bool), (forall i j, i < q -> j < n -> g (k i j) = (i, j)) ->
  (forall i j, i < q -> j < n -> k i j = e -> P = true) -> sum (fun i => cnt e (k i)) (seq 0 q) <= ind P.
Proof.
  intros e k g q P G H. unfold cnt. rewrite <- (sum_prod (fun x => one dec e (k (fst x) (snd x)))). rewrite <- count_map.
  assert (IN : forall x, In x (list_prod (seq 0 q) (seq 0 n)) -> fst x < q /\ snd x < n).
  { intros [i j] I. apply in_prod_iff in I. rewrite !in_seq in I. cbn. lia. }
  assert (ND : NoDup (map (fun x => k (fst x) (snd x)) (list_prod (seq 0 q) (seq 0 n)))).
  { apply (nodup_left _ g); [|apply nodup_prod; apply seq_NoDup]. intros x I. apply IN in I. rewrite G by tauto. destruct x; reflexivity. }
  pose proof (proj1 (NoDup_count_occ dec _) ND e) as U. destruct P; [exact U|].
  cbn [ind]. destruct (in_dec dec e (map (fun x => k (fst x) (snd x)) (list_prod (seq 0 q) (seq 0 n)))) as [I|I].
  - apply in_map_iff in I. destruct I as (x & E & I). apply IN in I. specialize (H _ _ (proj1 I) (proj2 I) E). discriminate.
  - apply (count_occ_not_In dec) in I. unfold evt in *. rewrite I. constructor.
Qed.
Lemma total_le : forall e, total e <= 1.
Proof.
  intros [[a b] [a' b']]. unfold total. rewrite !sum_plus.
  set (e := ((a, b), (a', b'))).
  assert (R : sum (fun i => cnt e (kR i)) (seq 0 (S m)) <= ind ((a =? a') && (b' =? s b) && (b <? n))).
  { apply (kind_le _ _ fst); [reflexivity|]. intros i j I J E. injection E as <- <- <- <-. lia. }
  assert (R' : sum (fun i => cnt e (fun j => swap (kR i j))) (seq 0 (S m)) <= ind ((a =? a') && (b =? s b') && (b' <? n))).
  { apply (kind_le _ (fun i j => swap (kR i j)) snd); [reflexivity|]. intros i j I J E. injection E as <- <- <- <-. lia. }
  assert (V : sum (fun i => cnt e (kV i)) (seq 0 m) <= ind ((a' =? S a) && (b =? b') && (b <? n) && (a' <=? m))).
  { apply (kind_le _ _ fst); [reflexivity|]. intros i j I J E. injection E as <- <- <- <-. lia. }
  assert (V' : sum (fun i => cnt e (fun j => swap (kV i j))) (seq 0 m) <= ind ((a =? S a') && (b =? b') && (b <? n) && (a <=? m))).
  { apply (kind_le _ (fun i j => swap (kV i j)) snd); [reflexivity|]. intros i j I J E. injection E as <- <- <- <-. lia. }
  assert (D : sum (fun i => cnt e (kD i)) (seq 0 m) <= ind ((a' =? S a) && (a' <=? m) && (b <? n) && (b' <? n) && match t with TRI_RIGHT => b' =? s b | _ => b =? s b' end)).
  { unfold kD. destruct t.
    1,2: apply (kind_le _ (fun i j => ((i, s j), (S i, j))) (fun e => (fst (fst e), snd (snd e)))); [reflexivity|];
      intros i j I J E; injection E as <- <- <- <-; pose proof (wrap_lt j n J); lia.
    apply (kind_le _ (fun i j => ((i, j), (S i, s j))) fst); [reflexivity|]. intros i j I J E. injection E as <- <- <- <-. pose proof (wrap_lt j n J). lia. }
  assert (D' : sum (fun i => cnt e (fun j => swap (kD i j))) (seq 0 m) <= ind ((a =? S a') && (a <=? m) && (b <? n) && (b' <? n) && match t with TRI_RIGHT => b =? s b' | _ => b' =? s b end)).
  { unfold kD. destruct t.
    1,2: apply (kind_le _ (fun i j => swap ((i, s j), (S i, j))) (fun e => (fst (snd e), snd (fst e)))); [reflexivity|];
      intros i j I J E; injection E as <- <- <- <-; pose proof (wrap_lt j n J); lia.
    apply (kind_le _ (fun i j => swap ((i, j), (S i, s j))) snd); [reflexivity|]. intros i j I J E. injection E as <- <- <- <-. pose proof (wrap_lt j n J). lia. }
  assert (W : cnt e kW <= ind ((a =? m) && (a' =? S m))).
  { replace (cnt e kW) with (sum (fun i => cnt e (fun j => kW j)) (seq 0 1)) by (cbn [sum seq]; apply Nat.add_0_r).
    apply (kind_le _ (fun i j => kW j) (fun e => (0, snd (fst e)))); [|intros i j I J E; injection E as E1 E2 E3 E4; lia].
    intros i j I J. assert (i = 0) by lia. subst i. reflexivity. }
  assert (W' : cnt e (fun j => swap (kW j)) <= ind ((a =? S m) && (a' =? m))).
  { replace (cnt e (fun j => swap (kW j))) with (sum (fun i => cnt e (fun j => swap (kW j))) (seq 0 1)) by (cbn [sum seq]; apply Nat.add_0_r).
    apply (kind_le _ (fun i j => swap (kW j)) (fun e => (0, snd (snd e)))); [|intros i j I J E; injection E as E1 E2 E3 E4; lia].
    intros i j I J. assert (i = 0) by lia. subst i. reflexivity. }
  assert (S1 : b < n -> b' = s b -> b = s b' -> False).
  { intros L. unfold wrap_add1. cbv zeta. destruct (S b =? n) eqn:E, (S b' =? n) eqn:F; lia. }
  assert (S2 : b < n -> b = s b -> False) by (intros L; unfold wrap_add1; destruct (S b =? n) eqn:E; lia).
  assert (S3 : b' < n -> b' = s b' -> False) by (intros L; unfold wrap_add1; destruct (S b' =? n) eqn:E; lia).
  assert (DS : sum (fun i => d01 (cnt e (kD i) + cnt e (fun j => swap (kD i j)))) (seq 0 m) <=
    match t with TRI_NONE => 0 | _ => sum (fun i => cnt e (kD i)) (seq 0 m) + sum (fun i => cnt e (fun j => swap (kD i j))) (seq 0 m) end).
  { unfold d01. destruct t; [clear; generalize (seq 0 m); induction l as [|x l IH]; cbn; lia|rewrite <- sum_plus; lia|rewrite <- sum_plus; lia]. }
  cbv beta in *. set (z := wrap_add1 b n) in *. set (z' := wrap_add1 b' n) in *. clearbody z z'.
  repeat match goal with H : context [sum ?f ?l] |- _ => let x := fresh "q" in set (x := sum f l) in *; clearbody x end.
  repeat match goal with H : context [cnt ?f ?l] |- _ => let x := fresh "q" in set (x := cnt f l) in *; clearbody x end.
  clear e.
  destruct (Nat.lt_trichotomy a a') as [L|[L|L]].
  - unfold ind in *. replace (a =? a') with false in * by (symmetry; lia). replace (a =? S a') with false in * by (symmetry; lia). cbn [andb] in *.
    destruct ht, t; repeat match goal with H : context [if ?b then 1 else 0] |- _ => let E := fresh "E" in destruct b eqn:E; [rewrite ?andb_true_iff, ?Nat.eqb_eq, ?Nat.ltb_lt, ?Nat.leb_le in E|clear E] end; lia.
  - unfold ind in *. replace (a' =? S a) with false in * by (symmetry; lia). replace (a =? S a') with false in * by (symmetry; lia). cbn [andb] in *.
    replace ((a =? m) && (a' =? S m)) with false in * by (symmetry; lia). replace ((a =? S m) && (a' =? m)) with false in * by (symmetry; lia).
    destruct ht, t; repeat match goal with H : context [if ?b then 1 else 0] |- _ => let E := fresh "E" in destruct b eqn:E; [rewrite ?andb_true_iff, ?Nat.eqb_eq, ?Nat.ltb_lt, ?Nat.leb_le in E|clear E] end; lia.
  - unfold ind in *. replace (a =? a') with false in * by (symmetry; lia). replace (a' =? S a) with false in * by (symmetry; lia). cbn [andb] in *.
    destruct ht, t; repeat match goal with H : context [if ?b then 1 else 0] |- _ => let E := fresh "E" in destruct b eqn:E; [rewrite ?andb_true_iff, ?Nat.eqb_eq, ?Nat.ltb_lt, ?Nat.leb_le in E|clear E] end; lia.
Qed.
Lemma sfaces_closed : closed sfaces.
Proof.
  apply (closed_count dec); intros e; rewrite !total_count; [apply total_le|apply total_swap].
Qed.
End Sym.

(** ** From pairs to indices *)
Definition enc (n : nat) (p : nat * nat) : nat := fst p * n + snd p.
Lemma enc_inj : forall n p q, snd p < n -> snd q < n -> enc n p = enc n q -> p = q.
Proof.
  intros n [i j] [k l] J L E. unfold enc in E. cbn in *. assert (i = k) by nia. subst k. f_equal. lia.
Qed.
Lemma sfaces_snd : forall n m t ht p, 3 <= n -> In p (concat (sfaces n m t ht)) -> snd p < n /\ fst p <= (if ht then m else S m).
Proof.
  intros n m t ht p N I. apply in_concat in I. destruct I as (f & IF & I). unfold sfaces in IF.
  assert (R : forall i, In p (srow n i) -> fst p = i /\ snd p < n).
  { intros i Q. unfold srow in Q. apply in_map_iff in Q. destruct Q as (j & <- & Q). apply in_seq in Q. cbn. lia. }
  destruct IF as [<-|IF].
  { rewrite <- in_rev in I. apply R in I. destruct ht; lia. }
  apply in_app_or in IF. destruct IF as [IF|IF].
  { destruct ht; [|destruct IF]. destruct IF as [<-|[]]. apply R in I. lia. }
  apply in_app_or in IF. destruct IF as [IF|IF].
  - apply in_flat_map in IF. destruct IF as (i & Q1 & IF). apply in_flat_map in IF. destruct IF as (j & Q2 & IF). apply in_seq in Q1, Q2.
    pose proof (wrap_lt j n ltac:(lia)) as W. unfold ssides in IF. destruct t; cbn in IF; repeat (destruct IF as [<-|IF]; [cbn in I; repeat (destruct I as [<-|I]; [cbn; destruct ht; lia|]); destruct I|]); destruct IF.
  - destruct ht; [destruct IF|]. apply in_map_iff in IF. destruct IF as (j & <- & Q). apply in_seq in Q. pose proof (wrap_lt j n ltac:(lia)) as W.
    unfold sroof in I. cbn in I. repeat (destruct I as [<-|I]; [cbn; lia|]). destruct I.
Qed.
Lemma turn_negb : forall r f, turn (negb r) f = if r then f else rev f.
Proof. intros [|] f; reflexivity. Qed.
Lemma map_flat : forall {A B C} (g : B -> C) (f : A -> list B) l, map g (flat_map f l) = flat_map (fun x => map g (f x)) l.
Proof. induction l as [|x l IH]; cbn; [reflexivity|]. rewrite map_app, IH. reflexivity. Qed.
Lemma flat_map_in_ext : forall {A B} (f g : A -> list B) l, (forall x, In x l -> f x = g x) -> flat_map f l = flat_map g l.
Proof. induction l as [|x l IH]; intros H; cbn; [reflexivity|]. rewrite H by (left; reflexivity). rewrite IH; [reflexivity|]. intros. apply H. right. assumption. Qed.
Lemma faces_sym : forall npts fn m ht t, 3 <= fn -> npts = (if ht : bool then m * fn + fn else m * fn + fn + 1) ->
  faces npts fn m ht t true = map (map (enc fn)) (sfaces fn m t ht).
Proof.
  intros npts fn m ht t N E. unfold faces, sfaces. cbn [map]. rewrite !map_app. 
  assert (R : forall i, row fn (i * fn) = map (enc fn) (srow fn i)).
  { intros i. unfold row, srow. rewrite map_map. apply map_ext. intros j. unfold enc. cbn. lia. }
  f_equal; [cbn [turn]; rewrite map_rev, <- R; reflexivity|]. f_equal; [|f_equal].
  - destruct ht; [|reflexivity]. cbn [map negb turn]. rewrite <- R. do 2 f_equal. lia.
  - rewrite map_flat. rewrite <- seq_shift. rewrite flat_map_concat_map, map_map, <- flat_map_concat_map. apply flat_map_in_ext. intros i _. rewrite map_flat. apply flat_map_in_ext. intros j _.
    unfold sides, ssides, turn, enc. cbn [negb]. replace (S i * fn - fn) with (i * fn) by lia. rewrite map_id. destruct t; reflexivity.
  - destruct ht; [reflexivity|]. rewrite map_map. apply map_ext. intros j. unfold roofs, sroof, turn, enc. cbn [negb map fst snd].
    replace (npts - 1 - fn) with (m * fn) by lia. do 3 f_equal. lia.
Qed.
Lemma faces_false : forall npts fn m ht t, faces npts fn m ht t false = map (@rev nat) (faces npts fn m ht t true).
Proof.
  intros. unfold faces. cbn [map]. rewrite !map_app. f_equal; [cbn [turn]; rewrite rev_involutive; reflexivity|]. f_equal; [|f_equal].
  - destruct ht; reflexivity.
  - rewrite map_flat. apply flat_map_in_ext. intros i _. rewrite map_flat. apply flat_map_in_ext. intros j _. rewrite map_map. apply map_ext. intros f. reflexivity.
  - destruct ht; [reflexivity|]. rewrite map_map. apply map_ext. intros f. reflexivity.
Qed.
Lemma faces_true_closed : forall npts fn m ht t, 3 <= fn -> npts = (if ht : bool then m * fn + fn else m * fn + fn + 1) -> closed (faces npts fn m ht t true).
Proof.
  intros npts fn m ht t N E. rewrite faces_sym by assumption. apply closed_map; [|apply sfaces_closed, N].
  intros x y I J. apply sfaces_snd in I, J; [|exact N|exact N]. intros Q. apply (enc_inj fn); tauto.
Qed.
Lemma faces_closed : forall npts fn m ht t r, 3 <= fn -> npts = (if ht : bool then m * fn + fn else m * fn + fn + 1) -> closed (faces npts fn m ht t r).
Proof.
  intros npts fn m ht t [|] N E; [apply faces_true_closed; assumption|]. rewrite faces_false. apply closed_rev, faces_true_closed; assumption.
Qed.
Lemma faces_points : forall npts fn m ht t r i, 3 <= fn -> npts = (if ht : bool then m * fn + fn else m * fn + fn + 1) -> In i (concat (faces npts fn m ht t r)) -> i < npts.
Proof.
  assert (T : forall npts fn m ht t i, 3 <= fn -> npts = (if ht : bool then m * fn + fn else m * fn + fn + 1) -> In i (concat (faces npts fn m ht t true)) -> i < npts).
  { intros npts fn m ht t i N E I. rewrite faces_sym in I by assumption. rewrite <- concat_map in I. apply in_map_iff in I. destruct I as (p & <- & I).
    apply in_concat in I. destruct I as (f & IF & I).
    assert (IC : In p (concat (sfaces fn m t ht))) by (apply in_concat; exists f; auto). pose proof (sfaces_snd _ _ _ _ _ N IC) as (A & B).
    unfold enc. destruct ht; [nia|].
    destruct (Nat.eq_dec (fst p) (S m)) as [Q|Q]; [|nia].
    assert (Z : snd p = 0).
    { clear IC. unfold sfaces in IF. cbn [app] in IF. destruct IF as [<-|IF].
      { rewrite <- in_rev in I. unfold srow in I. apply in_map_iff in I. destruct I as (j & <- & _). discriminate. }
      apply in_app_or in IF. destruct IF as [IF|IF].
      - apply in_flat_map in IF. destruct IF as (k & Q1 & IF). apply in_flat_map in IF. destruct IF as (j & Q2 & IF). apply in_seq in Q1.
        unfold ssides in IF. destruct t; cbn in IF; repeat (destruct IF as [<-|IF]; [cbn in I; repeat (destruct I as [<-|I]; [cbn in Q; lia|]); destruct I|]); destruct IF.
      - apply in_map_iff in IF. destruct IF as (j & <- & Q3). unfold sroof in I. cbn in I. repeat (destruct I as [<-|I]; [cbn in Q; try lia; reflexivity|]). destruct I. }
    rewrite Q, Z. lia. }
  intros npts fn m ht t [|] i N E I; [exact (T _ _ _ _ _ _ N E I)|]. rewrite faces_false in I. apply in_concat in I. destruct I as (f & IF & I).
  apply in_map_iff in IF. destruct IF as (g & <- & IG). apply (T npts fn m ht t i N E). apply in_concat. exists g. split; [exact IG|]. apply in_rev, I.
Qed.

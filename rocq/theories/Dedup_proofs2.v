(** Proofs about the numbering of points: arrays *)
From Coq Require Import ZArith List Bool Arith Lia ZifyBool Permutation Sorted.
From Verif Require Import Dict_model Dict_spec Dict_proofs Dict_proofs2 Dict_proofs3 Dedup_model Dedup_spec Dedup_proofs.
Import ListNotations.

Lemma set_nth_ok : forall A (l : list A) i x, i < length l -> exists l', set_nth l i x = Some l' /\ length l' = length l
  /\ nth_error l' i = Some x /\ (forall j, j <> i -> nth_error l' j = nth_error l j).
Proof.
  intros A. induction l as [|y l IH]; intros i x H; [simpl in H; lia|]. destruct i as [|i].
  - exists (x :: l). split; [reflexivity|]. split; [reflexivity|]. split; [reflexivity|]. intros [|j] N; [contradiction|reflexivity].
  - simpl in H. destruct (IH i x ltac:(lia)) as (l' & R & L & N1 & N2). exists (y :: l'). split; [simpl; rewrite R; reflexivity|]. split; [simpl; lia|].
    split; [exact N1|]. intros [|j] N; [reflexivity|]. simpl. apply N2. lia.
Qed.

Lemma points_fold : forall d (l : list nat) q, (forall n, In n l -> n < length q) -> exists q',
  fold_left (fun (a : option (list (list Z))) n => do q <- a ;; set_nth q n (coord d n)) l (Some q) = Some q' /\ length q' = length q
  /\ (forall n, In n l -> nth_error q' n = Some (coord d n)) /\ (forall n, ~ In n l -> nth_error q' n = nth_error q n).
Proof.
  intros d. induction l as [|n l IH]; intros q H.
  - exists q. split; [reflexivity|]. split; [reflexivity|]. split; [intros n []|reflexivity].
  - cbn [fold_left bind]. destruct (set_nth_ok _ q n (coord d n) (H n (or_introl eq_refl))) as (q1 & R & L & N1 & N2). rewrite R.
    destruct (IH q1) as (q' & R' & L' & A & B); [intros m M; rewrite L; apply H; right; exact M|].
    exists q'. split; [exact R'|]. split; [lia|]. split.
    + intros m [->|M]; [|apply A, M]. destruct (in_dec Nat.eq_dec m l) as [I|I]; [apply A, I|]. rewrite B by exact I. exact N1.
    + intros m M. rewrite B by (intros I; apply M; right; exact I). apply N2. intros ->. apply M. left. reflexivity.
Qed.
Lemma make_points_ok : forall d, inv0 d -> exists q, make_points d = Some q /\ length q = vsize d /\ (forall n, n < vsize d -> nth_error q n = Some (coord d n)).
Proof.
  intros d HI. unfold make_points. destruct (points_fold d (inorder (root d)) (repeat [] (vsize d))) as (q & R & L & A & _).
  - intros n H. rewrite repeat_length. apply inv0_in; assumption.
  - rewrite repeat_length in L. exists q. split; [exact R|]. split; [exact L|]. intros n H. apply A, inv0_in; assumption.
Qed.
Lemma make_refs_ok : forall (P : list Z -> list Z -> Prop) q vs idx, Forall2 (fun v n => exists c, nth_error q n = Some c /\ P v c) vs idx ->
  exists out, make_refs q idx = Some out /\ Forall2 P vs out.
Proof.
  intros P q vs idx H. induction H as [|v n vs idx (c & N & PC) _ (out & R & F)]; [exists []; split; [reflexivity|constructor]|].
  exists (c :: out). split; [simpl; rewrite N; cbn [bind]; rewrite R; reflexivity|]. constructor; assumption.
Qed.

(** * SVG paths *)
Section Uniq.
Variable e : Z.
Hypothesis E0 : (0 < e)%Z.
Variable L : list spoint.
Hypothesis ND : NoDup (map (fun p => (aux2 p, aux1 p)) L).

Definition uinv (j : nat) (s : ustate) : Prop :=
  length (arr s) = length L /\ uk s <= j /\ (forall i, uk s <= i -> nth_error (arr s) i = nth_error L i)
  /\ (forall i p, i < j -> nth_error L i = Some p -> exists r c, path s (aux2 p) (aux1 p) = Some r /\ r < uk s
      /\ nth_error (arr s) r = Some c /\ lex_cmp e (scoord p) (scoord c) = 0%Z)
  /\ (forall x y r, path s x y = Some r -> exists i p, i < j /\ nth_error L i = Some p /\ aux2 p = x /\ aux1 p = y)
  /\ match qp s with
     | None => j = 0 /\ uk s = 0
     | Some p => 1 <= uk s /\ p < j /\ uk s - 1 <= p /\ nth_error (arr s) p = nth_error (arr s) (uk s - 1)
     end.

Lemma aux_unique : forall i j p q, nth_error L i = Some p -> nth_error L j = Some q -> aux2 p = aux2 q -> aux1 p = aux1 q -> i = j.
Proof.
  intros i j p q P Q A B. apply (NoDup_nth_error (map (fun p => (aux2 p, aux1 p)) L)); [exact ND|rewrite map_length; apply nth_error_Some; congruence|].
  rewrite (map_nth_error (fun p => (aux2 p, aux1 p)) _ _ P), (map_nth_error (fun p => (aux2 p, aux1 p)) _ _ Q). congruence.
Qed.

Lemma path_set_same : forall f i j r, path_set f i j r i j = Some r.
Proof. intros f i j r. unfold path_set. rewrite !Nat.eqb_refl. reflexivity. Qed.
Lemma path_set_other : forall f i j r x y, x <> i \/ y <> j -> path_set f i j r x y = f x y.
Proof. intros f i j r x y H. unfold path_set. destruct (Nat.eqb_spec x i), (Nat.eqb_spec y j); simpl; try reflexivity. lia. Qed.

(** One round; whether the point is a new one *)
Lemma step_uniq : forall j s qj, uinv j s -> nth_error L j = Some qj ->
  exists s', uniq_step e (Some s) j = Some s' /\ uinv (S j) s'
  /\ ((uk s' = S (uk s) /\ nth_error (arr s') (uk s) = Some qj /\ path s' (aux2 qj) (aux1 qj) = Some (uk s)
       /\ (forall i, i <> uk s -> nth_error (arr s') i = nth_error (arr s) i)
       /\ (forall c, nth_error (arr s) (uk s - 1) = Some c -> uk s > 0 -> lex_cmp e (scoord qj) (scoord c) <> 0%Z))
      \/ (uk s' = uk s /\ arr s' = arr s)).
Proof.
  intros j s qj (HL & HK & HS & HP & HO & HQ) Q.
  assert (JL : j < length L) by (apply nth_error_Some; congruence).
  assert (AJ : nth_error (arr s) j = Some qj) by (rewrite HS by exact HK; exact Q).
  assert (NEW : forall (CMP : forall c, nth_error (arr s) (uk s - 1) = Some c -> uk s > 0 -> lex_cmp e (scoord qj) (scoord c) <> 0%Z),
    exists s', (do a <- set_nth (arr s) (uk s) qj ;; do qj <- nth_error a j ;;
      Some (mk_ustate a (S (uk s)) (Some j) (path_set (path s) (aux2 qj) (aux1 qj) (uk s)))) = Some s' /\ uinv (S j) s'
    /\ ((uk s' = S (uk s) /\ nth_error (arr s') (uk s) = Some qj /\ path s' (aux2 qj) (aux1 qj) = Some (uk s)
       /\ (forall i, i <> uk s -> nth_error (arr s') i = nth_error (arr s) i)
       /\ (forall c, nth_error (arr s) (uk s - 1) = Some c -> uk s > 0 -> lex_cmp e (scoord qj) (scoord c) <> 0%Z))
       \/ (uk s' = uk s /\ arr s' = arr s))).
  { intros CMP. destruct (set_nth_ok _ (arr s) (uk s) qj ltac:(lia)) as (a & R & LA & N1 & N2). rewrite R. cbn [bind].
    assert (AJ' : nth_error a j = Some qj) by (destruct (Nat.eq_dec j (uk s)) as [->|N]; [exact N1|rewrite N2 by exact N; exact AJ]).
    rewrite AJ'. cbn [bind]. eexists. split; [reflexivity|]. split.
    - unfold uinv. cbn [arr uk qp path]. split; [lia|]. split; [lia|]. split; [|split; [|split]].
      + intros i Hi. rewrite N2 by lia. apply HS. lia.
      + intros i p Hi Hp. destruct (Nat.eq_dec i j) as [->|NI].
        * rewrite Q in Hp. inversion Hp; subst p. exists (uk s), qj. rewrite path_set_same. split; [reflexivity|]. split; [lia|]. split; [exact N1|]. apply lex_refl, E0.
        * destruct (HP i p ltac:(lia) Hp) as (r & c & P1 & P2 & P3 & P4). exists r, c. split; [|split; [lia|split; [rewrite N2 by lia; exact P3|exact P4]]].
          rewrite path_set_other; [exact P1|]. destruct (Nat.eq_dec (aux2 p) (aux2 qj)), (Nat.eq_dec (aux1 p) (aux1 qj)); auto.
          exfalso. apply NI. eapply aux_unique; eauto.
      + intros x y r H. unfold path_set in H. destruct (Nat.eqb_spec x (aux2 qj)), (Nat.eqb_spec y (aux1 qj)); cbn [andb] in H.
        1: exists j, qj; split; [lia|]; auto.
        all: destruct (HO x y r H) as (i & p & H1 & H2 & H3 & H4); exists i, p; split; [lia|]; auto.
      + split; [lia|]. split; [lia|]. split; [lia|]. replace (S (uk s) - 1) with (uk s) by lia. rewrite N1. exact AJ'.
    - left. cbn [arr uk path]. split; [reflexivity|]. split; [exact N1|]. split; [apply path_set_same|]. split; [exact N2|exact CMP]. }
  unfold uniq_step. cbn [bind]. rewrite AJ. cbn [bind]. destruct (qp s) as [p|].
  - destruct HQ as (Q1 & Q2 & Q3 & Q4).
    assert (PL : exists c, nth_error (arr s) (uk s - 1) = Some c).
    { destruct (nth_error (arr s) (uk s - 1)) eqn:X; [eauto|]. apply nth_error_None in X. lia. }
    destruct PL as (c & PC). assert (Q5 : nth_error (arr s) p = Some c) by congruence. rewrite Q5. cbn [bind]. destruct (Z.eqb_spec (lex_cmp e (scoord qj) (scoord c)) 0) as [Z|Z]; cbn [negb].
    + eexists. split; [reflexivity|]. split; [|right; split; reflexivity].
      unfold uinv. cbn [arr uk qp path]. split; [exact HL|]. split; [lia|]. split; [exact HS|]. split; [|split].
      * intros i p' Hi Hp. destruct (Nat.eq_dec i j) as [->|NI].
        -- rewrite Q in Hp. inversion Hp; subst p'. exists (uk s - 1), c. rewrite path_set_same. split; [reflexivity|]. split; [lia|]. split; [exact PC|exact Z].
        -- destruct (HP i p' ltac:(lia) Hp) as (r & c' & P1 & P2 & P3 & P4). exists r, c'. split; [|auto].
           rewrite path_set_other; [exact P1|]. destruct (Nat.eq_dec (aux2 p') (aux2 qj)), (Nat.eq_dec (aux1 p') (aux1 qj)); auto.
           exfalso. apply NI. eapply aux_unique; eauto.
      * intros x y r H. unfold path_set in H. destruct (Nat.eqb_spec x (aux2 qj)), (Nat.eqb_spec y (aux1 qj)); cbn [andb] in H.
        1: exists j, qj; split; [lia|]; auto.
        all: destruct (HO x y r H) as (i & p' & H1 & H2 & H3 & H4); exists i, p'; split; [lia|]; auto.
      * split; [lia|]. split; [lia|]. split; [lia|]. exact Q4.
    + apply NEW. intros c' C' _. congruence.
  - cbn [bind]. destruct HQ as (Q1 & Q2). apply NEW. intros c _ X. lia.
Qed.

Definition u0 : ustate := mk_ustate L 0 None (fun _ _ => None).
Lemma uinv0 : uinv 0 u0.
Proof. unfold uinv, u0. cbn. split; [reflexivity|]. split; [lia|]. split; [reflexivity|]. split; [intros; lia|]. split; [discriminate|auto]. Qed.
Lemma fold_uniq : forall n, n <= length L -> exists s, fold_left (uniq_step e) (seq 0 n) (Some u0) = Some s /\ uinv n s.
Proof.
  induction n as [|n IH]; intros H; [exists u0; split; [reflexivity|apply uinv0]|].
  destruct (IH ltac:(lia)) as (s & R & I). rewrite seq_S, fold_left_app, R. cbn [fold_left Nat.add].
  destruct (nth_error L n) as [q|] eqn:Q; [|apply nth_error_None in Q; lia].
  destruct (step_uniq n s q I Q) as (s' & R' & I' & _). exists s'. split; assumption.
Qed.
Lemma nth_firstn : forall A (l : list A) k i, i < k -> nth_error (firstn k l) i = nth_error l i.
Proof. intros A. induction l as [|x l IH]; intros [|k] [|i] H; try lia; try reflexivity. simpl. apply IH. lia. Qed.
Lemma uniq_ok : exists pts pth, uniquify e L = Some (pts, pth)
  /\ (forall p, In p L -> exists r c, pth (aux2 p) (aux1 p) = Some r /\ nth_error pts r = Some c /\ lex_cmp e (scoord p) (scoord c) = 0%Z)
  /\ (forall x y r, pth x y = Some r -> exists p, In p L /\ aux2 p = x /\ aux1 p = y).
Proof.
  destruct (fold_uniq (length L) (le_n _)) as (s & R & (HL & HK & HS & HP & HO & HQ)). unfold uniquify. unfold u0 in R. rewrite R. cbn [bind].
  eexists. eexists. split; [reflexivity|]. split.
  - intros p H. apply In_nth_error in H. destruct H as (i & H). assert (i < length L) by (apply nth_error_Some; congruence).
    destruct (HP i p ltac:(lia) H) as (r & c & P1 & P2 & P3 & P4). exists r, c. split; [exact P1|]. split; [rewrite nth_firstn by exact P2; exact P3|exact P4].
  - intros x y r H. destruct (HO x y r H) as (i & p & _ & P & A & B). exists p. split; [eapply nth_error_In; eauto|auto].
Qed.

(** Sorted and separated points *)
Variable dim : nat.
Hypothesis SEP : separated e (map scoord L).
Hypothesis DIM : same_dim dim (map scoord L).
Hypothesis SORTED : StronglySorted (not_after e) L.

Lemma sorted_le : forall i j p q, i < j -> nth_error L i = Some p -> nth_error L j = Some q -> (lex_cmp e (scoord p) (scoord q) <= 0)%Z.
Proof.
  clear ND SEP DIM. induction SORTED as [|a l S IH F]; intros i j p q H P Q; [destruct i; discriminate|]. destruct j as [|j]; [lia|]. destruct i as [|i]; simpl in *.
  - inversion P; subst p. rewrite Forall_forall in F. apply F. eapply nth_error_In; eauto.
  - apply (IH S i j p q); auto. lia.
Qed.
(** The points so far are in strictly ascending order, and all of them are points of the list *)
Definition asc (j : nat) (s : ustate) : Prop :=
  (forall r c, r < uk s -> nth_error (arr s) r = Some c -> exists i, i < j /\ nth_error L i = Some c)
  /\ (forall r r' c c', r < r' -> r' < uk s -> nth_error (arr s) r = Some c -> nth_error (arr s) r' = Some c' -> (lex_cmp e (scoord c) (scoord c') < 0)%Z).
Lemma lt3 : forall p q r, In p L -> In q L -> In r L ->
  (lex_cmp e (scoord p) (scoord q) <= 0 -> lex_cmp e (scoord q) (scoord r) <= 0 ->
   lex_cmp e (scoord p) (scoord r) <= 0 /\ (lex_cmp e (scoord p) (scoord q) < 0 \/ lex_cmp e (scoord q) (scoord r) < 0 -> lex_cmp e (scoord p) (scoord r) < 0))%Z.
Proof. intros p q r P Q R. apply (lt_trans3 e (map scoord L) dim E0 SEP DIM); apply in_map; assumption. Qed.
Lemma step_asc : forall j s s' qj, uinv j s -> asc j s -> nth_error L j = Some qj -> uniq_step e (Some s) j = Some s' -> asc (S j) s'.
Proof.
  intros j s s' qj I (A1 & A2) Q R. destruct (step_uniq j s qj I Q) as (s1 & R1 & I1 & C). rewrite R in R1. inversion R1; subst s1. clear R1.
  destruct C as [(K & N & _ & O & D)|(K & AR)].
  - split.
    + intros r c Hr Hc. destruct (Nat.eq_dec r (uk s)) as [->|NE].
      * rewrite N in Hc. inversion Hc; subst c. exists j. split; [lia|exact Q].
      * rewrite O in Hc by exact NE. destruct (A1 r c ltac:(lia) Hc) as (i & Hi & Li). exists i. split; [lia|exact Li].
    + intros r r' c c' H1 H2 Hc Hc'. rewrite O in Hc by lia. destruct (Nat.eq_dec r' (uk s)) as [->|NE].
      2:{ rewrite O in Hc' by exact NE. apply (A2 r r' c c'); auto. lia. }
      rewrite N in Hc'. inversion Hc'; subst c'. destruct I as (HL & HK & _).
      destruct (nth_error (arr s) (uk s - 1)) as [m|] eqn:M; [|apply nth_error_None in M; assert (j < length L) by (apply nth_error_Some; congruence); lia].
      pose proof (D m eq_refl ltac:(lia)) as NZ. destruct (A1 (uk s - 1) m ltac:(lia) M) as (i & Hi & Li). pose proof (sorted_le i j m qj Hi Li Q) as LE.
      rewrite lex_anti in NZ by exact E0.
      destruct (Nat.eq_dec r (uk s - 1)) as [->|NR]; [rewrite M in Hc; inversion Hc; subst c; lia|].
      pose proof (A2 r (uk s - 1) c m ltac:(lia) ltac:(lia) Hc M) as LT. destruct (A1 r c ltac:(lia) Hc) as (i' & Hi' & Li').
      apply nth_error_In in Li, Li', Q. pose proof (lt3 c m qj Li' Li Q). lia.
  - rewrite <- K in A1, A2. rewrite <- AR in A1, A2. split; [|exact A2].
    intros r c Hr Hc. destruct (A1 r c Hr Hc) as (i & Hi & Li). exists i. split; [lia|exact Li].
Qed.
Lemma fold_asc : forall n s, n <= length L -> fold_left (uniq_step e) (seq 0 n) (Some u0) = Some s -> uinv n s /\ asc n s.
Proof.
  induction n as [|n IH]; intros s H R.
  - inversion R; subst s. split; [apply uinv0|]. split; cbn; intros; lia.
  - rewrite seq_S, fold_left_app in R. cbn [fold_left Nat.add] in R. destruct (fold_uniq n ltac:(lia)) as (s1 & R1 & I1). rewrite R1 in R.
    destruct (IH s1 ltac:(lia) R1) as (_ & A1). destruct (nth_error L n) as [q|] eqn:Q; [|apply nth_error_None in Q; lia].
    destruct (step_uniq n s1 q I1 Q) as (s2 & R2 & I2 & _). rewrite R in R2. inversion R2; subst s2. split; [exact I2|]. eapply step_asc; eauto.
Qed.
Lemma uniq_sep : forall pts pth, uniquify e L = Some (pts, pth) ->
  (forall p q r t, In p L -> In q L -> pth (aux2 p) (aux1 p) = Some r -> pth (aux2 q) (aux1 q) = Some t -> (r = t <-> close e (scoord p) (scoord q)))
  /\ (forall c, In c pts -> In c L).
Proof.
  intros pts pth U. unfold uniquify in U. destruct (fold_uniq (length L) (le_n _)) as (s & R & _).
  destruct (fold_asc (length L) s (le_n _) R) as ((HL & HK & HS & HP & HO & HQ) & A1 & A2). unfold u0 in R. rewrite R in U. cbn [bind] in U. inversion U; subst pts pth. clear U.
  split.
  - intros p q r t Ip Iq Pr Pt. pose proof Ip as Ip'. pose proof Iq as Iq'. apply In_nth_error in Ip. apply In_nth_error in Iq. destruct Ip as (i & Hi), Iq as (j & Hj).
    assert (i < length L) by (apply nth_error_Some; congruence). assert (j < length L) by (apply nth_error_Some; congruence).
    destruct (HP i p ltac:(lia) Hi) as (r1 & c & P1 & P2 & P3 & P4). destruct (HP j q ltac:(lia) Hj) as (t1 & c' & T1 & T2 & T3 & T4).
    rewrite Pr in P1. rewrite Pt in T1. inversion P1; inversion T1; subst r1 t1. clear P1 T1.
    destruct (A1 r c P2 P3) as (i1 & _ & C1). destruct (A1 t c' T2 T3) as (j1 & _ & C2). apply nth_error_In in C1, C2.
    rewrite <- lex_close by (rewrite !DIM; [reflexivity|apply in_map; assumption..]).
    pose proof (lt3 p c q Ip' C1 Iq') as X1. pose proof (lt3 q c p Iq' C1 Ip') as X2. pose proof (lt3 c p c' C1 Ip' C2) as X3. pose proof (lt3 c' p c C2 Ip' C1) as X4.
    pose proof (lt3 p q c' Ip' Iq' C2) as X5. pose proof (lt3 c' q p C2 Iq' Ip') as X6.
    pose proof (lex_anti e (scoord p) (scoord q) E0) as N1. pose proof (lex_anti e (scoord p) (scoord c) E0) as N2. pose proof (lex_anti e (scoord q) (scoord c') E0) as N3.
    pose proof (lex_anti e (scoord q) (scoord c) E0) as N4. pose proof (lex_anti e (scoord p) (scoord c') E0) as N5. pose proof (lex_anti e (scoord c) (scoord c') E0) as N6.
    split.
    + intros <-. rewrite P3 in T3. inversion T3; subst c'. lia.
    + intros Z. destruct (lt_eq_lt_dec r t) as [[LT|EQ]|LT]; [|exact EQ|].
      * pose proof (A2 r t c c' LT T2 P3 T3). lia.
      * pose proof (A2 t r c' c LT P2 T3 P3). lia.
  - intros c H. apply In_nth_error in H. destruct H as (r & H).
    assert (r < uk s). { assert (r < length (firstn (uk s) (arr s))) by (apply nth_error_Some; congruence). rewrite firstn_length in *. lia. }
    rewrite nth_firstn in H by assumption. destruct (A1 r c ltac:(assumption) H) as (i & _ & Q). eapply nth_error_In; eauto.
Qed.
End Uniq.

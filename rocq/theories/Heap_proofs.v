From Coq Require Import List Arith Bool ZArith Lia Permutation.
From Verif Require Import Heap_model Heap_spec.
Import ListNotations.

Lemma parent_spec i : 0 < i -> i = 2 * parent i + 1 \/ i = 2 * parent i + 2.
Proof.
  intros H. unfold parent.
  pose proof (Nat.div_mod (i - 1) 2 ltac:(lia)). pose proof (Nat.mod_upper_bound (i - 1) 2 ltac:(lia)). lia.
Qed.

Lemma parent_unique i p : (i = 2 * p + 1 \/ i = 2 * p + 2) -> parent i = p.
Proof. intros H. assert (0 < i) by lia. pose proof (parent_spec i H0). lia. Qed.

(** ** arrays *)
Section Vec.
Variable A : Type.
Notation arr := (arr A).
Notation aswap := (aswap A).

Lemma aset_same (a : arr) i v : aset A a i v i = v.
Proof. unfold aset. now rewrite Nat.eqb_refl. Qed.
Lemma aset_other (a : arr) i v j : j <> i -> aset A a i v j = a j.
Proof. unfold aset. intros. destruct (Nat.eqb_spec j i); congruence. Qed.

Definition tr (p q i : nat) : nat := if i =? p then q else if i =? q then p else i.

Lemma aswap_tr (a : arr) p q i : aswap a p q i = a (tr p q i).
Proof.
  unfold Heap_model.aswap, aset, tr.
  destruct (Nat.eqb_spec i q), (Nat.eqb_spec i p); subst; auto.
Qed.

Lemma aswap_l (a : arr) p q : aswap a p q p = a q.
Proof. rewrite aswap_tr. unfold tr. now rewrite Nat.eqb_refl. Qed.
Lemma aswap_r (a : arr) p q : aswap a p q q = a p.
Proof. rewrite aswap_tr. unfold tr. destruct (Nat.eqb_spec q p); [now subst|]. now rewrite Nat.eqb_refl. Qed.
Lemma aswap_o (a : arr) p q i : i <> p -> i <> q -> aswap a p q i = a i.
Proof. intros. rewrite aswap_tr. unfold tr. destruct (Nat.eqb_spec i p), (Nat.eqb_spec i q); congruence. Qed.

Notation elems := (elems A).

Lemma elems_ext (a b : arr) n : (forall i, i < n -> a i = b i) -> elems a n = elems b n.
Proof. intros H. apply map_ext_in. intros i Hi. apply in_seq in Hi. apply H. lia. Qed.

Lemma tr_inj p q : forall i j, tr p q i = tr p q j -> i = j.
Proof.
  intros i j. unfold tr.
  destruct (Nat.eqb_spec i p), (Nat.eqb_spec j p), (Nat.eqb_spec i q), (Nat.eqb_spec j q); lia.
Qed.

Lemma tr_invol p q i : tr p q (tr p q i) = i.
Proof.
  unfold tr. destruct (Nat.eqb_spec i p) as [->|N1].
  - destruct (Nat.eqb_spec q p); [congruence|]. now rewrite Nat.eqb_refl.
  - destruct (Nat.eqb_spec i q) as [->|N2]; [now rewrite Nat.eqb_refl|].
    destruct (Nat.eqb_spec i p), (Nat.eqb_spec i q); congruence.
Qed.

Lemma elems_swap (a : arr) p q n : p < n -> q < n -> Permutation (elems a n) (elems (aswap a p q) n).
Proof.
  intros P Q. unfold Heap_spec.elems.
  rewrite (map_ext _ (fun i => a (tr p q i)) (aswap_tr a p q)), <- (map_map (tr p q) a).
  apply Permutation_map. apply NoDup_Permutation_bis.
  - apply seq_NoDup.
  - rewrite map_length. lia.
  - intros i Hi. apply in_seq in Hi. apply in_map_iff. exists (tr p q i). split.
    + apply tr_invol.
    + apply in_seq. unfold tr. destruct (Nat.eqb_spec i p), (Nat.eqb_spec i q); lia.
Qed.

Lemma elems_in (a : arr) n x : In x (elems a n) <-> exists i, i < n /\ a i = x.
Proof.
  unfold Heap_spec.elems. rewrite in_map_iff. split.
  - intros (i & E & I). apply in_seq in I. exists i. split; [lia|exact E].
  - intros (i & L & E). exists i. split; [exact E|apply in_seq; lia].
Qed.

Lemma elems_S (a : arr) n : elems a (S n) = elems a n ++ [a n].
Proof. unfold Heap_spec.elems. rewrite seq_S, map_app. reflexivity. Qed.

Variable cmp : A -> A -> Z.
Hypothesis PO : preorder cmp.
Notation le x y := (Z.le (cmp x y) Z0).

Lemma le_total x y : ~ le x y -> le y x.
Proof. intros H. pose proof (po_anti _ PO y x). lia. Qed.
Lemma le_refl x : le x x.
Proof. pose proof (po_anti _ PO x x). lia. Qed.

Definition heap_okp (a : arr) (n : nat) := forall i, 0 < i < n -> le (a (parent i)) (a i).

Definition up_inv (a : arr) (n pos : nat) :=
  (forall i, 0 < i < n -> i <> pos -> le (a (parent i)) (a i)) /\
  (forall i, 0 < i < n -> parent i = pos -> 0 < pos -> le (a (parent pos)) (a i)).

Definition down_inv (a : arr) (n pos : nat) :=
  (forall i, 0 < i < n -> parent i <> pos -> le (a (parent i)) (a i)) /\
  (forall i, 0 < i < n -> parent i = pos -> 0 < pos -> le (a (parent pos)) (a i)).

Definition upd_inv (a : arr) (n pos : nat) :=
  (forall i, 0 < i < n -> i <> pos -> parent i <> pos -> le (a (parent i)) (a i)) /\
  (forall i, 0 < i < n -> parent i = pos -> 0 < pos -> le (a (parent pos)) (a i)).

(** swapping up keeps the invariant *)
Lemma up_step a n pos : 0 < pos < n -> 
  (forall i, 0 < i < n -> i <> pos -> parent i <> pos -> le (a (parent i)) (a i)) ->
  (forall i, 0 < i < n -> parent i = pos -> 0 < pos -> le (a (parent pos)) (a i)) ->
  ~ le (a (parent pos)) (a pos) ->
  up_inv (aswap a (parent pos) pos) n (parent pos).
Proof.
  intros P H1 H2 N. pose proof (parent_spec pos ltac:(lia)) as PS.
  set (p := parent pos) in *. apply le_total in N.
  split.
  - intros i Hi Ni. pose proof (parent_spec i ltac:(lia)) as IS.
    destruct (Nat.eq_dec i pos) as [->|Np].
    { change (parent pos) with p. rewrite aswap_l, aswap_r. exact N. }
    rewrite (aswap_o a p pos i) by lia.
    destruct (Nat.eq_dec (parent i) pos) as [E|E].
    { rewrite E, aswap_r. apply H2; lia. }
    destruct (Nat.eq_dec (parent i) p) as [E2|E2].
    { rewrite E2, aswap_l. eapply (po_trans _ PO); [exact N|]. rewrite <- E2. apply H1; auto. }
    rewrite aswap_o by auto. apply H1; auto.
  - intros i Hi Ei P0. pose proof (parent_spec i ltac:(lia)) as IS.
    pose proof (parent_spec p P0) as PP.
    rewrite (aswap_o a p pos (parent p)) by lia.
    assert (G : le (a (parent p)) (a p)) by (apply H1; lia).
    destruct (Nat.eq_dec i pos) as [->|Np].
    { rewrite aswap_r. exact G. }
    rewrite aswap_o by lia. eapply (po_trans _ PO); [exact G|]. rewrite <- Ei at 1. apply H1; try lia.
Qed.

Lemma v_up_ok : forall fuel a pos n, pos < n -> pos <= fuel -> up_inv a n pos ->
  exists a', v_up A cmp fuel a pos = Some a' /\ heap_okp a' n.
Proof.
  induction fuel as [|f IH]; intros a pos n P F [H1 H2]; cbn [v_up].
  - assert (pos = 0) by lia. subst. cbn. exists a. split; [reflexivity|]. intros i Hi. apply H1; lia.
  - destruct (Nat.eqb_spec pos 0) as [->|NZ].
    { exists a. split; [reflexivity|]. intros i Hi. apply H1; lia. }
    destruct (Z.leb_spec (cmp (a (parent pos)) (a pos)) 0) as [L|L].
    { exists a. split; [reflexivity|]. intros i Hi. destruct (Nat.eq_dec i pos); [now subst|]. now apply H1. }
    pose proof (parent_spec pos ltac:(lia)).
    apply IH; [lia|lia|]. apply up_step; auto; lia.
Qed.

Lemma down_noop fuel a n pos : heap_okp a n -> pos < n -> 1 <= fuel -> v_down A cmp fuel a n pos = Some a.
Proof.
  intros H P F. destruct fuel as [|f]; [lia|]. cbn [v_down].
  destruct (Nat.leb_spec n (child0 pos)) as [|L]; [reflexivity|]. unfold child0 in *.
  destruct ((pos * 2 + 1 + 1 <? n) && _) eqn:E.
  - apply andb_true_iff in E as [E _]. apply Nat.ltb_lt in E.
    specialize (H (pos * 2 + 1 + 1) ltac:(lia)). fold (parent (pos * 2 + 1 + 1)) in H. rewrite (parent_unique _ pos) in H by lia.
    destruct (Z.leb_spec (cmp (a pos) (a (pos * 2 + 1 + 1))) 0); [reflexivity|lia].
  - specialize (H (pos * 2 + 1) ltac:(lia)). fold (parent (pos * 2 + 1)) in H. rewrite (parent_unique _ pos) in H by lia.
    destruct (Z.leb_spec (cmp (a pos) (a (pos * 2 + 1))) 0); [reflexivity|lia].
Qed.

Lemma v_down_ok : forall fuel a pos n, pos < n -> n <= pos + fuel -> down_inv a n pos ->
  exists a', v_down A cmp fuel a n pos = Some a' /\ heap_okp a' n.
Proof.
  induction fuel as [|f IH]; intros a pos n P F [H1 H2].
  { lia. }
  cbn [v_down]. 
  destruct (Nat.leb_spec n (child0 pos)) as [L|L].
  { exists a. split; [reflexivity|]. intros i Hi. apply H1; [exact Hi|].
    pose proof (parent_spec i ltac:(lia)). unfold child0 in L. lia. }
  unfold child0 in *. set (c0 := pos * 2 + 1) in *.
  set (c := if _ && _ then c0 + 1 else c0).
  assert (C : (c = c0 \/ c = c0 + 1) /\ c < n /\
              forall i, 0 < i < n -> parent i = pos -> le (a c) (a i)).
  { unfold c. destruct (Nat.ltb_spec (c0 + 1) n) as [L1|L1]; cbn [andb].
    - destruct (Z.ltb_spec (cmp (a (c0 + 1)) (a c0)) 0) as [L2|L2].
      + repeat split; [lia|lia|]. intros i Hi Ei. pose proof (parent_spec i ltac:(lia)) as IS.
        assert (i = c0 \/ i = c0 + 1) as [->| ->] by lia; [lia|apply le_refl].
      + repeat split; [lia|lia|]. intros i Hi Ei. pose proof (parent_spec i ltac:(lia)) as IS.
        assert (i = c0 \/ i = c0 + 1) as [->| ->] by lia; [apply le_refl|].
        pose proof (po_anti _ PO (a (c0 + 1)) (a c0)). lia.
    - repeat split; [lia|lia|]. intros i Hi Ei. pose proof (parent_spec i ltac:(lia)) as IS.
      assert (i = c0) as -> by lia. apply le_refl. }
  clearbody c. destruct C as (C1 & C2 & C3).
  destruct (Z.leb_spec (cmp (a pos) (a c)) 0) as [Q|Q].
  { exists a. split; [reflexivity|]. intros i Hi. destruct (Nat.eq_dec (parent i) pos) as [E|E].
    - rewrite E. eapply (po_trans _ PO); [exact Q|]. now apply C3.
    - now apply H1. }
  assert (QL : le (a c) (a pos)) by (apply le_total; lia).
  assert (PC : parent c = pos) by (apply parent_unique; lia).
  apply IH; [exact C2|lia|]. split.
  - intros i Hi Ni. pose proof (parent_spec i ltac:(lia)) as IS.
    destruct (Nat.eq_dec i c) as [->|Nc].
    { rewrite PC, aswap_l, aswap_r. exact QL. }
    destruct (Nat.eq_dec (parent i) pos) as [E|E].
    { rewrite E, aswap_r. rewrite aswap_o by lia. now apply C3. }
    rewrite (aswap_o a c pos (parent i)) by auto.
    destruct (Nat.eq_dec i pos) as [->|Np].
    { rewrite aswap_r. apply H2; lia. }
    rewrite aswap_o by auto. now apply H1.
  - intros i Hi Ei C0. pose proof (parent_spec i ltac:(lia)) as IS.
    rewrite PC, aswap_r. rewrite aswap_o by lia.
    rewrite <- Ei. apply H1; lia.
Qed.

Lemma v_update_ok a n pos : pos < n -> upd_inv a n pos ->
  exists a', v_update A cmp a n pos = Some a' /\ heap_okp a' n.
Proof.
  intros P [H1 H2]. unfold v_update. destruct (Nat.ltb_spec pos n); [|lia]. cbn [negb].
  assert (STAY : (pos = 0 \/ le (a (parent pos)) (a pos)) ->
            exists a', v_down A cmp n a n pos = Some a' /\ heap_okp a' n).
  { intros S. apply v_down_ok; [exact P|lia|]. split; [|exact H2].
    intros i Hi Ni. destruct (Nat.eq_dec i pos) as [->|]; [|now apply H1].
    destruct S; [lia|assumption]. }
  destruct n as [|n']; [lia|]. cbn [v_up].
  destruct (Nat.eqb_spec pos 0) as [E|NZ]; [apply STAY; auto|].
  destruct (Z.leb_spec (cmp (a (parent pos)) (a pos)) 0) as [L|L]; [apply STAY; auto|].
  pose proof (parent_spec pos ltac:(lia)).
  destruct (v_up_ok n' (aswap a (parent pos) pos) (parent pos) (S n')) as (a' & E & Q); [lia|lia| |].
  { apply up_step; auto; lia. }
  rewrite E. exists a'. split; [|exact Q]. apply down_noop; [exact Q|lia|lia].
Qed.

(** up and down only permute, and do not touch anything outside *)
Lemma v_up_perm : forall fuel a pos n a', pos < n -> v_up A cmp fuel a pos = Some a' ->
  Permutation (elems a n) (elems a' n) /\ forall i, n <= i -> a' i = a i.
Proof.
  induction fuel as [|f IH]; intros a pos n a' P E; cbn [v_up] in E.
  - destruct (pos =? 0); [|discriminate]. injection E as <-. split; auto.
  - destruct (Nat.eqb_spec pos 0) as [|NZ]; [injection E as <-; split; auto|].
    destruct (Z.leb _ 0); [injection E as <-; split; auto|].
    pose proof (parent_spec pos ltac:(lia)).
    apply (IH _ _ n) in E as [E1 E2]; [|lia]. split.
    + etransitivity; [|exact E1]. apply elems_swap; lia.
    + intros i Hi. rewrite E2 by exact Hi. apply aswap_o; lia.
Qed.

Lemma v_down_perm : forall fuel a pos n a', pos < n -> v_down A cmp fuel a n pos = Some a' ->
  Permutation (elems a n) (elems a' n) /\ forall i, n <= i -> a' i = a i.
Proof.
  induction fuel as [|f IH]; intros a pos n a' P E; cbn [v_down] in E.
  - destruct (_ <=? _); [|discriminate]. injection E as <-. split; auto.
  - destruct (Nat.leb_spec n (child0 pos)) as [|L]; [injection E as <-; split; auto|].
    set (c := if _ && _ then _ else _) in E.
    assert (C : c < n).
    { unfold c. destruct (Nat.ltb_spec (child0 pos + 1) n); cbn [andb]; [|exact L].
      destruct (Z.ltb _ 0); lia. }
    clearbody c.
    destruct (Z.leb _ 0); [injection E as <-; split; auto|].
    apply (IH _ _ n) in E as [E1 E2]; [|lia]. split.
    + etransitivity; [|exact E1]. apply elems_swap; lia.
    + intros i Hi. rewrite E2 by exact Hi. apply aswap_o; lia.
Qed.

Lemma v_update_perm a n pos a' : v_update A cmp a n pos = Some a' ->
  Permutation (elems a n) (elems a' n) /\ forall i, n <= i -> a' i = a i.
Proof.
  unfold v_update. destruct (Nat.ltb_spec pos n) as [L|]; cbn [negb]; [|discriminate].
  destruct (v_up A cmp n a pos) as [a1|] eqn:E1; [|discriminate]. intros E2.
  apply (v_up_perm _ _ _ n) in E1 as [P1 Q1]; [|exact L].
  apply v_down_perm in E2 as [P2 Q2]; [|exact L]. split.
  - etransitivity; eauto.
  - intros i Hi. rewrite Q2, Q1; auto.
Qed.

(** the root is a minimum *)
Lemma heap_min a n : heap_okp a n -> forall i, i < n -> le (a 0) (a i).
Proof.
  intros H i. induction i as [i IH] using lt_wf_ind. intros L.
  destruct i as [|i]; [apply le_refl|].
  pose proof (parent_spec (S i) ltac:(lia)).
  eapply (po_trans _ PO); [apply (IH (parent (S i))); lia|]. apply H. lia.
Qed.

Lemma heap_ok_le a n m : heap_okp a n -> m <= n -> heap_okp a m.
Proof. intros H L i Hi. apply H. lia. Qed.

(** *** make *)
Lemma v_make_loop_ok : forall k sz a, 1 <= sz -> heap_okp a (sz - 1) -> 
  exists a', v_make_loop A cmp k sz a = Some (a', sz + k) /\ heap_okp a' (sz + k - 1) /\
    Permutation (elems a (sz + k - 1)) (elems a' (sz + k - 1)).
Proof.
  induction k as [|k IH]; intros sz a S1 H; cbn [v_make_loop].
  - exists a. rewrite Nat.add_0_r. split; [reflexivity|]. split; [exact H|reflexivity].
  - destruct (v_up_ok sz a (sz - 1) sz) as (a1 & E & H'); [lia|lia| |].
    { split.
      - intros i Hi Ni. apply H. lia.
      - intros i Hi Ei. pose proof (parent_spec i ltac:(lia)). lia. }
    rewrite E. destruct (IH (S sz) a1) as (a' & E' & H2 & P2); [lia| |].
    { replace (S sz - 1) with sz by lia. exact H'. }
    rewrite E'. exists a'. replace (sz + S k) with (S sz + k) by lia.
    split; [reflexivity|]. split; [exact H2|].
    etransitivity; [|exact P2].
    eapply v_up_perm in E as [P1 _]; [exact P1|lia].
Qed.

(** every vector of at least two elements gets one element too much *)
Lemma v_make_ok a n : 2 <= n ->
  exists a', v_make A cmp a n = Some (a', n + 1) /\ heap_okp a' n /\
    Permutation (elems a n) (elems a' n).
Proof.
  intros N. unfold v_make. destruct (Nat.ltb_spec n 2); [lia|].
  destruct (v_make_loop_ok (n - 1) 2 a) as (a' & E & H1 & P); [lia| |].
  { intros i Hi. lia. }
  replace (2 + (n - 1)) with (n + 1) in * by lia.
  replace (n + 1 - 1) with n in * by lia. exists a'. auto.
Qed.

(** *** extract, insert *)
Lemma v_extract_ok a n : 0 < n -> heap_okp a n ->
  exists a', v_extract A cmp a n = Some (a', n - 1) /\ heap_okp a' (n - 1) /\
    a' (n - 1) = a 0 /\ Permutation (elems a n) (a 0 :: elems a' (n - 1)).
Proof.
  intros N H. unfold v_extract. destruct (Nat.eqb_spec n 0); [lia|].
  destruct (Nat.ltb_spec 0 (n - 1)) as [L|L].
  - destruct (v_update_ok (aswap a 0 (n - 1)) (n - 1) 0) as (a' & E & H'); [lia| |].
    { split.
      - intros i Hi Ni Pi. pose proof (parent_spec i ltac:(lia)). rewrite !aswap_o by lia. apply H. lia.
      - intros i Hi _. lia. }
    rewrite E. exists a'. split; [reflexivity|]. split; [exact H'|].
    apply v_update_perm in E as [P Q].
    split; [rewrite Q by lia; apply aswap_r|].
    rewrite (elems_swap a 0 (n - 1) n) by lia.
    replace n with (S (n - 1)) at 2 by lia. rewrite elems_S, aswap_r.
    rewrite <- Permutation_cons_append. now constructor.
  - exists a. assert (n = 1) by lia. subst. split; [reflexivity|].
    split; [intros i Hi; lia|]. split; reflexivity.
Qed.

Lemma v_insert_ok a n x : heap_okp a n ->
  exists a', v_insert A cmp a n x = Some (a', S n) /\ heap_okp a' (S n) /\
    Permutation (elems a' (S n)) (x :: elems a n).
Proof.
  intros H. unfold v_insert.
  destruct (v_update_ok (aset A a n x) (S n) n) as (a' & E & H'); [lia| |].
  { split.
    - intros i Hi Ni Pi. rewrite !aset_other by auto. apply H. lia.
    - intros i Hi Ei. pose proof (parent_spec i ltac:(lia)). lia. }
  rewrite E. exists a'. split; [reflexivity|]. split; [exact H'|].
  apply v_update_perm in E as [P _]. rewrite <- P, elems_S, aset_same.
  rewrite <- Permutation_cons_append. constructor.
  apply Permutation_refl'. apply elems_ext. intros i Hi. apply aset_other. lia.
Qed.

End Vec.

(** ** the heap with embedded indices *)

(** every element in the first [n] places knows its place *)

Lemma idx_inj n h i j : idx_ok n h -> i < n -> j < n -> harr h i = harr h j -> i = j.
Proof. intros H I J E. pose proof (H i I). pose proof (H j J). congruence. Qed.

Lemma iset_same f x v : iset f x v x = v.
Proof. unfold iset. now rewrite Nat.eqb_refl. Qed.
Lemma iset_other f x v y : y <> x -> iset f x v y = f y.
Proof. unfold iset. intros. destruct (Nat.eqb_spec y x); congruence. Qed.

(** same elements, same indices outside, same places known *)
Definition sim (n : nat) (h h' : heap) :=
  hsize h' = hsize h /\ (idx_ok n h -> idx_ok n h') /\
  forall x, (forall i, i < n -> harr h i <> x) -> hidx h' x = hidx h x.

Lemma sim_refl n h : sim n h h.
Proof. split; auto. Qed.

Lemma swap_sim n h p q : p < n -> q < n -> sim n h (h_swap h p q).
Proof.
  intros P Q. split; [reflexivity|]. split.
  - intros I i Hi. unfold h_swap; cbn [hidx harr].
    destruct (Nat.eq_dec i p) as [->|Np]; [apply iset_same|].
    assert (A : aswap elem (harr h) p q i <> aswap elem (harr h) p q p).
    { rewrite aswap_l. destruct (Nat.eq_dec i q) as [->|Nq].
      - rewrite aswap_r. intros E. apply (idx_inj n h) in E; auto.
      - rewrite aswap_o by auto. intros E. apply (idx_inj n h) in E; auto. }
    rewrite iset_other by exact A.
    destruct (Nat.eq_dec i q) as [->|Nq]; [apply iset_same|].
    rewrite iset_other.
    + rewrite aswap_o by auto. now apply I.
    + rewrite aswap_r, aswap_o by auto. intros E. apply (idx_inj n h) in E; auto.
  - intros x X. unfold h_swap; cbn [hidx harr]. rewrite !iset_other; auto.
    + rewrite aswap_r. intros ->. now apply (X p).
    + rewrite aswap_l. intros ->. now apply (X q).
Qed.

Lemma sim_trans n h1 h2 h3 : (forall x, (forall i, i < n -> harr h1 i <> x) -> forall i, i < n -> harr h2 i <> x) ->
  sim n h1 h2 -> sim n h2 h3 -> sim n h1 h3.
Proof.
  intros E (A & B & C) (A' & B' & C'). split; [congruence|]. split; [auto|].
  intros x X. rewrite C' by auto. now apply C.
Qed.

Lemma swap_out n h p q x : p < n -> q < n ->
  (forall i, i < n -> harr h i <> x) -> forall i, i < n -> harr (h_swap h p q) i <> x.
Proof.
  intros P Q H i Hi. cbn [harr h_swap]. rewrite aswap_tr. apply H.
  unfold tr. repeat match goal with |- context[?a =? ?b] => destruct (Nat.eqb_spec a b) end; lia.
Qed.

Lemma h_up_sim cmp n : forall fuel h pos, pos < n ->
  match v_up elem cmp fuel (harr h) pos with
  | Some a => exists h', h_up cmp fuel h pos = Some h' /\ harr h' = a /\ sim n h h'
  | None => True
  end.
Proof.
  induction fuel as [|f IH]; intros h pos P; cbn [v_up h_up].
  - destruct (pos =? 0); [|exact I]. exists h. split; [reflexivity|]. split; [reflexivity|apply sim_refl].
  - destruct (Nat.eqb_spec pos 0) as [|NZ].
    { exists h. split; [reflexivity|]. split; [reflexivity|apply sim_refl]. }
    destruct (Z.leb _ 0). { exists h. split; [reflexivity|]. split; [reflexivity|apply sim_refl]. }
    pose proof (parent_spec pos ltac:(lia)).
    specialize (IH (h_swap h (parent pos) pos) (parent pos) ltac:(lia)). cbn [harr h_swap] in IH.
    destruct (v_up _ _ _ _ _); [|exact I]. destruct IH as (h' & E & Ea & S).
    exists h'. split; [exact E|]. split; [exact Ea|].
    eapply sim_trans; [|apply swap_sim|exact S]; try lia.
    intros x X. apply swap_out; auto; lia.
Qed.

Lemma h_down_sim cmp n : forall fuel h pos, hsize h <= n -> pos < n ->
  match v_down elem cmp fuel (harr h) (hsize h) pos with
  | Some a => exists h', h_down cmp fuel h pos = Some h' /\ harr h' = a /\ sim n h h'
  | None => True
  end.
Proof.
  induction fuel as [|f IH]; intros h pos N P; cbn [v_down h_down].
  - destruct (_ <=? _); [|exact I]. exists h. split; [reflexivity|]. split; [reflexivity|apply sim_refl].
  - destruct (Nat.leb_spec (hsize h) (child0 pos)) as [|L].
    { exists h. split; [reflexivity|]. split; [reflexivity|apply sim_refl]. }
    set (c := if _ && _ then _ else _).
    assert (C : c < n).
    { unfold c. destruct (Nat.ltb_spec (child0 pos + 1) (hsize h)); cbn [andb]; [|lia].
      destruct (Z.ltb _ 0); lia. }
    clearbody c.
    destruct (Z.leb _ 0). { exists h. split; [reflexivity|]. split; [reflexivity|apply sim_refl]. }
    specialize (IH (h_swap h c pos) c N C). cbn [harr hsize h_swap] in IH.
    destruct (v_down _ _ _ _ _ _); [|exact I]. destruct IH as (h' & E & Ea & S).
    exists h'. split; [exact E|]. split; [exact Ea|].
    eapply sim_trans; [|apply swap_sim|exact S]; try lia.
    intros x X. apply swap_out; auto; lia.
Qed.

Lemma h_update_sim cmp n h pos a : hsize h <= n ->
  v_update elem cmp (harr h) (hsize h) pos = Some a ->
  exists h', h_update cmp h pos = Some h' /\ harr h' = a /\ sim n h h'.
Proof.
  intros N. unfold v_update, h_update.
  destruct (Nat.ltb_spec pos (hsize h)) as [L|]; cbn [negb]; [|discriminate].
  destruct (v_up elem cmp (hsize h) (harr h) pos) as [a1|] eqn:E1; [|discriminate]. intros E2.
  pose proof (h_up_sim cmp n (hsize h) h pos ltac:(lia)) as U. rewrite E1 in U.
  destruct U as (h1 & -> & A1 & S1).
  destruct S1 as (Z1 & S1).
  pose proof (h_down_sim cmp n (hsize h1) h1 pos ltac:(lia) ltac:(lia)) as D.
  rewrite A1, Z1, E2 in D. destruct D as (h' & D & A' & S').
  exists h'. rewrite Z1. split; [exact D|]. split; [exact A'|].
  eapply sim_trans; [|split; [exact Z1|exact S1]|exact S'].
  intros x X i Hi. rewrite A1.
  apply (v_up_perm _ _ _ _ _ n) in E1 as [Pm _]; [|lia].
  intros Q. assert (In x (elems _ (harr h) n)).
  { eapply Permutation_in; [symmetry; exact Pm|]. apply elems_in. eauto. }
  apply elems_in in H as (k & K & KE). now apply (X k).
Qed.

(** ** histories *)

Record inv (cmp : elem -> elem -> Z) (bag : list elem) (h : heap) : Prop := mk_inv {
  inv_po : preorder cmp;
  inv_idx : idx_ok (hsize h) h;
  inv_bag : Permutation (elems _ (harr h) (hsize h)) bag;
  inv_out : forall x, ~ In x bag -> hidx h x = None;
  inv_ord : heap_okp _ cmp (harr h) (hsize h)
}.

Lemma inv_in cmp bag h x : inv cmp bag h ->
  In x bag <-> exists i, i < hsize h /\ harr h i = x /\ hidx h x = Some i.
Proof.
  intros I. split.
  - intros H. apply (Permutation_in x (Permutation_sym (inv_bag _ _ _ I))) in H.
    apply elems_in in H as (i & L & <-). exists i. repeat split; auto. now apply I.
  - intros (i & L & <- & _). apply (Permutation_in _ (inv_bag _ _ _ I)). apply elems_in. eauto.
Qed.

Lemma inv_lookup cmp bag h x i : inv cmp bag h -> hidx h x = Some i -> i < hsize h /\ harr h i = x /\ In x bag.
Proof.
  intros I E. destruct (in_dec Nat.eq_dec x bag) as [H|H].
  - pose proof H as H2. apply (inv_in _ _ _ x I) in H as (j & L & Ej & E2).
    assert (i = j) by congruence. now subst.
  - rewrite (inv_out _ _ _ I x H) in E. discriminate.
Qed.

(** changing the order about one element leaves a heap with one wrong place *)
Lemma agree_upd_inv cmp cmp' bag h i : inv cmp bag h -> preorder cmp' -> i < hsize h ->
  agree_except (Some (harr h i)) bag cmp cmp' ->
  upd_inv _ cmp' (harr h) (hsize h) i.
Proof.
  intros I PO' L AG.
  assert (EQ : forall j k, j < hsize h -> k < hsize h -> j <> i -> k <> i ->
    cmp (harr h j) (harr h k) = cmp' (harr h j) (harr h k)).
  { intros j k J K NJ NK. apply AG.
    - apply (inv_in _ _ _ _ I). exists j. repeat split; auto. now apply I.
    - apply (inv_in _ _ _ _ I). exists k. repeat split; auto. now apply I.
    - intros E. injection E as E. apply (idx_inj (hsize h) h) in E; auto. apply I.
    - intros E. injection E as E. apply (idx_inj (hsize h) h) in E; auto. apply I. }
  split.
  - intros j J N1 N2. pose proof (parent_spec j ltac:(lia)).
    rewrite <- EQ by lia. apply I. lia.
  - intros j J E P. pose proof (parent_spec j ltac:(lia)). pose proof (parent_spec i ltac:(lia)).
    rewrite <- EQ by lia. eapply (po_trans _ (inv_po _ _ _ I)).
    + apply I. lia.
    + rewrite <- E. apply I. lia.
Qed.

Lemma agree_ord cmp cmp' bag h : inv cmp bag h -> 
  (forall a b, In a bag -> In b bag -> cmp a b = cmp' a b) ->
  heap_okp _ cmp' (harr h) (hsize h).
Proof.
  intros I AG i Hi. pose proof (parent_spec i ltac:(lia)).
  rewrite <- AG.
  - apply I. exact Hi.
  - apply (inv_in _ _ _ _ I). exists (parent i). repeat split; auto; try lia. apply I. lia.
  - apply (inv_in _ _ _ _ I). exists i. repeat split; auto; try lia. apply I. lia.
Qed.

Lemma update_inv h pos cmp' bag' :
  preorder cmp' -> pos < hsize h ->
  idx_ok (hsize h) h ->
  Permutation (elems _ (harr h) (hsize h)) bag' ->
  (forall x, ~ In x bag' -> hidx h x = None) ->
  upd_inv _ cmp' (harr h) (hsize h) pos ->
  exists h', h_update cmp' h pos = Some h' /\ inv cmp' bag' h' /\ sim (hsize h) h h'.
Proof.
  intros PO P IX PM OUT UI.
  destruct (v_update_ok _ cmp' PO _ _ _ P UI) as (a & E & OK).
  destruct (h_update_sim cmp' (hsize h) h pos a ltac:(lia) E) as (h' & E' & A' & S).
  exists h'. split; [exact E'|]. split; [|exact S].
  destruct S as (Z & SI & SO). apply v_update_perm in E as [P1 _].
  constructor.
  - exact PO.
  - rewrite Z. now apply SI.
  - rewrite A', Z, <- P1. exact PM.
  - intros x X. rewrite SO; [now apply OUT|].
    intros i Hi Ei. apply X. apply (Permutation_in _ PM). apply elems_in. eauto.
  - rewrite A', Z. exact OK.
Qed.

Lemma insert_inv cmp cmp' bag h x : inv cmp bag h -> preorder cmp' -> ~ In x bag ->
  (forall a b, In a bag -> In b bag -> cmp a b = cmp' a b) ->
  exists h', h_insert cmp' h x = Some h' /\ inv cmp' (x :: bag) h'.
Proof.
  intros I PO NI AG. pose proof (agree_ord _ _ _ _ I AG) as ORD. unfold h_insert.
  set (h1 := mk_heap _ _ _).
  assert (NX : forall i, i < hsize h -> harr h i <> x).
  { intros i Hi E. apply NI. apply (inv_in _ _ _ _ I). exists i. repeat split; auto.
    rewrite <- E. now apply I. }
  destruct (update_inv h1 (hsize h) cmp' (x :: bag)) as (h' & E & V & _); auto.
  - intros i Hi. cbn [hidx harr hsize h1] in *.
    destruct (Nat.eq_dec i (hsize h)) as [->|N].
    + rewrite aset_same. apply iset_same.
    + rewrite aset_other by auto. rewrite iset_other by (apply NX; lia). apply I. lia.
  - cbn [harr hsize h1]. rewrite elems_S, aset_same, <- Permutation_cons_append.
    constructor. rewrite <- (inv_bag _ _ _ I). apply Permutation_refl'. apply elems_ext.
    intros i Hi. apply aset_other. lia.
  - intros y Y. cbn [hidx h1]. rewrite iset_other by (intros ->; apply Y; now left).
    apply I. intros Q. apply Y. now right.
  - cbn [harr hsize h1]. split.
    + intros i Hi N1 N2. rewrite !aset_other by auto. apply ORD. lia.
    + intros i Hi Ei. pose proof (parent_spec i ltac:(lia)). lia.
  - exists h'. split; [exact E|exact V].
Qed.

Lemma remove_inv cmp cmp' bag h i : inv cmp bag h -> preorder cmp' -> i < hsize h ->
  agree_except (Some (harr h i)) bag cmp cmp' ->
  exists h' bag', h_remove cmp' h i = Some (h', harr h i) /\
    Permutation bag (harr h i :: bag') /\ inv cmp' bag' h'.
Proof.
  intros I PO L AG.
  pose proof (agree_upd_inv _ _ _ _ _ I PO L AG) as [U1 U2].
  set (n := hsize h) in *. set (q := n - 1).
  unfold h_remove. fold n. destruct (Nat.ltb_spec i n); [|lia]. cbn [negb]. fold q.
  assert (ND : NoDup bag).
  { eapply Permutation_NoDup; [apply I|]. unfold Heap_spec.elems. unfold n in *.
    clear - I. assert (IX := inv_idx _ _ _ I). 
    revert IX. generalize (hsize h) as m. induction m as [|m IH]; intros IX; [constructor|].
    rewrite seq_S, map_app. cbn [map].
    apply (Permutation_NoDup (l := harr h m :: map (harr h) (seq 0 m))).
    { apply Permutation_cons_append. }
    constructor.
    - intros Q. apply in_map_iff in Q as (k & E & K). apply in_seq in K.
      apply (idx_inj (S m) h) in E; auto; lia.
    - apply IH. intros k K. apply IX. lia. }
  (* common end: from the array without last element *)
  assert (FIN : forall h2, harr h2 q = harr h i -> hsize h2 = q ->
     idx_ok n h2 -> Permutation (elems _ (harr h2) n) bag ->
     (forall x, ~ In x bag -> hidx h2 x = None) ->
     heap_okp _ cmp' (harr h2) q ->
     exists bag', Permutation bag (harr h i :: bag') /\
       inv cmp' bag' (mk_heap (harr h2) (hsize h2) (iset (hidx h2) (harr h2 q) None))).
  { intros h2 E2 Z2 I2 P2 O2 OK2. exists (elems _ (harr h2) q).
    assert (PB : Permutation bag (harr h i :: elems nat (harr h2) q)).
    { rewrite <- P2. replace n with (S q) by lia. rewrite elems_S, E2.
      symmetry. apply Permutation_cons_append. }
    split; [exact PB|].
    assert (NQ : ~ In (harr h i) (elems _ (harr h2) q)).
    { eapply Permutation_NoDup in ND; [|exact PB]. now inversion ND. }
    constructor; cbn [harr hsize hidx]; rewrite ?Z2.
    - exact PO.
    - intros k K. cbn [harr hidx]. rewrite iset_other.
      + apply I2. lia.
      + rewrite E2. intros E. apply NQ. apply elems_in. eauto.
    - reflexivity.
    - intros x X. rewrite E2. destruct (Nat.eq_dec x (harr h i)) as [->|N]; [apply iset_same|].
      rewrite iset_other by exact N. apply O2. intros Q. apply (Permutation_in _ PB) in Q as [Q|Q]; auto.
    - exact OK2. }
  destruct (Nat.eqb_spec q i) as [E|NE].
  - destruct (FIN (mk_heap (harr h) q (hidx h))) as (bag' & P & V); cbn [harr hsize hidx]; auto.
    + exact (inv_idx _ _ _ I).
    + apply I.
    + apply I.
    + intros k K. pose proof (parent_spec k ltac:(lia)). apply U1; lia.
    + eexists. exists bag'. cbn [harr hsize hidx] in *. rewrite E in *.
      split; [reflexivity|]. split; [exact P|exact V].
  - set (h1 := h_swap (mk_heap (harr h) q (hidx h)) i q).
    assert (S1 : sim n (mk_heap (harr h) q (hidx h)) h1) by (apply swap_sim; lia).
    destruct S1 as (Z1 & SI1 & SO1).
    assert (UI : upd_inv _ cmp' (harr h1) (hsize h1) i).
    { cbn [hsize h1 h_swap harr]. split.
      - intros k K N1 N2. pose proof (parent_spec k ltac:(lia)). rewrite !aswap_o by lia. apply U1; lia.
      - intros k K E P. pose proof (parent_spec k ltac:(lia)). pose proof (parent_spec i ltac:(lia)).
        rewrite !aswap_o by lia. apply U2; lia. }
    destruct (v_update_ok _ cmp' PO (harr h1) (hsize h1) i) as (a & E & OK); [cbn; lia|exact UI|].
    destruct (h_update_sim cmp' n h1 i a) as (h2 & E2 & A2 & (Z2 & SI2 & SO2)); [cbn; lia|exact E|].
    rewrite E2.
    apply v_update_perm in E as [PV OV].
    destruct (FIN h2) as (bag' & P & V).
    + rewrite A2, OV by (cbn; lia). cbn [harr h1 h_swap]. apply aswap_r.
    + rewrite Z2. reflexivity.
    + apply SI2, SI1. exact (inv_idx _ _ _ I).
    + rewrite A2. replace n with (S q) by lia. rewrite elems_S.
      rewrite OV by (cbn; lia).
      change (hsize h1) with q in PV. rewrite <- PV. rewrite <- elems_S.
      replace (S q) with n by lia. cbn [harr h1 h_swap]. rewrite <- elems_swap by lia. apply I.
    + intros x X. assert (X' : forall k, k < n -> harr h k <> x).
      { intros k K Ek. apply X. apply (inv_in _ _ _ _ I). exists k. repeat split; auto.
        rewrite <- Ek. now apply I. }
      rewrite SO2.
      * rewrite SO1; [now apply I|exact X'].
      * intros k K. apply (swap_out n); auto; lia.
    + rewrite A2. exact OK.
    + eexists. exists bag'. split.
      * f_equal. f_equal. rewrite A2, OV by (cbn; lia). cbn [harr h1 h_swap]. apply aswap_r.
      * split; [exact P|exact V].
Qed.

Lemma update_call cmp cmp' bag h i : inv cmp bag h -> preorder cmp' -> i < hsize h ->
  agree_except (Some (harr h i)) bag cmp cmp' ->
  exists h', h_update cmp' h i = Some h' /\ inv cmp' bag h'.
Proof.
  intros I PO L AG.
  destruct (update_inv h i cmp' bag) as (h' & E & V & _); auto; try apply I.
  - eapply agree_upd_inv; eauto.
  - exists h'. split; [exact E|exact V].
Qed.

Lemma not_in_agree cmp cmp' bag x : ~ In x bag -> agree_except (Some x) bag cmp cmp' ->
  forall a b, In a bag -> In b bag -> cmp a b = cmp' a b.
Proof.
  intros NI AG a b A B. apply AG; auto; intros E; injection E as ->; contradiction.
Qed.

Lemma call_ok cmp cmp' bag h c : inv cmp bag h -> preorder cmp' ->
  allowed bag c -> agree_except (touched c) bag cmp cmp' ->
  exists h' r bag', h_call cmp' h c = Some (h', r) /\ step cmp' bag c r bag' /\ inv cmp' bag' h'.
Proof.
  intros I PO AL AG. destruct c as [x|x|x y|x|]; cbn [allowed touched h_call] in *.
  - destruct (insert_inv _ _ _ _ x I PO AL (not_in_agree _ _ _ _ AL AG)) as (h' & -> & V).
    exists h', None, (x :: bag). split; [reflexivity|]. split; [constructor|exact V].
  - apply (inv_in _ _ _ _ I) in AL as (i & L & E & ->). rewrite <- E in AG.
    destruct (remove_inv _ _ _ _ i I PO L AG) as (h' & bag' & -> & P & V).
    rewrite E in *. exists h', (Some x), bag'. split; [reflexivity|]. split; [now constructor|exact V].
  - unfold h_replace. destruct (in_dec Nat.eq_dec x bag) as [X|X].
    + pose proof X as X'. apply (inv_in _ _ _ _ I) in X as (i & L & E & ->).
      destruct (Nat.ltb_spec i (hsize h)); [|lia]. cbn [negb].
      destruct y as [y|].
      * rewrite E. destruct (Nat.eqb_spec x y) as [<-|NE].
        -- rewrite <- E in AG. destruct (update_call _ _ _ _ i I PO L AG) as (h' & -> & V).
           exists h', None, bag. split; [reflexivity|]. split; [now constructor|exact V].
        -- destruct AL as [|AL]; [contradiction|].
           assert (IX : hidx h x = Some i) by (rewrite <- E; now apply I). rewrite IX, Nat.eqb_refl.
           cbn [negb].
           rewrite <- E in AG. pose proof (agree_upd_inv _ _ _ _ _ I PO L AG) as [U1 U2]. rewrite E in *.
           assert (NY : forall k, k < hsize h -> harr h k <> y).
           { intros k K Ek. apply AL. apply (inv_in _ _ _ _ I). exists k. repeat split; auto.
             rewrite <- Ek. now apply I. }
           set (h1 := mk_heap (aset elem (harr h) i y) (hsize h)
                        (iset (iset (hidx h) y (Some i)) x None)).
           assert (NX1 : forall k, k < hsize h -> aset elem (harr h) i y k <> x).
           { intros k K. destruct (Nat.eq_dec k i) as [->|N]; [rewrite aset_same; congruence|].
             rewrite aset_other by exact N. intros Q. apply N. apply (idx_inj (hsize h) h); auto.
             - apply I.
             - congruence. }
           destruct (in_split _ _ X') as (l1 & l2 & SP).
           set (bag' := l1 ++ l2).
           assert (PB : Permutation bag (x :: bag')).
           { rewrite SP. symmetry. apply Permutation_middle. }
           assert (PA : Permutation (elems _ (aset elem (harr h) i y) (hsize h)) (y :: bag')).
           { assert (forall z m (a : nat -> elem), i < m ->
                Permutation (elems _ (aset elem a i z) m) (z :: elems _ a i ++ map a (seq (S i) (m - S i)))) as G.
             { intros z m a Hm. unfold Heap_spec.elems. replace m with (i + S (m - S i)) at 1 by lia.
               rewrite seq_app, map_app. cbn [seq map Nat.add]. rewrite aset_same.
               rewrite <- Permutation_middle. constructor.
               apply Permutation_app; apply Permutation_refl'; apply map_ext_in; intros k K;
                 apply in_seq in K; apply aset_other; lia. }
             rewrite G by exact L. constructor.
             pose proof (G x (hsize h) (harr h) L) as G2.
             assert (elems elem (aset elem (harr h) i x) (hsize h) = elems elem (harr h) (hsize h)) as EE.
             { apply elems_ext. intros k K. unfold aset. destruct (Nat.eqb_spec k i); congruence. }
             rewrite EE, (inv_bag _ _ _ I), PB in G2. now apply Permutation_cons_inv in G2. }
           destruct (update_inv h1 i cmp' (y :: bag')) as (h' & E' & V & S); auto.
           { intros k K. cbn [hidx harr hsize h1] in *. rewrite iset_other by (apply NX1; exact K).
             destruct (Nat.eq_dec k i) as [->|N].
             - rewrite aset_same. apply iset_same.
             - rewrite aset_other by exact N. rewrite iset_other by (apply NY; exact K). now apply I. }
           { intros z Z. cbn [hidx h1]. destruct (Nat.eq_dec z x) as [->|N]; [apply iset_same|].
             rewrite iset_other by exact N. rewrite iset_other by (intros ->; apply Z; now left).
             apply I. intros Q. apply (Permutation_in _ PB) in Q as [Q|Q]; [congruence|].
             apply Z. now right. }
           { cbn [harr hsize h1]. split.
             - intros k K N1 N2. rewrite !aset_other by auto. apply U1; auto.
             - intros k K Ek P. pose proof (parent_spec k ltac:(lia)). pose proof (parent_spec i ltac:(lia)).
               rewrite !aset_other by lia. apply U2; auto. }
           rewrite E'. destruct S as (_ & _ & SO). rewrite (SO x NX1).
           cbn [hidx h1]. rewrite iset_same.
           exists h', (Some x), (y :: bag'). split; [reflexivity|]. split; [now constructor|exact V].
      * rewrite <- E in AG.
        destruct (remove_inv _ _ _ _ i I PO L AG) as (h' & bag' & -> & P & V).
        rewrite E in *. exists h', (Some x), bag'. split; [reflexivity|]. split; [now constructor|exact V].
    + rewrite (inv_out _ _ _ I x X). destruct y as [y|]; [|contradiction].
      assert (NY : ~ In y bag) by (destruct AL as [<-|]; auto).
      destruct (insert_inv _ _ _ _ y I PO NY (not_in_agree _ _ _ _ X AG)) as (h' & -> & V).
      exists h', None, (y :: bag). split; [reflexivity|]. split; [now constructor|exact V].
  - apply (inv_in _ _ _ _ I) in AL as (i & L & E & ->). rewrite <- E in AG.
    destruct (update_call _ _ _ _ i I PO L AG) as (h' & -> & V).
    exists h', None, bag. split; [reflexivity|]. split; [constructor|exact V].
  - unfold h_extract. destruct (Nat.eqb_spec (hsize h) 0) as [Z|NZ].
    + pose proof (inv_bag _ _ _ I) as P. rewrite Z in P. cbn in P. apply Permutation_nil in P. subst bag.
      exists h, None, []. split; [reflexivity|]. split; [constructor|].
      constructor; try apply I; auto.
      rewrite Z. intros i Hi. lia.
    + assert (AG0 : forall a b, In a bag -> In b bag -> cmp a b = cmp' a b).
      { intros a b A B. apply AG; auto; discriminate. }
      assert (AGx : agree_except (Some (harr h 0)) bag cmp cmp') by (intros a b A B _ _; auto).
      pose proof (agree_ord _ _ _ _ I AG0) as ORD.
      destruct (remove_inv _ _ _ _ 0 I PO ltac:(lia) AGx) as (h' & bag' & -> & P & V).
      exists h', (Some (harr h 0)), bag'. split; [reflexivity|]. split; [|exact V].
      constructor; [|exact P]. split.
      * apply (Permutation_in _ (Permutation_sym P)). now left.
      * intros y Y. apply (inv_in _ _ _ _ I) in Y as (j & J & <- & _).
        apply (heap_min _ _ PO _ (hsize h)); auto.
Qed.

Lemma run_ok : forall cs cmp bag h, inv cmp bag h -> permitted cmp bag cs ->
  exists h' rs bag' cmp', h_run h cs = Some (h', rs) /\ history cmp bag cs rs cmp' bag' /\ inv cmp' bag' h'.
Proof.
  induction cs as [|[cmp' c] cs IH]; intros cmp bag h I P; cbn [permitted h_run] in *.
  - exists h, [], bag, cmp. split; [reflexivity|]. split; [constructor|exact I].
  - destruct P as (PO & AL & AG & NX).
    destruct (call_ok _ _ _ _ _ I PO AL AG) as (h1 & r & bag1 & -> & ST & V).
    destruct (IH cmp' bag1 h1 V (NX _ _ ST)) as (h2 & rs & bag2 & cmp2 & -> & HI & V2).
    exists h2, (r :: rs), bag2, cmp2. split; [reflexivity|]. split; [|exact V2].
    econstructor; eauto.
Qed.

Lemma preorder_zero : preorder (fun _ _ : elem => 0%Z).
Proof. constructor; intros; lia. Qed.

Lemma inv_empty cmp : preorder cmp -> inv cmp [] h_empty.
Proof.
  intros PO. constructor; cbn; auto.
  - intros i Hi. cbn in Hi. lia.
  - intros i Hi. lia.
Qed.

Lemma heap_history cs cmp : preorder cmp -> permitted cmp [] cs ->
  exists h rs bag cmp', h_run h_empty cs = Some (h, rs) /\ history cmp [] cs rs cmp' bag /\
    Permutation (map (harr h) (seq 0 (hsize h))) bag /\
    (bag = [] -> h_min h = None) /\
    (bag <> [] -> exists m, h_min h = Some m /\ is_min cmp' m bag).
Proof.
  intros PO P. destruct (run_ok cs cmp [] h_empty (inv_empty cmp PO) P) as (h & rs & bag & cmp' & E & H & I).
  exists h, rs, bag, cmp'. split; [exact E|]. split; [exact H|]. split; [apply I|].
  pose proof (inv_bag _ _ _ I) as PB. unfold h_min.
  split.
  - intros ->. symmetry in PB. apply Permutation_nil in PB.
    destruct (hsize h); [reflexivity|discriminate].
  - intros NE. destruct (Nat.eqb_spec (hsize h) 0) as [Z|NZ].
    + rewrite Z in PB. cbn in PB. apply Permutation_nil in PB. contradiction.
    + exists (harr h 0). split; [reflexivity|]. split.
      * apply (inv_in _ _ _ _ I). exists 0. repeat split; auto; try lia. apply I. lia.
      * intros y Y. apply (inv_in _ _ _ _ I) in Y as (j & J & <- & _).
        apply (heap_min _ _ (inv_po _ _ _ I) _ (hsize h)); auto. apply I.
Qed.

Lemma heap_index_history cs cmp : preorder cmp -> permitted cmp [] cs ->
  exists h rs bag cmp', h_run h_empty cs = Some (h, rs) /\ history cmp [] cs rs cmp' bag /\
    forall x, match hidx h x with
              | Some i => In x bag /\ i < hsize h /\ harr h i = x
              | None => ~ In x bag
              end.
Proof.
  intros PO P. destruct (run_ok cs cmp [] h_empty (inv_empty cmp PO) P) as (h & rs & bag & cmp' & E & H & I).
  exists h, rs, bag, cmp'. split; [exact E|]. split; [exact H|].
  intros x. destruct (hidx h x) as [i|] eqn:EX.
  - destruct (inv_lookup _ _ _ _ _ I EX) as (A & B & C). auto.
  - intros IN. apply (inv_in _ _ _ _ I) in IN as (i & _ & _ & Q). congruence.
Qed.

(** *** make *)
Lemma set_idx_ok : forall n h, n <= hsize h ->
  (forall i j, i < hsize h -> j < hsize h -> harr h i = harr h j -> i = j) ->
  idx_ok n (h_set_idx n h) /\ harr (h_set_idx n h) = harr h /\ hsize (h_set_idx n h) = hsize h.
Proof.
  induction n as [|n IH]; intros h L D; cbn [h_set_idx].
  - split; [intros i Hi; lia|]. auto.
  - destruct (IH h ltac:(lia) D) as (A & B & C). cbn [harr hsize hidx].
    split; [|split; [exact B|exact C]].
    intros i Hi. cbn [harr hidx]. rewrite B in *.
    destruct (Nat.eq_dec i n) as [->|N]; [apply iset_same|].
    rewrite iset_other.
    + rewrite <- B. apply A. lia.
    + intros E. apply N. apply D; auto; lia.
Qed.

Lemma h_make_loop_ok cmp N : preorder cmp -> forall k h, 1 <= hsize h -> hsize h + k = N + 1 ->
  heap_okp _ cmp (harr h) (hsize h - 1) -> idx_ok N h ->
  exists h', h_make_loop cmp k h = Some h' /\ hsize h' = N + 1 /\
    heap_okp _ cmp (harr h') N /\ idx_ok N h' /\
    Permutation (elems _ (harr h) N) (elems _ (harr h') N).
Proof.
  intros PO. induction k as [|k IH]; intros h S1 SZ H IX; cbn [h_make_loop].
  - exists h. replace N with (hsize h - 1) in * by lia. split; [reflexivity|].
    split; [lia|]. split; [exact H|]. split; [exact IX|reflexivity].
  - destruct (v_up_ok _ cmp PO (hsize h) (harr h) (hsize h - 1) (hsize h)) as (a1 & E & H'); [lia|lia| |].
    { split.
      - intros i Hi Ni. apply H. lia.
      - intros i Hi Ei. pose proof (parent_spec i ltac:(lia)). lia. }
    pose proof (h_up_sim cmp N (hsize h) h (hsize h - 1) ltac:(lia)) as U. rewrite E in U.
    destruct U as (h1 & -> & A1 & (Z1 & SI & _)).
    destruct (IH (mk_heap (harr h1) (S (hsize h1)) (hidx h1))) as (h' & E' & Z' & O' & I' & P');
      cbn [hsize harr]; try lia.
    { rewrite A1, Z1. replace (S (hsize h) - 1) with (hsize h) by lia. exact H'. }
    { exact (SI IX). }
    exists h'. split; [exact E'|]. split; [exact Z'|]. split; [exact O'|]. split; [exact I'|].
    cbn [harr] in P'. rewrite <- P', A1.
    eapply v_up_perm in E as [P1 _]; [exact P1|lia].
Qed.

Lemma h_make_ok cmp h : preorder cmp -> 2 <= hsize h ->
  (forall i j, i < hsize h -> j < hsize h -> harr h i = harr h j -> i = j) ->
  exists h', h_make cmp h = Some h' /\ hsize h' = hsize h + 1 /\
    Permutation (elems _ (harr h) (hsize h)) (elems _ (harr h') (hsize h)) /\
    heap_okp _ cmp (harr h') (hsize h) /\ idx_ok (hsize h) h'.
Proof.
  intros PO L D. unfold h_make. destruct (Nat.ltb_spec (hsize h) 2); [lia|].
  destruct (set_idx_ok (hsize h) h ltac:(lia) D) as (A & B & C).
  destruct (h_make_loop_ok cmp (hsize h) PO (hsize h - 1)
              (mk_heap (harr (h_set_idx (hsize h) h)) 2 (hidx (h_set_idx (hsize h) h))))
    as (h' & E & Z & O & I & P); cbn [hsize harr]; try lia.
  { intros i Hi. lia. }
  { exact A. }
  exists h'. split; [exact E|]. split; [exact Z|]. split.
  - cbn [harr] in P. rewrite B in P. exact P.
  - split; [exact O|exact I].
Qed.

(** C12, C13, C14: priority queues. *)
From Coq Require Import List Arith Bool ZArith Lia Permutation.
From Verif Require Import Heap_model Heap_spec Heap_proofs.
Import ListNotations.

(** C12: every permitted history of calls on an initially empty heap runs without failing
    assertion or out-of-bounds access; its results and final contents are those of
    an abstract priority queue, and the reported minimum is one. *)
Theorem C12_heap_history : forall cs cmp, preorder cmp -> permitted cmp [] cs ->
  exists h rs bag cmp', h_run h_empty cs = Some (h, rs) /\ history cmp [] cs rs cmp' bag /\
    Permutation (map (harr h) (seq 0 (hsize h))) bag /\
    (bag = [] -> h_min h = None) /\
    (bag <> [] -> exists m, h_min h = Some m /\ is_min cmp' m bag).
Proof. exact heap_history. Qed.

(** C12, the value heap of vec.c: one extraction, one insertion. *)
Theorem C12_vec_heap_extract : forall A cmp, @preorder A cmp -> forall a n, 0 < n -> heap_ok A cmp a n ->
  exists a', v_extract A cmp a n = Some (a', n - 1) /\ heap_ok A cmp a' (n - 1) /\
    a' (n - 1) = a 0 /\ Permutation (elems A a n) (a 0 :: elems A a' (n - 1)).
Proof. exact v_extract_ok. Qed.

Theorem C12_vec_heap_min : forall A cmp, @preorder A cmp -> forall a n, heap_ok A cmp a n ->
  forall i, i < n -> Z.le (cmp (a 0) (a i)) Z0.
Proof. exact heap_min. Qed.

Theorem C12_vec_heap_insert : forall A cmp, @preorder A cmp -> forall a n x, heap_ok A cmp a n ->
  exists a', v_insert A cmp a n x = Some (a', S n) /\ heap_ok A cmp a' (S n) /\
    Permutation (elems A a' (S n)) (x :: elems A a n).
Proof. exact v_insert_ok. Qed.

(** C13: after every permitted history each element's embedded index is its place if it is in the
    heap, and the 'not in heap' mark otherwise. *)
Theorem C13_heap_index_history : forall cs cmp, preorder cmp -> permitted cmp [] cs ->
  exists h rs bag cmp', h_run h_empty cs = Some (h, rs) /\ history cmp [] cs rs cmp' bag /\
    forall x, match hidx h x with
              | Some i => In x bag /\ i < hsize h /\ harr h i = x
              | None => ~ In x bag
              end.
Proof. exact heap_index_history. Qed.

(** C14 is false: after making a heap out of n >= 2 elements, the vector has n + 1 elements (the
    loop variable of heap.c 108 and vec.c 577 is the size itself).  What holds is
    that the first n places contain the same elements in heap order with the right indices. *)
Theorem C14_heap_make_partial : forall cmp h, preorder cmp -> 2 <= hsize h ->
  (forall i j, i < hsize h -> j < hsize h -> harr h i = harr h j -> i = j) ->
  exists h', h_make cmp h = Some h' /\ hsize h' = hsize h + 1 /\
    Permutation (elems _ (harr h) (hsize h)) (elems _ (harr h') (hsize h)) /\
    heap_ok _ cmp (harr h') (hsize h) /\ idx_ok (hsize h) h'.
Proof. exact h_make_ok. Qed.

Theorem C14_vec_heap_make_partial : forall A cmp, @preorder A cmp -> forall a n, 2 <= n ->
  exists a', v_make A cmp a n = Some (a', n + 1) /\ heap_ok A cmp a' n /\
    Permutation (elems A a n) (elems A a' n).
Proof. exact v_make_ok. Qed.

Definition cmp_nat (a b : nat) : Z := (Z.of_nat a - Z.of_nat b)%Z.

Lemma cmp_nat_po : preorder cmp_nat.
Proof. constructor; unfold cmp_nat; intros; lia. Qed.

Theorem C14_heap_make_refuted :
  ~ (forall cmp h, preorder cmp ->
     (forall i j, i < hsize h -> j < hsize h -> harr h i = harr h j -> i = j) ->
     exists h', h_make cmp h = Some h' /\ hsize h' = hsize h).
Proof.
  intros H. destruct (H cmp_nat (mk_heap (fun i => i) 2 (fun _ => None)) cmp_nat_po) as (h' & E & Z).
  - cbn. auto.
  - vm_compute in E. injection E as <-. discriminate Z.
Qed.

Theorem C14_vec_heap_make_refuted :
  ~ (forall A cmp, @preorder A cmp -> forall a n, exists a', v_make A cmp a n = Some (a', n)).
Proof.
  intros H. destruct (H nat cmp_nat cmp_nat_po (fun i => i) 2) as (a' & E).
  vm_compute in E. discriminate E.
Qed.

(** Concrete history with a priority change: 5, 3, 8 are inserted, then 3 becomes the largest one,
    5 is replaced by 1, 8 is removed, the minimum is extracted. *)
Definition cmp1 : elem -> elem -> Z := cmp_nat.
Definition rank2 (x : elem) : nat := if x =? 3 then 100 else x.
Definition cmp2 (a b : elem) : Z := cmp_nat (rank2 a) (rank2 b).

Definition example_calls : list ((elem -> elem -> Z) * call) :=
  [(cmp1, Insert 5); (cmp1, Insert 3); (cmp1, Insert 8); (cmp2, Update 3);
   (cmp2, Replace 5 (Some 1)); (cmp2, Remove 8); (cmp2, Extract); (cmp2, Insert 7)].

Example C12_C13_nontrivial :
  preorder cmp1 /\ permitted cmp1 [] example_calls /\
  match h_run h_empty example_calls with
  | Some (h, rs) =>
      rs = [None; None; None; None; Some 5; Some 8; Some 1; None] /\
      elems _ (harr h) (hsize h) = [7; 3] /\ h_min h = Some 7 /\
      hidx h 7 = Some 0 /\ hidx h 3 = Some 1 /\ hidx h 5 = None
  | None => False
  end.
Proof.
  split; [exact cmp_nat_po|]. split; [|vm_compute; auto 10].
  assert (P1 : preorder cmp1) by exact cmp_nat_po.
  assert (P2 : preorder cmp2).
  { constructor; unfold cmp2, cmp_nat; intros; lia. }
  assert (AG : forall bag c, agree_except c bag cmp1 cmp1) by (intros bag c a b; auto).
  assert (AG2 : forall bag c, agree_except c bag cmp2 cmp2) by (intros bag c a b; auto).
  assert (AG12 : forall bag, agree_except (Some 3) bag cmp1 cmp2).
  { intros bag a b _ _ A B. unfold cmp2, rank2.
    destruct (Nat.eqb_spec a 3); [subst; now elim A|]. destruct (Nat.eqb_spec b 3); [subst; now elim B|]. reflexivity. }
  unfold example_calls. cbn [permitted touched allowed].
  split; [exact P1|]. split; [intros []|]. split; [apply AG|].
  intros r bag S. inversion S; subst; clear S.
  split; [exact P1|]. split; [intros [|[]]; discriminate|]. split; [apply AG|].
  intros r bag S. inversion S; subst; clear S.
  split; [exact P1|]. split; [intros [|[|[]]]; discriminate|]. split; [apply AG|].
  intros r bag S. inversion S; subst; clear S.
  split; [exact P2|]. split; [right; left; reflexivity|]. split; [apply AG12|].
  intros r bag S. inversion S; subst; clear S.
  split; [exact P2|]. split; [right; intros [|[|[|[]]]]; discriminate|]. split; [apply AG2|].
  intros r bag S. inversion S; try discriminate; subst; clear S.
  { exfalso. match goal with H : ~ In 5 _ |- _ => apply H end. right; right; left; reflexivity. }
  match goal with H : Permutation _ (5 :: ?b) |- _ => rename b into b5; rename H into HP5 end.
  assert (PM : Permutation b5 [8; 3]).
  { apply Permutation_cons_inv with 5. rewrite <- HP5.
    symmetry. apply (Permutation_middle [8; 3] [] 5). }
  split; [exact P2|]. split.
  { right. apply (Permutation_in 8 (Permutation_sym PM)). now left. }
  split; [apply AG2|].
  intros r6 bag6 S6.
  assert (IN6 : forall x, In x bag6 -> x = 1 \/ x = 3 \/ x = 8).
  { intros x X. inversion S6; subst; clear S6.
    assert (Q : In x (1 :: b5)).
    { eapply Permutation_in; [symmetry; eassumption|]. now right. }
    destruct Q as [|Q]; [auto|]. apply (Permutation_in x PM) in Q.
    destruct Q as [|[|[]]]; auto. }
  split; [exact P2|]. split; [exact I|]. split; [apply AG2|].
  intros r7 bag7 S7.
  assert (IN7 : forall x, In x bag7 -> x = 1 \/ x = 3 \/ x = 8).
  { intros x X. apply IN6. inversion S7; subst; clear S7; [destruct X|].
    eapply Permutation_in; [symmetry; eassumption|]. now right. }
  split; [exact P2|]. split; [intros Q; apply IN7 in Q; lia|]. split; [apply AG2|].
  intros ? ? ?. exact I.
Qed.

Example C14_nontrivial :
  match h_make cmp_nat (mk_heap (fun i => 9 - i) 5 (fun _ => None)) with
  | Some h => hsize h = 6 /\ elems _ (harr h) 5 = [5; 6; 8; 9; 7]
  | None => False
  end.
Proof. vm_compute. auto. Qed.

Print Assumptions C12_heap_history.
Print Assumptions C12_vec_heap_extract.
Print Assumptions C12_vec_heap_min.
Print Assumptions C12_vec_heap_insert.
Print Assumptions C13_heap_index_history.
Print Assumptions C14_heap_make_partial.
Print Assumptions C14_vec_heap_make_partial.
Print Assumptions C14_heap_make_refuted.
Print Assumptions C14_vec_heap_make_refuted.

(** C21: the pool allocator. *)
From Coq Require Import ZArith Bool List Lia.
From Verif Require Import Pool_model Pool_spec Pool_proofs.
Import ListNotations.
Local Open Scope Z_scope.

(** Whatever was done with the pool before, an allocation is aligned, within a block of the pool, disjoint from everything
    handed out since the last clear, zeroed, and it does not change what was handed out before. *)
Theorem C21_calloc : forall sys m a live n s al m' a' p, reach m a live -> good_sys sys ->
  size_t n -> size_t s -> size_t al -> 0 < n -> pool_calloc sys m a n s al = Ok (m', a', p) ->
  allocated m' a' live al p (n * s) /\ pow2 al /\ kept m m' live.
Proof. exact reach_calloc_ok. Qed.
(** A history with a write, a clear, and an allocation reusing the memory: the byte written is 0 again. *)
Example C21_calloc_ex :
  match pool_calloc bump (fun _ => 7) pool_init 3 4 16 with
  | Ok (m1, a1, p1) =>
    let '(m2, a2) := pool_clear (store m1 (p1 + 5) 99) a1 in
    match pool_calloc bump m2 a2 5 4 8 with
    | Ok (m3, a3, p3) => (p1, length (free a2), p3, store m1 (p1 + 5) 99 (p3 + 13), m3 (p3 + 13), length (used a3))
    | _ => (0, 0%nat, 0, 0, 0, 0%nat) end
  | _ => (0, 0%nat, 0, 0, 0, 0%nat) end = (1052656, 1%nat, 1052648, 99, 0, 1%nat).
Proof. vm_compute. reflexivity. Qed.
Example C21_calloc_reach_ex :
  match pool_calloc bump (fun _ => 7) pool_init 3 4 16 with
  | Ok (m1, a1, p1) => let '(m2, a2) := pool_clear (store m1 (p1 + 5) 99) a1 in reach m2 a2 [] /\ good_sys bump
  | _ => False end.
Proof.
  assert (X : match pool_calloc bump (fun _ => 7) pool_init 3 4 16 with Ok _ => true | _ => false end = true)
    by (vm_compute; reflexivity).
  destruct (pool_calloc bump (fun _ => 7) pool_init 3 4 16) as [[[m1 a1] p1]|] eqn:E1; [|discriminate].
  destruct (pool_clear (store m1 (p1 + 5) 99) a1) as [m2 a2] eqn:E2. split; [|exact bump_good].
  eapply reach_clear with (live := [(p1, 12)]); [|exact E2]. apply reach_write.
  - change (reach m1 a1 (if 3 =? 0 then [] else [(p1, 3 * 4)])).
    eapply reach_calloc; [apply reach_init|exact bump_good| | | |exact E1]; unfold size_t; rewrite W_val; lia.
  - left. exists (p1, 12). split; [left; reflexivity|]. unfold within. cbn. lia.
Qed.

(** All ranges handed out since the last clear are disjoint and in blocks of the pool. *)
Theorem C21_live : forall m a live, reach m a live ->
  ForallOrdPairs disjoint live /\
  forall r, In r live -> exists b, In b (used a) /\ forall x, within r x -> within (area b) x.
Proof. exact reach_live. Qed.
Example C21_live_ex : exists m a, reach m a [(1052656, 12)].
Proof.
  assert (X : match pool_calloc bump (fun _ => 7) pool_init 3 4 16 with Ok (_, _, p) => p | _ => 0 end = 1052656)
    by (vm_compute; reflexivity).
  destruct (pool_calloc bump (fun _ => 7) pool_init 3 4 16) as [[[m1 a1] p1]|] eqn:E1; [|discriminate].
  exists m1, a1. subst p1. change (reach m1 a1 (if 3 =? 0 then [] else [(1052656, 3 * 4)])).
  eapply reach_calloc; [apply reach_init|exact bump_good| | | |exact E1]; unfold size_t; rewrite W_val; lia.
Qed.

(** The only way an allocation can fail is the system being out of memory. *)
Theorem C21_success : forall sys m a live n s al, reach m a live -> good_sys sys -> size_t n -> size_t s -> 0 < s ->
  pow2 al -> al <= 2048 -> 10 * (n * s) <= 2 ^ 63 ->
  (exists r, pool_calloc sys m a n s al = Ok r) \/ pool_calloc sys m a n s al = Err Panic.
Proof. exact reach_success. Qed.
(** An alignment larger than a block: "allocator is broken" *)
Example C21_success_ex : pool_calloc bump (fun _ => 0) pool_init 1 8 (2 ^ 22) = Err Die /\
  match pool_calloc bump (fun _ => 0) pool_init 2000 100 16 with
  | Ok (_, a, p) => (block_size a, p) | _ => (0, 0) end = (2 ^ 21, 2 ^ 21 + 4096 - 200000).
Proof. split; vm_compute; reflexivity. Qed.

(** Enlarging an array copies it and zeroes the rest. *)
Theorem C21_remalloc : forall sys m a live p ao an s m' a' q, reach m a live -> good_sys sys ->
  size_t ao -> size_t an -> size_t s ->
  In (p, ao * s) live -> ao < an -> alloc_remalloc sys m a p ao an s = Ok (m', a', q) ->
  moved m m' a' live p ao an s q.
Proof.
  intros sys m a live p ao an s m' a' q R GS A B C D E F.
  exact (proj2 (remalloc_ok sys m a live p ao an s m' a' q (reach_inv _ _ _ R) GS A B C D E F)).
Qed.
Theorem C21_recalloc : forall sys m a live p ao an s m' a' q, reach m a live -> good_sys sys ->
  size_t ao -> size_t an -> size_t s ->
  In (p, ao * s) live -> ao < an -> alloc_recalloc sys m a p ao an s = Ok (m', a', q) ->
  moved m m' a' live p ao an s q.
Proof.
  intros sys m a live p ao an s m' a' q R GS A B C D E F.
  exact (proj2 (recalloc_ok sys m a live p ao an s m' a' q (reach_inv _ _ _ R) GS A B C D E F)).
Qed.
Example C21_recalloc_ex :
  match pool_calloc bump (fun _ => 7) pool_init 3 4 4 with
  | Ok (m, a, p) =>
    match alloc_recalloc bump (store m (p + 11) 42) a p 3 5 4 with
    | Ok (m', _, q) => (p, q, map (fun i => m' (q + i)) [10; 11; 12; 19]) | _ => (0, 0, []) end
  | _ => (0, 0, []) end = (1052660, 1052640, [0; 42; 0; 0]).
Proof. vm_compute. reflexivity. Qed.

(** Objects allocated by CP_CALLOC and CP_MALLOC with a pool: the alignment is the largest power of two in the size, up to
    that of max_align_t. *)
Theorem C21_interface_alignment : forall s, size_t s ->
  size_align (Z.lor s MAX_ALIGN) = Z.gcd s MAX_ALIGN /\ pow2 (Z.gcd s MAX_ALIGN).
Proof. exact size_align_16. Qed.
Example C21_interface_alignment_ex : map (fun s => size_align (Z.lor s MAX_ALIGN)) [1; 12; 24; 48; 4096] = [1; 4; 8; 16; 16].
Proof. vm_compute. reflexivity. Qed.

(** pool.h 59-63 says: "If you don't know about the alignment, just pass 0 -- the alignment will be derived from size".
    The code asserts instead. *)
Theorem C21_align0_refuted : ~ (forall sys m a live n s, reach m a live -> good_sys sys -> size_t n -> size_t s ->
  0 < n -> 0 < s -> pool_calloc sys m a n s 0 <> Err Assert).
Proof.
  intro H. refine (H bump (fun _ => 0) pool_init [] 1 8 (reach_init _) bump_good _ _ _ _ _); try (unfold size_t; rewrite ?W_val; lia).
  vm_compute. reflexivity.
Qed.

(** CP_CLONE_ARR_ALLOC (alloc.h 59-66) passes size and count in the wrong order, so with a pool, the copy of an object of
    size 8 may not be aligned to 8. *)
Theorem C21_clone_refuted : ~ (forall sys m a live sz y n m' a' q, reach m a live -> good_sys sys -> size_t sz -> size_t n ->
  0 < n -> clone_arr_alloc sys m a sz y n = Ok (m', a', q) -> q mod Z.gcd sz MAX_ALIGN = 0).
Proof.
  intro H.
  assert (X : match pool_calloc bump (fun _ => 7) pool_init 3 1 1 with
    | Ok (m1, a1, p1) => match clone_arr_alloc bump m1 a1 8 100 1 with Ok (_, _, q) => q mod Z.gcd 8 MAX_ALIGN | _ => 0 end
    | _ => 0 end = 5) by (vm_compute; reflexivity).
  destruct (pool_calloc bump (fun _ => 7) pool_init 3 1 1) as [[[m1 a1] p1]|] eqn:E1; [|discriminate].
  destruct (clone_arr_alloc bump m1 a1 8 100 1) as [[[m2 a2] q]|] eqn:E2; [|discriminate].
  assert (R : reach m1 a1 (if 3 =? 0 then [] else [(p1, 3 * 1)])).
  { eapply reach_calloc; [apply reach_init|exact bump_good| | | |exact E1]; unfold size_t; rewrite W_val; lia. }
  assert (Q : q mod Z.gcd 8 MAX_ALIGN = 0).
  { eapply H; [exact R|exact bump_good| | | |exact E2]; unfold size_t; rewrite ?W_val; lia. }
  rewrite Q in X. discriminate.
Qed.

Print Assumptions C21_calloc.
Print Assumptions C21_live.
Print Assumptions C21_success.
Print Assumptions C21_remalloc.
Print Assumptions C21_recalloc.
Print Assumptions C21_interface_alignment.
Print Assumptions C21_align0_refuted.
Print Assumptions C21_clone_refuted.

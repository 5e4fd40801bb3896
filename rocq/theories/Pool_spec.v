(** Histories of a pool, and what its users may expect. *)
From Coq Require Import ZArith Bool List.
From Verif Require Import Pool_model.
Import ListNotations.
Local Open Scope Z_scope.

(** a range of addresses: start and length *)
Notation range := (Z * Z)%type (only parsing).
Definition within (r : range) (x : Z) : Prop := fst r <= x < fst r + snd r.
Definition disjoint (r s : range) : Prop := forall x, within r x -> within s x -> False.
(** the memory of a block, with its header, and what allocations are made from *)
Definition whole (b : block) : range := (heap b - SIZEOF_BLOCK, heap_size b + SIZEOF_BLOCK).
Definition area (b : block) : range := (heap b, heap_size b).
Definition owned (a : pool) : list block := used a ++ free a.

(** What calloc guarantees: a range of memory at a non-NULL address that nobody else has. *)
Definition good_sys (sys : list block -> Z -> option Z) : Prop :=
  forall bl n p, sys bl n = Some p -> 0 < p /\ p + n <= W /\ forall b, In b bl -> disjoint (p, n) (whole b).

Definition size_t (x : Z) : Prop := 0 <= x < W.
Definition pow2 (a : Z) : Prop := exists k, 0 <= k < 64 /\ a = 2 ^ k.

(** All histories of a pool: the memory, the pool, and the ranges handed out since the last clear (newest first).  Users
    write to what was handed out to them since the last clear, and to memory the pool does not own. *)
Inductive reach : mem -> pool -> list range -> Prop :=
| reach_init m : reach m pool_init []
| reach_calloc m a live sys n s al m' a' p : reach m a live -> good_sys sys -> size_t n -> size_t s -> size_t al ->
    pool_calloc sys m a n s al = Ok (m', a', p) ->
    reach m' a' (if n =? 0 then live else (p, n * s) :: live)
| reach_remalloc m a live sys p ao an s m' a' q : reach m a live -> good_sys sys -> size_t ao -> size_t an -> size_t s ->
    In (p, ao * s) live -> ao < an -> alloc_remalloc sys m a p ao an s = Ok (m', a', q) ->
    reach m' a' ((q, an * s) :: live)
| reach_recalloc m a live sys p ao an s m' a' q : reach m a live -> good_sys sys -> size_t ao -> size_t an -> size_t s ->
    In (p, ao * s) live -> ao < an -> alloc_recalloc sys m a p ao an s = Ok (m', a', q) ->
    reach m' a' ((q, an * s) :: live)
| reach_write m a live x v : reach m a live ->
    (exists r, In r live /\ within r x) \/ (forall b, In b (owned a) -> ~ within (whole b) x) ->
    reach (store m x v) a live
| reach_clear m a live m' a' : reach m a live -> pool_clear m a = (m', a') -> reach m' a' []
| reach_fini m a live : reach m a live -> reach m (pool_fini a) [].

(** What an allocation of [size] bytes with alignment [al] has to return, [live] being the ranges handed out before: the
    result is not NULL, aligned, in a block in use, and overlaps nothing handed out. *)
Record placed (a : pool) (live : list range) (al p size : Z) : Prop := {
  al_nonnull : 0 < p;
  al_aligned : p mod al = 0;
  al_within : exists b, In b (used a) /\ (forall x, within (p, size) x -> within (area b) x);
  al_disjoint : forall r, In r live -> disjoint (p, size) r }.
(** It is also zeroed. *)
Record allocated (m : mem) (a : pool) (live : list range) (al p size : Z) : Prop := {
  al_placed : placed a live al p size;
  al_zeroed : forall x, within (p, size) x -> m x = 0 }.
(** What was handed out before is not changed. *)
Definition kept (m m' : mem) (live : list range) : Prop := forall r x, In r live -> within r x -> m' x = m x.

(** What enlarging an array at [p] from [ao] to [an] objects of size [s] has to yield, [q] being the new address: a proper
    allocation, a copy of the old content followed by zeroes, everything handed out before is unchanged. *)
Record moved (m m' : mem) (a' : pool) (live : list range) (p ao an s q : Z) : Prop := {
  mv_placed : placed a' live (Z.gcd s MAX_ALIGN) q (an * s);
  mv_copied : forall i, 0 <= i < ao * s -> m' (q + i) = m (p + i);
  mv_zero : forall i, ao * s <= i < an * s -> m' (q + i) = 0;
  mv_kept : kept m m' live }.

(** A calloc for examples: new memory above everything in use *)
Definition bump (bl : list block) (n : Z) : option Z :=
  let p := fold_right Z.max 4096 (map (fun b => heap b + heap_size b) bl) in
  if p + n <=? W then Some p else None.

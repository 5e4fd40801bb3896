(** Model of the pool allocator: src/hob3lbase/pool.c, include/hob3lbase/pool.h, the alignment functions of
    include/hob3lbase/base-def.h 48-112, cp_mem_is0 of src/hob3lbase/arith.c 33-41, and CP_CLONE_ARR_ALLOC of
    include/hob3lbase/alloc.h 59-66.

    Addresses and size_t are integers modulo 2^64, memory is a total function from addresses to bytes.  The header of a
    block (next, heap_size, brk; 24 bytes just before heap) is kept in a record instead of in memory; the singly linked
    lists of blocks are Coq lists, head first (each block has one [next] field and is in one list only).  The C library's
    calloc is a parameter [sys]: given the blocks in use and a size, it returns an address or None. *)
From Coq Require Import ZArith Bool List.
Import ListNotations.
Local Open Scope Z_scope.

(** size_t has 64 bits *)
Definition W : Z := 2 ^ 64.
Definition wrap (x : Z) : Z := x mod W.

Inductive error := Assert | Die | Panic | NoFuel.
Inductive res (A : Type) := Ok (a : A) | Err (e : error).
Arguments Ok {A} a.
Arguments Err {A} e.
Notation "'do' x <- e ;; k" := (match e with Ok x => k | Err er => Err er end) (at level 200, x pattern, right associativity).
Notation "'assert' c ;; k" := (if c then k else Err Assert) (at level 200, right associativity).

(** base-def.h 48-51 [cp_size_align] *)
Definition size_align (x : Z) : Z := Z.land x (wrap (- x)).
(** base-def.h 92-97 [cp_align_down] *)
Definition align_down (n a : Z) : res Z :=
  assert (negb (a =? 0)) ;;
  assert (Z.land a (wrap (a - 1)) =? 0) ;;
  Ok (Z.land n (wrap (- a))).
(** base-def.h 99-102 [cp_align_down_diff] *)
Definition align_down_diff (n a : Z) : res Z := do d <- align_down n a ;; Ok (wrap (n - d)).
(** base-def.h 104-107 [cp_align_up] *)
Definition align_up (n a : Z) : res Z := align_down (wrap (n + a - 1)) a.

(** Memory *)
Notation mem := (Z -> Z).
(** memset(p, 0, n), or the effect of calloc *)
Definition zero (m : mem) (p n : Z) : mem := fun x => if (p <=? x) && (x <? p + n) then 0 else m x.
(** one byte written by a user *)
Definition store (m : mem) (p v : Z) : mem := fun x => if x =? p then v else m x.
(** memcpy(q, p, n) *)
Definition copy (m : mem) (q p n : Z) : mem := fun x => if (q <=? x) && (x <? q + n) then m (p + (x - q)) else m x.
(** arith.c 33-41 [cp_mem_is0]: the loop, counting bytes *)
Fixpoint mem_is0_ (m : mem) (i : Z) (n : nat) : bool :=
  match n with
  | O => true
  | S n => if m i =? 0 then mem_is0_ m (i + 1) n else false
  end.
Definition mem_is0 (m : mem) (p n : Z) : bool := mem_is0_ m p (Z.to_nat n).

(** pool.c 19-43 [struct cp_pool_block]; [heap] is the address of heap[0] *)
Record block := mk_block { heap : Z; heap_size : Z; brk : Z }.
(** sizeof(cp_pool_block_t), for a 64 bit machine *)
Definition SIZEOF_BLOCK : Z := 24.
(** pool.c 13, 17 *)
Definition BLOCK_ALIGN : Z := 4096.
Definition BLOCK_SIZE_DEFAULT : Z := 1 * 1024 * 1024.
(** pool_tam.h 16-21 [cp_pool_t] *)
Record pool := mk_pool { block_size : Z; free : list block; used : list block }.
(** pool.h 86-93 [cp_pool_init] *)
Definition pool_init : pool := mk_pool 0 [] [].

(** pool.c 65-73 [block_clear] *)
Definition block_clear (m : mem) (b : block) : mem * block :=
  let heap_end := heap b + heap_size b in
  if negb (brk b =? heap_end) then
    (zero m (heap b) (heap_size b), mk_block (heap b) (heap_size b) (heap b + heap_size b))
  else (m, b).

(** pool.c 85-96 [cp_pool_clear]: pops from used, clears, pushes to free *)
Fixpoint clear_ (m : mem) (us fr : list block) : mem * list block :=
  match us with
  | [] => (m, fr)
  | b :: us => let '(m, b) := block_clear m b in clear_ m us (b :: fr)
  end.
Definition pool_clear (m : mem) (a : pool) : mem * pool :=
  let '(m, fr) := clear_ m (used a) (free a) in (m, mk_pool (block_size a) fr []).

(** pool.c 113-118 [cp_pool_fini], with 98-108 [block_list_fini]: all blocks are given back *)
Definition pool_fini (a : pool) : pool := mk_pool (block_size a) [] [].

(** pool.c 120-149 [block_next]; the result is the block (not in any list) and the pool.  [sys bl n]: calloc(n, 1) while
    the pool owns the blocks [bl]; NULL makes cp_calloc_ panic (alloc.h 137-145). *)
Definition block_next (sys : list block -> Z -> option Z) (m : mem) (a : pool) (bsz : Z) : res (mem * pool * block) :=
  let a := match free a with
    | b :: _ => if heap_size b <? wrap (bsz - SIZEOF_BLOCK) then mk_pool (block_size a) [] (used a) else a
    | [] => a
    end in
  match free a with
  | b :: fr => Ok (m, mk_pool (block_size a) fr (used a), b)
  | [] =>
    match sys (used a) bsz with
    | None => Err Panic
    | Some p =>
      let m := zero m p bsz in
      assert (SIZEOF_BLOCK <? bsz) ;;
      let hs := wrap (bsz - SIZEOF_BLOCK) in
      Ok (m, a, mk_block (p + SIZEOF_BLOCK) hs (p + SIZEOF_BLOCK + hs))
    end
  end.

(** pool.c 151-182 [try_block_calloc]; the block is the head of the used list, None if this is NULL.  CP_MONUS
    (def.h 58-67) asserts. *)
Definition try_block_calloc (m : mem) (a : option block) (nmemb size1 align : Z) : res (option (block * Z)) :=
  assert (0 <? size1) ;;
  assert (0 <? nmemb) ;;
  match a with
  | None => Ok None
  | Some a =>
    if heap_size a / size1 <? nmemb then Ok None else
    let size := wrap (nmemb * size1) in
    assert (heap a <=? brk a) ;;
    if brk a - heap a <? size then Ok None else
    let new_brk := brk a - size in
    do align_diff <- align_down_diff new_brk align ;;
    assert (heap a <=? new_brk) ;;
    if new_brk - heap a <? align_diff then Ok None else
    let p := new_brk - align_diff in
    assert (mem_is0 m p size) ;;
    Ok (Some (mk_block (heap a) (heap_size a) p, p))
  end.

(** pool.c 228-235: the loop increasing the block size *)
Fixpoint grow (fuel : nat) (bsz nmemb size1 : Z) : res Z :=
  match fuel with
  | O => Err NoFuel
  | S fuel =>
    if bsz / size1 <? wrap (10 * nmemb) then
      let n := wrap (bsz * 2) in
      if n <? bsz then Ok bsz else grow fuel n nmemb size1
    else Ok bsz
  end.

(** pool.c 218-246: the loop of three tries *)
Fixpoint tries (n : nat) (sys : list block -> Z -> option Z) (m : mem) (a : pool) (nmemb size1 align : Z)
  : res (mem * pool * Z) :=
  match n with
  | O => Err Die
  | S n =>
    do r <- try_block_calloc m (hd_error (used a)) nmemb size1 align ;;
    match r with
    | Some (b, p) => Ok (m, mk_pool (block_size a) (free a) (b :: tl (used a)), p)
    | None =>
      let bsz := if block_size a =? 0 then BLOCK_SIZE_DEFAULT else block_size a in
      do bsz <- grow 66 bsz nmemb size1 ;;
      assert (0 <? bsz) ;;
      do bsz <- align_up bsz BLOCK_ALIGN ;;
      let a := mk_pool bsz (free a) (used a) in
      do (m, a, b) <- block_next sys m a bsz ;;
      tries n sys m (mk_pool (block_size a) (free a) (b :: used a)) nmemb size1 align
    end
  end.

(** pool.c 203-247 [cp_pool_calloc]; NULL is 0 *)
Definition pool_calloc (sys : list block -> Z -> option Z) (m : mem) (a : pool) (nmemb size1 align : Z)
  : res (mem * pool * Z) :=
  assert (negb (size1 =? 0)) ;;
  if nmemb =? 0 then Ok (m, a, 0) else tries 3 sys m a nmemb size1 align.

(** alignof(max_align_t) *)
Definition MAX_ALIGN : Z := 16.
(** pool.c 249-256 [pool_calloc], 258-261 [pool_malloc]: through the cp_alloc_t interface *)
Definition alloc_calloc sys (m : mem) (pl : pool) (a b : Z) : res (mem * pool * Z) :=
  pool_calloc sys m pl a b (size_align (Z.lor b MAX_ALIGN)).
(** pool.c 269-285 [pool_remalloc] *)
Definition alloc_remalloc sys (m : mem) (pl : pool) (p ao an b : Z) : res (mem * pool * Z) :=
  if an <=? ao then Ok (m, pl, p) else
  do (m, pl, q) <- alloc_calloc sys m pl an b ;;
  if q =? 0 then Ok (m, pl, q) else
  let osz := wrap (ao * b) in
  let m := if 0 <? osz then copy m q p osz else m in
  Ok (m, pl, q).
(** pool.c 287-305 [pool_recalloc] *)
Definition alloc_recalloc sys (m : mem) (pl : pool) (p ao an b : Z) : res (mem * pool * Z) :=
  if an <=? ao then Ok (m, pl, p) else
  do (m, pl, q) <- alloc_calloc sys m pl an b ;;
  if q =? 0 then Ok (m, pl, q) else
  let osz := wrap (ao * b) in
  let m := if 0 <? osz then copy m q p osz else m in
  let nsz := wrap (an * b) in
  let m := zero m (q + osz) (wrap (nsz - osz)) in
  Ok (m, pl, q).
(** pool.h 23-31 [CP_POOL_NEW_ARR_PLUS] with def.h 335 [cp_alignof_minmax]: [n] objects of [sz + xp] bytes for a type of
    alignment [al] *)
Definition pool_new_arr_plus sys (m : mem) (pl : pool) (sz al xp n : Z) : res (mem * pool * Z) :=
  pool_calloc sys m pl n (wrap (sz + xp)) (size_align (Z.lor MAX_ALIGN (Z.land al (wrap (- xp))))).
(** alloc.h 59-66 [CP_CLONE_ARR_ALLOC] for a pool: a copy of [n] objects of size [sz] at [y].  The macro calls
    cp_malloc(M, sizeof(X), N), in this order. *)
Definition clone_arr_alloc sys (m : mem) (pl : pool) (sz y n : Z) : res (mem * pool * Z) :=
  do (m, pl, q) <- alloc_calloc sys m pl sz n ;;
  if q =? 0 then Err Panic else
  Ok (copy m q y (wrap (n * sz)), pl, q).

(** Model of growable vectors: src/hob3lbase/vec.c, include/hob3lbase/vec.h.

    A vector is the allocated array and the number of elements in use.  Elements are opaque: one
    list cell stands for esz bytes, and the byte-wise memmove/memset/memcpy are on whole
    elements.  Array accesses are checked: reading or writing outside of the allocated array is
    the outcome [Oob].  Not modelled: the wrap-around of size_t sums (the number of elements is
    a natural number; exceeding the maximum size is the outcome [Oom], cp_panic, only where the
    code checks it), and the addresses of arrays except whether a source pointer is
    into the destination vector. *)
From Coq Require Import List Arith Bool ZArith.
Import ListNotations.

Inductive vres (A : Type) : Type := VOk (a : A) | VFail | Voom | Voob.
Arguments VOk {A}. Arguments VFail {A}. Arguments Voom {A}. Arguments Voob {A}.
Definition vbind {A B} (x : vres A) (f : A -> vres B) : vres B :=
  match x with VOk a => f a | VFail => VFail | Voom => Voom | Voob => Voob end.
Notation "'let^' x ':=' e 'in' f" := (vbind e (fun x => f)) (at level 61, x pattern, right associativity).
(** assert() *)
Definition vassert (b : bool) : vres unit := if b then VOk tt else VFail.

Section Vec.
Context {A : Type}.
(** the all zero element, what realloc gives for new elements, and cp_v_max_size_ (vec.h 1308-1311) *)
Variables (zero : A) (junk : nat -> A) (max : nat).

(** vec_tam.h 12-20 CP_VEC_T: data[alloc], size *)
Record vec := mk_vec { vmem : list A; vsize : nat }.
Definition valloc (v : vec) : nat := length (vmem v).

(** memory primitives *)
Definition mread (m : list A) (pos n : nat) : vres (list A) :=
  if pos + n <=? length m then VOk (firstn n (skipn pos m)) else Voob.
Definition mwrite (m : list A) (pos : nat) (xs : list A) : vres (list A) :=
  if pos + length xs <=? length m then VOk (firstn pos m ++ xs ++ skipn (pos + length xs) m) else Voob.
Definition mmove (m : list A) (dst src n : nat) : vres (list A) :=
  let^ xs := mread m src n in mwrite m dst xs.

(** vec.c 28-34: the doubling loop, [fuel] iterations at most *)
Fixpoint grow_loop (fuel alloc0 alloc new_size : nat) : vres nat :=
  match fuel with
  | O => VFail
  | S f =>
      if alloc <? new_size then
        if max <? alloc * 2 then Voom else
        let^ _ := vassert (alloc0 <? alloc * 2) in
        grow_loop f alloc0 (alloc * 2) new_size
      else VOk alloc
  end.

(** vec.c 14-38 [v_grow]; vec.h 1303-1306 [cp_v_min_alloc_] is 4 *)
Definition grow (v : vec) (new_size : nat) : vres vec :=
  if new_size <=? valloc v then VOk v else
  let alloc := if valloc v <? 4 then 4 else valloc v in
  let^ n := grow_loop (S new_size) (valloc v) alloc new_size in
  VOk (mk_vec (vmem v ++ map junk (seq (valloc v) (n - valloc v))) (vsize v)).

(** vec.c 79-90 [cp_v_clear_] *)
Definition clear (v : vec) (pre : nat) : vres vec :=
  let^ v := grow v pre in VOk (mk_vec (vmem v) 0).

(** vec.c 97-111 [cp_v_ensure_size_] *)
Definition ensure_size (v : vec) (n : nat) : vres vec :=
  if vsize v <? n then
    let^ v := grow v n in
    let^ m := mwrite (vmem v) (vsize v) (repeat zero (n - vsize v)) in
    VOk (mk_vec m n)
  else VOk v.

(** vec.c 120-134 [cp_v_set_size_] *)
Definition set_size (v : vec) (n : nat) : vres vec :=
  if vsize v <? n then
    let^ v := grow v n in
    let^ m := mwrite (vmem v) (vsize v) (repeat zero (n - vsize v)) in
    VOk (mk_vec m n)
  else VOk (mk_vec (vmem v) n).

(** vec.c 140-174 [cp_v_inflate_] *)
Definition inflate (v : vec) (pos n : nat) : vres vec :=
  let^ _ := vassert (pos <=? vsize v) in
  if n =? 0 then VOk v else
  let new_size := vsize v + n in
  let^ v := grow v new_size in
  let tail := vsize v - pos in
  let^ m := mmove (vmem v) (pos + n) pos tail in
  let^ m := mwrite m pos (repeat zero n) in
  VOk (mk_vec m new_size).

(** A source array: a position in the destination vector itself (0..size, where 'size' also
    stands for any array that is directly behind the vector's elements), or an array
    somewhere else. *)
Inductive source := Inside (pos : nat) | Outside (xs : list A).

(** vec.c 181-222 [cp_v_copy_arr_] *)
Definition copy_arr (v : vec) (dst_pos : nat) (data : source) (n : nat) : vres vec :=
  let^ _ := vassert (dst_pos <=? vsize v) in
  if n =? 0 then VOk v else
  let end_pos := dst_pos + n in
  let old_size := vsize v in
  let^ v' := (if old_size <? end_pos then
               let^ v' := grow v end_pos in VOk (mk_vec (vmem v') end_pos)
             else VOk v) in
  match data with
  | Inside pos =>
      let^ _ := (if old_size <? end_pos then vassert (pos + n <=? old_size) else VOk tt) in
      let^ m := mmove (vmem v') dst_pos pos n in
      VOk (mk_vec m (vsize v'))
  | Outside xs =>
      let^ ys := mread xs 0 n in
      let^ m := mwrite (vmem v') dst_pos ys in
      VOk (mk_vec m (vsize v'))
  end.

(** vec.c 239-268 [cp_v_copy_], source vector is the destination vector *)
Definition copy_self (v : vec) (dst_pos src_pos n : nat) : vres vec :=
  let^ _ := vassert (src_pos <=? vsize v) in
  let n := if vsize v - src_pos <? n then vsize v - src_pos else n in
  copy_arr v dst_pos (Inside src_pos) n.

(** the same for a different source vector *)
Definition copy_from (v : vec) (dst_pos : nat) (src : vec) (src_pos n : nat) : vres vec :=
  let^ _ := vassert (src_pos <=? vsize src) in
  let n := if vsize src - src_pos <? n then vsize src - src_pos else n in
  copy_arr v dst_pos (Outside (skipn src_pos (vmem src))) n.

(** vec.c 274-336 [cp_v_insert_arr_]; the returned pointer is not modelled.  [dbg] is false iff
    compiled with NDEBUG; only the assertions of the branch for overlapping data are
    controlled by it.  Without them, [size1] wraps around if src_pos > dst_pos: this is not
    modelled but is a failure, too. *)
Definition insert_arr (dbg : bool) (v : vec) (dst_pos : nat) (data : source) (n : nat) : vres vec :=
  if n =? 0 then VOk v else
  match data with
  | Inside src_pos =>
      let^ _ := vassert (src_pos + n <=? vsize v) in
      let src_end := src_pos + n in
      let dst_end := dst_pos + n in
      let^ v := inflate v dst_pos n in
      if src_end <=? dst_pos then copy_self v dst_pos src_pos n
      else if dst_end <=? src_pos then copy_self v dst_pos (src_pos + n) n
      else
        let^ _ := vassert (if dbg then src_pos <? dst_pos else src_pos <=? dst_pos) in
        let size1 := dst_pos - src_pos in
        let^ _ := vassert (negb dbg || (size1 <? n)) in
        let^ v := copy_self v dst_pos src_pos size1 in
        let^ _ := vassert (negb dbg || (dst_end <? src_end)) in
        let size2 := n - size1 in
        let^ _ := vassert (negb dbg || (dst_end + size2 =? src_end + n)) in
        copy_self v (dst_pos + size1) dst_end size2
  | Outside xs =>
      let^ v := inflate v dst_pos n in
      copy_arr v dst_pos (Outside xs) n
  end.

(** vec.c 341-364 [cp_v_remove_] *)
Definition remove (v : vec) (pos n : nat) : vres vec :=
  let^ _ := vassert (pos <=? vsize v) in
  let n := if vsize v - pos <? n then vsize v - pos else n in
  let rest := vsize v - pos - n in
  let^ m := mmove (vmem v) pos (pos + n) rest in
  VOk (mk_vec m (vsize v - n)).

(** cp_memswap of two elements *)
Definition mswap (m : list A) (i j : nat) : vres (list A) :=
  let^ x := mread m i 1 in
  let^ y := mread m j 1 in
  let^ m := mwrite m i y in
  mwrite m j x.

(** vec.c 385-391: the loop, from [i], [k] iterations *)
Fixpoint reverse_loop (k : nat) (m : list A) (pos n i : nat) : vres (list A) :=
  match k with
  | O => VOk m
  | S k' =>
      let j := n - i - 1 in
      let^ m := mswap m (pos + i) (pos + j) in
      reverse_loop k' m pos n (S i)
  end.

(** vec.c 369-392 [cp_v_reverse_] *)
Definition reverse (v : vec) (pos n : nat) : vres vec :=
  let^ _ := vassert (pos <=? vsize v) in
  let n := if vsize v - pos <? n then vsize v - pos else n in
  let^ m := reverse_loop (n / 2) (vmem v) pos n 0 in
  VOk (mk_vec m (vsize v)).

(** vec.c 396-409 [cp_v_extract_]: the element, and the vector *)
Definition extract (v : vec) (pos : nat) : vres (list A * vec) :=
  let^ _ := vassert (pos <? vsize v) in
  let^ x := mread (vmem v) pos 1 in
  let^ v := remove v pos 1 in
  VOk (x, v).

(** vec.c 448-476 [cp_bsearch]: [c i] is the result of comparing the key with element [i];
    None is CP_SIZE_MAX *)
Fixpoint bsearch_loop (fuel : nat) (c : nat -> Z) (a b : nat) : vres (option nat) :=
  match fuel with
  | O => VFail
  | S f =>
      if a <? b then
        let idx := a + (b - a) / 2 in
        if (c idx <? 0)%Z then bsearch_loop f c a idx
        else if (0 <? c idx)%Z then bsearch_loop f c (idx + 1) b
        else VOk (Some idx)
      else VOk None
  end.
Definition bsearch (cmp : A -> Z) (m : list A) : vres (option nat) :=
  bsearch_loop (S (length m)) (fun i => cmp (nth i m zero)) 0 (length m).

End Vec.
Arguments vec : clear implicits. Arguments source : clear implicits.

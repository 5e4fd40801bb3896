(** Model of the two binary heaps: src/hob3lbase/heap.c (elements that know their index) and the
    heap functions of src/hob3lbase/vec.c 478-601 (plain values).

    A vector is a map from index to element plus its size; storage allocation (cp_v_push growing
    the vector) is not modelled.  The comparison function returns an integer, as in C, and sees only
    the elements. *)
From Coq Require Import List Arith Bool ZArith.
Import ListNotations.

(** heap.c 12, 13; vec.c 482, 483 *)
Definition parent (pos : nat) : nat := (pos - 1) / 2.
Definition child0 (pos : nat) : nat := pos * 2 + 1.

Section Vec.
Variable A : Type.

Definition arr := nat -> A.

Definition aset (a : arr) (i : nat) (v : A) : arr := fun j => if Nat.eqb j i then v else a j.

(** cp_memswap(p, q, esz) on two elements of the vector (include/hob3ldef/def.h 167-175) *)
Definition aswap (a : arr) (p q : nat) : arr := aset (aset a p (a q)) q (a p).

Variable cmp : A -> A -> Z.

(** vec.c 485-505 [cp_v_heap_up_]; [None]: out of fuel *)
Fixpoint v_up (fuel : nat) (a : arr) (pos : nat) : option arr :=
  if Nat.eqb pos 0 then Some a else
  match fuel with
  | O => None
  | S f =>
      let p := parent pos in
      if Z.leb (cmp (a p) (a pos)) 0 then Some a
      else v_up f (aswap a p pos) p
  end.

(** vec.c 507-548 [cp_v_heap_down_]; [None]: out of fuel *)
Fixpoint v_down (fuel : nat) (a : arr) (size pos : nat) : option arr :=
  let c0 := child0 pos in
  if size <=? c0 then Some a else
  match fuel with
  | O => None
  | S f =>
      let c := if (c0 + 1 <? size) && Z.ltb (cmp (a (c0 + 1)) (a c0)) 0 then c0 + 1 else c0 in
      if Z.leb (cmp (a pos) (a c)) 0 then Some a
      else v_down f (aswap a c pos) size c
  end.

(** vec.c 553-562 [cp_v_heap_update_]; [None]: failing assertion (or fuel) *)
Definition v_update (a : arr) (size pos : nat) : option arr :=
  if negb (pos <? size) then None else
  match v_up size a pos with
  | None => None
  | Some a' => v_down size a' size pos
  end.

(** vec.c 574-579: the loop of [cp_v_heap_make_]; [sz] = current vec->size, [n] = iterations left.
    Returns the array and the value of vec->size after the loop. *)
Fixpoint v_make_loop (n sz : nat) (a : arr) : option (arr * nat) :=
  match n with
  | O => Some (a, sz)
  | S n' =>
      match v_up sz a (sz - 1) with
      | None => None
      | Some a' => v_make_loop n' (S sz) a'
      end
  end.

(** vec.c 567-580 [cp_v_heap_make_]: the loop variable is vec->size itself *)
Definition v_make (a : arr) (size : nat) : option (arr * nat) :=
  if size <? 2 then Some (a, size) else v_make_loop (size - 1) 2 a.

(** vec.c 587-600 [cp_v_heap_extract_]: the element extracted is at the new vec->size *)
Definition v_extract (a : arr) (size : nat) : option (arr * nat) :=
  if size =? 0 then None else
  let size' := size - 1 in
  if 0 <? size' then
    match v_update (aswap a 0 size') size' 0 with
    | None => None
    | Some a' => Some (a', size')
    end
  else Some (a, size').

(** vec.c 1272-1278 [cp_v_heap_insert_alloc]: push, then update at the last position *)
Definition v_insert (a : arr) (size : nat) (x : A) : option (arr * nat) :=
  match v_update (aset a size x) (S size) size with
  | None => None
  | Some a' => Some (a', S size)
  end.

End Vec.

(** Elements of the heap of heap.c: identity of the structure that embeds the index *)
Definition elem := nat.

(** heap.h: the heap vector and the embedded index of each element ([None] = CP_HEAP_NO_IDX) *)
Record heap := mk_heap { harr : nat -> elem; hsize : nat; hidx : elem -> option nat }.

Definition iset (f : elem -> option nat) (x : elem) (v : option nat) : elem -> option nat :=
  fun y => if Nat.eqb y x then v else f y.

(** heap.c 15-23 [cp_heap_swap_] *)
Definition h_swap (h : heap) (p q : nat) : heap :=
  let a := aswap _ (harr h) p q in
  mk_heap a (hsize h) (iset (iset (hidx h) (a q) (Some q)) (a p) (Some p)).

Section Heap.
Variable cmp : elem -> elem -> Z.

(** heap.c 25-44 [cp_heap_up_] *)
Fixpoint h_up (fuel : nat) (h : heap) (pos : nat) : option heap :=
  if Nat.eqb pos 0 then Some h else
  match fuel with
  | O => None
  | S f =>
      let p := parent pos in
      if Z.leb (cmp (harr h p) (harr h pos)) 0 then Some h
      else h_up f (h_swap h p pos) p
  end.

(** heap.c 46-86 [cp_heap_down_] *)
Fixpoint h_down (fuel : nat) (h : heap) (pos : nat) : option heap :=
  let c0 := child0 pos in
  if hsize h <=? c0 then Some h else
  match fuel with
  | O => None
  | S f =>
      let c := if (c0 + 1 <? hsize h) && Z.ltb (cmp (harr h (c0 + 1)) (harr h c0)) 0
               then c0 + 1 else c0 in
      if Z.leb (cmp (harr h pos) (harr h c)) 0 then Some h
      else h_down f (h_swap h c pos) c
  end.

(** heap.c 117-125 [cp_heap_update] *)
Definition h_update (h : heap) (idx : nat) : option heap :=
  if negb (idx <? hsize h) then None else
  match h_up (hsize h) h idx with
  | None => None
  | Some h' => h_down (hsize h') h' idx
  end.

(** heap.c 97-99: set initial indices *)
Fixpoint h_set_idx (n : nat) (h : heap) : heap :=
  match n with
  | O => h
  | S n' => let h' := h_set_idx n' h in
            mk_heap (harr h') (hsize h') (iset (hidx h') (harr h' n') (Some n'))
  end.

(** heap.c 108-110; [n] iterations left; vec->size is the loop variable *)
Fixpoint h_make_loop (n : nat) (h : heap) : option heap :=
  match n with
  | O => Some h
  | S n' =>
      match h_up (hsize h) h (hsize h - 1) with
      | None => None
      | Some h' => h_make_loop n' (mk_heap (harr h') (S (hsize h')) (hidx h'))
      end
  end.

(** heap.c 91-111 [cp_heap_make_] *)
Definition h_make (h : heap) : option heap :=
  let h1 := h_set_idx (hsize h) h in
  if hsize h <? 2 then Some h1
  else h_make_loop (hsize h - 1) (mk_heap (harr h1) 2 (hidx h1)).

(** heap.c 133-152 [cp_heap_remove]: returns the element; [None]: failing assertion *)
Definition h_remove (h : heap) (idx : nat) : option (heap * elem) :=
  if negb (idx <? hsize h) then None else
  let q := hsize h - 1 in
  let h1 := mk_heap (harr h) q (hidx h) in
  match (if Nat.eqb q idx then Some h1 else h_update (h_swap h1 idx q) idx) with
  | None => None
  | Some h2 =>
      let x := harr h2 q in
      Some (mk_heap (harr h2) (hsize h2) (iset (hidx h2) x None), x)
  end.

(** heap.c 228-238 [cp_heap_insert] *)
Definition h_insert (h : heap) (x : elem) : option heap :=
  h_update (mk_heap (aset _ (harr h) (hsize h) x) (S (hsize h)) (iset (hidx h) x (Some (hsize h))))
           (hsize h).

(** heap.c 174-205 [cp_heap_replace]; [idx]: [None] = CP_HEAP_NO_IDX; [x]: [None] = NULL;
    result: [None] = failing assertion or NULL dereference *)
Definition h_replace (h : heap) (idx : option nat) (x : option elem) : option (heap * option elem) :=
  match idx with
  | None =>
      match x with
      | None => None
      | Some x => match h_insert h x with None => None | Some h' => Some (h', None) end
      end
  | Some idx =>
      if negb (idx <? hsize h) then None else
      match x with
      | None => match h_remove h idx with None => None | Some (h', r) => Some (h', Some r) end
      | Some x =>
          let r := harr h idx in
          if Nat.eqb r x then
            match h_update h idx with None => None | Some h' => Some (h', None) end
          else if negb (match hidx h r with Some i => Nat.eqb i idx | None => false end) then None
          else
            match h_update (mk_heap (aset _ (harr h) idx x) (hsize h)
                              (iset (iset (hidx h) x (Some idx)) r None)) idx with
            | None => None
            | Some h' =>
                match hidx h' r with
                | None => Some (h', Some r)
                | Some _ => None
                end
            end
      end
  end.

(** heap.c 211-220 [cp_heap_extract] *)
Definition h_extract (h : heap) : option (heap * option elem) :=
  if hsize h =? 0 then Some (h, None) else
  match h_remove h 0 with None => None | Some (h', x) => Some (h', Some x) end.

(** heap.c 244-252 [cp_heap_min] *)
Definition h_min (h : heap) : option elem :=
  if hsize h =? 0 then None else Some (harr h 0).

End Heap.

(** Histories.  Each call is done with the comparison function that is valid at this time; elements
    are passed by identity, and their embedded index is used to find them
    ([cp_heap_remove(heap, cmp, user, *x)] etc.). *)
Inductive call :=
  | Insert (x : elem)
  | Remove (x : elem)
  | Replace (x : elem) (y : option elem)
  | Update (x : elem)
  | Extract.

(** Empty heap; no element is in it *)
Definition h_empty : heap := mk_heap (fun _ => 0) 0 (fun _ => None).

(** One call; [None]: failing assertion or out-of-bounds access *)
Definition h_call (cmp : elem -> elem -> Z) (h : heap) (c : call) : option (heap * option elem) :=
  match c with
  | Insert x => match h_insert cmp h x with None => None | Some h' => Some (h', None) end
  | Remove x =>
      match hidx h x with
      | None => None
      | Some i => match h_remove cmp h i with None => None | Some (h', r) => Some (h', Some r) end
      end
  | Replace x y => h_replace cmp h (hidx h x) y
  | Update x =>
      match hidx h x with
      | None => None
      | Some i => match h_update cmp h i with None => None | Some h' => Some (h', None) end
      end
  | Extract => h_extract cmp h
  end.

Fixpoint h_run (h : heap) (cs : list ((elem -> elem -> Z) * call)) : option (heap * list (option elem)) :=
  match cs with
  | [] => Some (h, [])
  | (cmp, c) :: cs' =>
      match h_call cmp h c with
      | None => None
      | Some (h1, r) =>
          match h_run h1 cs' with
          | None => None
          | Some (h2, rs) => Some (h2, r :: rs)
          end
      end
  end.

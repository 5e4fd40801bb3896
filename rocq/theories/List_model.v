(** Model of the ring lists: src/hob3lbase/list.c, include/hob3lbase/list.h.

    Nodes are natural numbers, the heap maps each node to its next and its prev pointer.  NULL
    is not modelled: a node is a node.  Assignments are made in the order of the code, because nodes may be the same. *)
From Coq Require Import Arith Bool List.
Import ListNotations.

Definition node := nat.
(** list_tam.h: the two pointers of each node *)
Record heap := mk_heap { next : node -> node; prev : node -> node }.
Definition upd (f : node -> node) (x v : node) : node -> node := fun y => if y =? x then v else f y.
Definition set_next (h : heap) (x v : node) : heap := mk_heap (upd (next h) x v) (prev h).
Definition set_prev (h : heap) (x v : node) : heap := mk_heap (next h) (upd (prev h) x v).

(** list.c 19-24 [cp_list_init] *)
Definition init (h : heap) (x : node) : heap :=
  let h := set_next h x x in
  set_prev h x x.

(** list.c 41-51 [cp_list_chain] *)
Definition chain (h : heap) (p n : node) : heap :=
  let pn := next h p in
  let np := prev h n in
  let h := set_prev h n p in
  let h := set_next h p n in
  let h := set_prev h pn np in
  set_next h np pn.

(** list.c 56-59 [cp_list_remove] *)
Definition remove (h : heap) (q : node) : heap := chain h q q.

(** list.c 68-74 [cp_list_is_member] *)
Definition is_member (h : heap) (n : node) : bool := negb (n =? next h n).

(** list.h 95-116 [cp_list_each], 117-134 [cp_list_each_rev]: the nodes visited, if the loop body does not change the
    list; None if the loop does not end within [fuel] iterations *)
Fixpoint each_from (fuel : nat) (step : node -> node) (n i : node) : option (list node) :=
  match fuel with
  | O => None
  | S fuel => if i =? n then Some [] else option_map (cons i) (each_from fuel step n (step i))
  end.
Definition each (fuel : nat) (h : heap) (n : node) : option (list node) := each_from fuel (next h) n (next h n).
Definition each_rev (fuel : nat) (h : heap) (n : node) : option (list node) := each_from fuel (prev h) n (prev h n).

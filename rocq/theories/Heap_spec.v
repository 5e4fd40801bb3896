(** Specification of a priority queue with changing priorities, without arrays and indices. *)
From Coq Require Import List Arith Bool ZArith Permutation.
From Verif Require Import Heap_model.
Import ListNotations.

(** A comparison function as a total preorder *)
Record preorder {A} (cmp : A -> A -> Z) : Prop := mk_preorder {
  po_anti : forall a b, (cmp a b < 0 <-> cmp b a > 0)%Z;
  po_trans : forall a b c, (cmp a b <= 0 -> cmp b c <= 0 -> cmp a c <= 0)%Z
}.

(** [x] is a minimum of [l] *)
Definition is_min {A} (cmp : A -> A -> Z) (x : A) (l : list A) : Prop :=
  In x l /\ forall y, In y l -> (cmp x y <= 0)%Z.

(** The element a call is about, if any *)
Definition touched (c : call) : option elem :=
  match c with
  | Insert x | Remove x | Replace x _ | Update x => Some x
  | Extract => None
  end.

(** Both orders agree on what is in the queue, except about one element *)
Definition agree_except (x : option elem) (bag : list elem) (c d : elem -> elem -> Z) : Prop :=
  forall a b, In a bag -> In b bag -> Some a <> x -> Some b <> x -> c a b = d a b.

(** Abstract step: contents before, current order, call, result, contents after *)
Inductive step (cmp : elem -> elem -> Z) : list elem -> call -> option elem -> list elem -> Prop :=
  | step_insert bag x : step cmp bag (Insert x) None (x :: bag)
  | step_remove bag bag' x : Permutation bag (x :: bag') -> step cmp bag (Remove x) (Some x) bag'
  | step_replace_absent bag x y : ~ In x bag -> step cmp bag (Replace x (Some y)) None (y :: bag)
  | step_replace_same bag x : In x bag -> step cmp bag (Replace x (Some x)) None bag
  | step_replace bag bag' x y : x <> y -> Permutation bag (x :: bag') ->
      step cmp bag (Replace x (Some y)) (Some x) (y :: bag')
  | step_replace_null bag bag' x : Permutation bag (x :: bag') ->
      step cmp bag (Replace x None) (Some x) bag'
  | step_update bag x : step cmp bag (Update x) None bag
  | step_extract_empty : step cmp [] Extract None []
  | step_extract bag bag' x : is_min cmp x bag -> Permutation bag (x :: bag') ->
      step cmp bag Extract (Some x) bag'.

(** What the caller has to respect *)
Definition allowed (bag : list elem) (c : call) : Prop :=
  match c with
  | Insert x => ~ In x bag
  | Remove x => In x bag
  | Replace x None => In x bag
  | Replace x (Some y) => x = y \/ ~ In y bag
  | Update x => In x bag
  | Extract => True
  end.

(** A history of calls, the results given, and the order and contents at the end.  The order
    may change between calls. *)
Inductive history : (elem -> elem -> Z) -> list elem ->
    list ((elem -> elem -> Z) * call) -> list (option elem) ->
    (elem -> elem -> Z) -> list elem -> Prop :=
  | hist_nil cmp bag : history cmp bag [] [] cmp bag
  | hist_cons cmp cmp' cmp'' bag bag' bag'' c r cs rs :
      step cmp' bag c r bag' -> history cmp' bag' cs rs cmp'' bag'' ->
      history cmp bag ((cmp', c) :: cs) (r :: rs) cmp'' bag''.

(** Permitted histories: the order changes only for the element the next call is about.
    This depends on the contents, which depend on what was extracted;
    thus it is a predicate on all abstract executions. *)
Fixpoint permitted (cmp : elem -> elem -> Z) (bag : list elem)
    (cs : list ((elem -> elem -> Z) * call)) : Prop :=
  match cs with
  | [] => True
  | (cmp', c) :: cs' =>
      preorder cmp' /\ allowed bag c /\ agree_except (touched c) bag cmp cmp' /\
      forall r bag', step cmp' bag c r bag' -> permitted cmp' bag' cs'
  end.

(** First [n] elements of an array *)
Definition elems A (a : nat -> A) (n : nat) : list A := map a (seq 0 n).

(** Binary heap: element [i] has its parent at place [(i - 1) / 2], which is not larger *)
Definition heap_ok A (cmp : A -> A -> Z) (a : nat -> A) (n : nat) : Prop :=
  forall i, 0 < i < n -> Z.le (cmp (a ((i - 1) / 2)) (a i)) Z0.

(** The index stored in the first [n] elements is their place *)
Definition idx_ok (n : nat) (h : heap) := forall i, i < n -> hidx h (harr h i) = Some i.

(** What it means that a heap contains a tree. *)
From Coq Require Import List Bool Arith.
From Verif Require Import Dict_model Dict_spec Ptr_model.
Import ListNotations.

(** The pointer to the root of a tree. *)
Definition root_of (t : tree) : option nat :=
  match t with E => None | N _ x _ _ => Some x end.

(** Below a node [p] (or NULL) the heap contains the tree: each node has the
    pointers to its children, to its parent, and its stat. *)
Fixpoint rep (h : heap) (p : option nat) (t : tree) : Prop :=
  match t with
  | E => True
  | N l x s r =>
    h x = mkNode p (root_of l) (root_of r) s /\ rep h (Some x) l /\ rep h (Some x) r
  end.

(** The heap contains a whole tree, without sharing. *)
Definition has_tree (h : heap) (t : tree) : Prop :=
  rep h None t /\ NoDup (inorder t).

(** Only the given nodes may differ. *)
Definition changes (h h' : heap) (l : list nat) : Prop :=
  forall y, ~ In y l -> h' y = h y.

(** Exchange of two names. *)
Definition exchange (a b x : nat) : nat := if x =? a then b else if x =? b then a else x.
Fixpoint rename (f : nat -> nat) (t : tree) : tree :=
  match t with E => E | N l x s r => N (rename f l) (f x) s (rename f r) end.

(** The heap with a tree written to it, and the tree read from a pointer. *)
Fixpoint store (p : option nat) (t : tree) (h : heap) : heap :=
  match t with
  | E => h
  | N l x s r => store (Some x) l (store (Some x) r (hput h x (mkNode p (root_of l) (root_of r) s)))
  end.
Fixpoint load (fuel : nat) (h : heap) (p : option nat) : tree :=
  match fuel, p with
  | S n, Some x => N (load n h (e0 (h x))) x (st (h x)) (load n h (e1 (h x)))
  | _, _ => E
  end.
Definition blank : heap := fun _ => mkNode None None None 0.

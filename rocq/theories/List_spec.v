(** What rings are. *)
From Coq Require Import Arith Bool List.
From Verif Require Import List_model.
Import ListNotations.

(** following [f] from [a] visits [l] and then gets to [b] *)
Fixpoint path (f : node -> node) (a : node) (l : list node) (b : node) : Prop :=
  match l with
  | [] => f a = b
  | x :: l => f a = x /\ path f x l b
  end.

(** [l] are all the nodes of a ring, in order, starting anywhere *)
Definition ring (h : heap) (l : list node) : Prop :=
  match l with
  | [] => True
  | a :: r => NoDup l /\ path (next h) a r a /\ path (prev h) a (rev r) a
  end.

(** every node is the successor of its predecessor and vice versa *)
Definition consistent (h : heap) : Prop :=
  forall x, next h (prev h x) = x /\ prev h (next h x) = x.

Definition same (h g : heap) : Prop := forall x, next h x = next g x /\ prev h x = prev g x.

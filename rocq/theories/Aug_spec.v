(** What the sums in the trees of a bundle are supposed to be. *)
From Coq Require Import List Bool Arith NArith ZArith Permutation.
From Verif Require Import Dict_model Dict_spec Aug_model.
Import ListNotations.

(** The exclusive or of the masks of a list of edges. *)
Definition xor_of (M : nat -> BinNums.N) (l : list nat) : BinNums.N :=
  fold_right N.lxor 0%N (map M l).

(** Each node holds the exclusive or over all nodes of its subtree. *)
Fixpoint summed (M : nat -> BinNums.N) (S : sums) (t : tree) : Prop :=
  match t with
  | E => True
  | N l x _ r =>
    S x = xor_of M (inorder l ++ x :: inorder r) /\ summed M S l /\ summed M S r
  end.

(** All edges of a list of trees. *)
Definition edges (ts : list tree) : list nat := flat_map inorder ts.

(** The executions of the second phase, as far as bundles are concerned: a
    list of trees (the bundles and the trees held in local variables), and the
    sums.  Any tree can be changed at any time. *)
Definition bstate := (list tree * sums)%type.

Inductive bstep (M : nat -> BinNums.N) : bstate -> bstate -> Prop :=
| b_order : forall ts ts' S, Permutation ts ts' -> bstep M (ts, S) (ts', S)
| b_new : forall ts S, bstep M (ts, S) (E :: ts, S)
| b_drop : forall ts S, bstep M (E :: ts, S) (ts, S)
| b_init : forall ts S e, (* op-sweep.c:1210 *)
    ~ In e (edges ts) -> bstep M (ts, S) (ts, put S e (M e))
| b_insert : forall ts t cmp e S t' S', (* the first node of a tree must be initialised *)
    ~ In e (edges (t :: ts)) -> (t = E -> S e = M e) ->
    edge_insert M cmp e t S = Some (t', S') -> bstep M (t :: ts, S) (t' :: ts, S')
| b_remove : forall ts t e S t' S',
    edge_remove M e t S = Some (t', S') -> bstep M (t :: ts, S) (t' :: ts, S')
| b_split : forall ts t cmp back S l r S',
    split_a M cmp back t S = Some (l, r, S') -> bstep M (t :: ts, S) (l :: r :: ts, S')
| b_join : forall ts l r S t S',
    join2_a M l r S = Some (t, S') -> bstep M (l :: r :: ts, S) (t :: ts, S')
| b_swap : forall ts t a b S t' S',
    edge_swap M a b t S = Some (t', S') -> bstep M (t :: ts, S) (t' :: ts, S').

Inductive brun (M : nat -> BinNums.N) : bstate -> bstate -> Prop :=
| r_refl : forall s, brun M s s
| r_step : forall s1 s2 s3, brun M s1 s2 -> bstep M s2 s3 -> brun M s1 s3.

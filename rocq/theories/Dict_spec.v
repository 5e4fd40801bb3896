(** What the dictionary operations are supposed to do, without reference to
    how they do it. *)
From Coq Require Import List Bool Arith ZArith.
From Verif Require Import Dict_model.
Import ListNotations.

(** The sequence of nodes, in order. *)
Fixpoint inorder (t : tree) : list nat :=
  match t with E => [] | N l x _ r => inorder l ++ x :: inorder r end.

(** The red-black invariant, with the colour of the root, the black height
    and the stored word: [stat] = 2 * height + colour, where the height counts
    black nodes from (and including) the node down to the leaves. *)
Inductive rb : bool -> nat -> tree -> Prop :=
| rb_E : rb false 0 E
| rb_R : forall h l x r, rb false h l -> rb false h r -> rb true h (N l x (2 * h + 1) r)
| rb_B : forall h c1 c2 l x r, rb c1 h l -> rb c2 h r -> rb false (S h) (N l x (2 * h + 2) r).

Definition balanced (t : tree) : Prop := exists c h, rb c h t.

(** Length of the longest path and number of nodes. *)
Fixpoint depth (t : tree) : nat :=
  match t with E => 0 | N l _ _ r => S (Nat.max (depth l) (depth r)) end.
Definition count (t : tree) : nat := length (inorder t).

(** The position of a node: [z] is a position of node [x] in tree [t]. *)
Definition at_node (t : tree) (z : tree * list frame) (x : nat) : Prop :=
  plug (fst z) (snd z) = t /\ exists l s r, fst z = N l x s r.

(** The nodes before and after a position. *)
Fixpoint before (c : list frame) : list nat :=
  match c with
  | [] => []
  | f :: c' => before c' ++ (if fside f then inorder (fsib f) ++ [fid f] else [])
  end.
Fixpoint after (c : list frame) : list nat :=
  match c with
  | [] => []
  | f :: c' => (if fside f then [] else fid f :: inorder (fsib f)) ++ after c'
  end.

(** The tree is in order with respect to a comparison with a fixed key:
    [cmp n] is positive if the key is greater than n, zero if equal. *)
Definition in_order (cmp : nat -> Z) (l : list nat) : Prop :=
  forall l1 a l2 b l3, l = l1 ++ a :: l2 ++ b :: l3 ->
    (cmp a <= 0 -> cmp b <= 0)%Z /\ (cmp a < 0 -> cmp b < 0)%Z.

(** A dictionary with keys in Z, in ascending (weakly) order. *)
Definition cmp_key (key : nat -> Z) (k : Z) (n : nat) : Z := (k - key n)%Z.
Definition sorted (key : nat -> Z) (l : list nat) : Prop :=
  forall l1 a l2 b l3, l = l1 ++ a :: l2 ++ b :: l3 -> (key a <= key b)%Z.

(** First and last element of a sequence. *)
Definition first (l : list nat) : option nat := hd_error l.
Definition last_ (l : list nat) : option nat := hd_error (rev l).

(** A dictionary with correct cached extrema. *)
Definition cached_ok (d : cdict) : Prop :=
  c_min d = first (inorder (c_root d)) /\ c_max d = last_ (inorder (c_root d)).

(** Repeated steps from a node, at most [n]. *)
Fixpoint walk (n : nat) (z : option zip) (dir : bool) : list nat :=
  match n, z with
  | S n', Some z' => match zid (Some z') with Some x => x :: walk n' (step z' dir) dir | None => [] end
  | _, _ => []
  end.

(** The trees that can be made with the operations. *)
Inductive reach : tree -> Prop :=
| reach_E : reach E
| reach_insert : forall t node p i t', reach t ->
    (match p with None => True | Some z => plug (fst z) (snd z) = t end) ->
    insert_ref node p i t = Some t' -> reach t'
| reach_remove : forall t z t', reach t -> plug (fst z) (snd z) = t -> remove z = Some t' -> reach t'
| reach_join3 : forall l m r t, reach l -> reach r -> join3 l m r = Some t -> reach t
| reach_join2 : forall l r t, reach l -> reach r -> join2 l r = Some t -> reach t
| reach_split_l : forall cmp back n l r, reach n -> split cmp back n = Some (l, r) -> reach l
| reach_split_r : forall cmp back n l r, reach n -> split cmp back n = Some (l, r) -> reach r.

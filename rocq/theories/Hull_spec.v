(** Specification of convex hulls *)
From Coq Require Import ZArith List Permutation Sorting.Sorted.
Import ListNotations.
Local Open Scope Z_scope.
Notation point := (Z * Z)%type.
(** Sums of points with weights that are not negative: (sum of weights, sum of weighted coordinates) *)
Inductive weighted (l : list point) : Z -> Z -> Z -> Prop :=
  | wt_none : weighted l 0 0 0
  | wt_add p w W X Y : In p l -> 0 <= w -> weighted l W X Y -> weighted l (W + w) (X + w * fst p) (Y + w * snd p).
(** [q] is in the convex hull of [l]: the average with rational weights *)
Definition within (l : list point) (q : point) : Prop := exists W, 0 < W /\ weighted l W (W * fst q) (W * snd q).
(** Twice the area of the triangle a b c, positive if it is clockwise (y axis upwards) *)
Definition area2 (a b c : point) : Z := (fst c - fst a) * (snd b - snd a) - (fst b - fst a) * (snd c - snd a).
(** a strictly convex polygon in clockwise order: every three points, in order, make a clockwise triangle *)
Definition convex (h : list point) : Prop :=
  forall i j k a b c, (i < j < k)%nat -> nth_error h i = Some a -> nth_error h j = Some b -> nth_error h k = Some c -> 0 < area2 a b c.
(** [l'] is [l] sorted by [cmp] *)
Definition sorted_by (cmp : point -> point -> Z) (l l' : list point) : Prop := Permutation l l' /\ StronglySorted (fun a b => cmp a b <= 0) l'.
(** lower left *)
Definition lower (a b : point) : Prop := fst a < fst b \/ fst a = fst b /\ snd a <= snd b.
Definition is_first (l : list point) (f : point) : Prop := In f l /\ forall p, In p l -> lower f p.
Definition dist2 (a b : point) : Z := (fst a - fst b) ^ 2 + (snd a - snd b) ^ 2.
(** points on a line through the first point have the same distance from it, or squared distances that differ by at least [T] *)
Definition spread (T : Z) (l : list point) : Prop :=
  forall f a b, is_first l f -> In a l -> In b l -> area2 f a b = 0 -> dist2 f a = dist2 f b \/ T <= Z.abs (dist2 f a - dist2 f b).

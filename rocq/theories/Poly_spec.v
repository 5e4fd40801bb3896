(** Specification of the construction of paths: what the edges of closed paths are *)
From Coq Require Import ZArith List Bool Permutation.
From Verif Require Import Reduce_model Reduce_spec.
Import ListNotations.
Open Scope Z_scope.

(** The edges of a closed path: each point with the next one, the last one with the first one *)
Definition cyc_pairs {A} (l : list A) : list (A * A) := match l with [] => [] | a :: r => combine l (r ++ [a]) end.
(** An edge with a direction *)
Definition directed (e : edge) (b : bool) : vec2 * vec2 := if b then (rigt e, left e) else (left e, rigt e).
(** The coordinates of a path *)
Definition at_points (pts : list vec2) (i : nat) : vec2 := nth i pts (0, 0).
Definition coords (pts : list vec2) (p : list nat) : list vec2 := map (at_points pts) p.
(** At each point, an even number of edges end *)
Definition even_ends (E : nat -> edge) (ids : list nat) : Prop := forall x,
  Nat.Even (length (filter (fun e => same x (left (E e))) ids) + length (filter (fun e => same x (rigt (E e))) ids)).
(** The rest of the order of the result dictionary: at a point, right ends come from top to bottom *)
Definition rigt_order (E : nat -> edge) (res : list (nat * bool)) : Prop := forall a b c v w, res = a ++ (v, true) :: b ++ (w, true) :: c ->
  rigt (E v) = rigt (E w) -> height (mk_point (fst (left (E w))) (snd (left (E w))) 1) (E v) < 0.
(** How an edge of a path, from a to b, contributes to the winding number of p: clockwise is positive *)
Definition wind (p : point) (ab : vec2 * vec2) : Z :=
  let (a, b) := ab in
  if fst a <? fst b then (if beneath p (mk_edge a b 0) then -1 else 0)
  else if fst b <? fst a then (if beneath p (mk_edge b a 0) then 1 else 0) else 0.
Definition winding (p : point) (l : list (vec2 * vec2)) : Z := fold_right Z.add 0 (map (wind p) l).
(** The edges of all paths *)
Definition path_edges (pts : list vec2) (paths : list (list nat)) : list (vec2 * vec2) := flat_map (fun w => cyc_pairs (coords pts w)) paths.

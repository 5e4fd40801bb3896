(** Specification of snap rounding *)
From Coq Require Import ZArith QArith NArith List Bool.
From Verif Require Import Matq_model Matq_spec Reduce_model Reduce_spec Sweep_spec Snap_model.
Import ListNotations.
Local Open Scope Z_scope.

(** The hot pixels: the ends of the edges, and the crossings, rounded *)
Definition hot (E : nat -> edge) (X : nat -> xing) (ids xs : list nat) (p : Z * Z) : Prop :=
  (exists i, In i ids /\ (p = left (E i) \/ p = rigt (E i))) \/ (exists x, In x xs /\ p = xpix X x).
(** The edge goes through the pixel *)
Definition touches (e : edge) (p : Z * Z) : Prop :=
  exists x y, on_segment x y (left e) (rigt e) /\ in_cell x y (fst p) (snd p).
(** The order of pixels: left to right, and in a column upwards or downwards *)
Definition before (south : bool) (p q : Z * Z) : Prop :=
  fst p < fst q \/ (fst p = fst q /\ if south then snd q < snd p else snd p < snd q).
(** [path good lt a b l]: l is a sequence of good points from a to b, increasing in each step *)
Inductive path (good : Z * Z -> Prop) (lt : Z * Z -> Z * Z -> Prop) (a : Z * Z) : Z * Z -> list (Z * Z) -> Prop :=
| path_start : good a -> path good lt a a [a]
| path_step : forall b c l, path good lt a b l -> lt b c -> good c -> path good lt a c (l ++ [c]).
(** Each point with the next one *)
Definition links (l : list (Z * Z)) : list ((Z * Z) * (Z * Z)) := combine l (tl l).
(** The edges, each of them replaced by a polyline *)
Definition routed (E : nat -> edge) (route : nat -> list (Z * Z)) (ids : list nat) : list edge :=
  flat_map (fun i => map (edge_of (member (E i))) (links (route i))) ids.
(** A property of an edge that is one of its place *)
Definition of_place (f : edge -> bool) : Prop := forall a b m n, f (mk_edge a b m) = f (mk_edge a b n).
(** The point (x,y) is at most half a unit from the edge, in each coordinate *)
Definition near (e : edge) (x y : Q) : Prop :=
  exists u v, on_segment u v (left e) (rigt e)
    /\ (-(1 # 2) <= x - u /\ x - u <= 1 # 2 /\ -(1 # 2) <= y - v /\ y - v <= 1 # 2)%Q.
(** No two edges start at the same point, or end at the same point, in the same direction *)
Definition apart (a b : edge) : Prop :=
  ~ (left a = left b /\ cross3_z (rigt a) (left a) (rigt b) = 0) /\ ~ (rigt a = rigt b /\ cross3_z (left a) (rigt a) (left b) = 0).

(** Specification of the reduction pass: planar arrangements of edges, and which of them are on the boundary of the region
    that a boolean function of polygons describes *)
From Coq Require Import ZArith NArith List Bool.
From Verif Require Import Reduce_model.
Import ListNotations.
Open Scope Z_scope.

(** A point with rational coordinates: (x/d, y/d), d > 0 *)
Record point := mk_point { px : Z; py : Z; pd : Z }.
Definition lex_le (a b : Z * Z) : Prop := fst a < fst b \/ (fst a = fst b /\ snd a <= snd b).
Definition lex_lt (a b : Z * Z) : Prop := fst a < fst b \/ (fst a = fst b /\ snd a < snd b).
Definition scale (d : Z) (a : Z * Z) : Z * Z := (d * fst a, d * snd a).
Definition pt (p : point) : Z * Z := (px p, py p).
(** twice the area of the triangle (left, rigt, p), times pd p: positive if p is above the line through the edge (left of it, if
    it is vertical) *)
Definition height (p : point) (e : edge) : Z :=
  (fst (rigt e) - fst (left e)) * (py p - pd p * snd (left e))
  - (snd (rigt e) - snd (left e)) * (px p - pd p * fst (left e)).
(** on the closed edge, and in its interior *)
Definition on_edge (p : point) (e : edge) : Prop :=
  height p e = 0 /\ lex_le (scale (pd p) (left e)) (pt p) /\ lex_le (pt p) (scale (pd p) (rigt e)).
Definition inside_edge (p : point) (e : edge) : Prop :=
  height p e = 0 /\ lex_lt (scale (pd p) (left e)) (pt p) /\ lex_lt (pt p) (scale (pd p) (rigt e)).
Definition is_end (p : point) (e : edge) : Prop := pt p = scale (pd p) (left e) \/ pt p = scale (pd p) (rigt e).

(** A vertical line downwards from p meets the edge, not counting the right end of the edge *)
Definition beneath (p : point) (e : edge) : bool :=
  (pd p * fst (left e) <=? px p) && (px p <? pd p * fst (rigt e)) && (0 <? height p e).
Definition xor_all (l : list N) : N := fold_right N.lxor 0%N l.
(** The polygons in which p (just right of p, strictly speaking) is according to the even-odd rule *)
Definition inside (E : nat -> edge) (ids : list nat) (p : point) : N :=
  xor_all (map (fun e => member (E e)) (filter (fun e => beneath p (E e)) ids)).

(** Edges from left to right that meet at ends only *)
Definition planar (E : nat -> edge) (ids : list nat) : Prop :=
  NoDup ids /\ (forall e, In e ids -> lex_lt (left (E e)) (rigt (E e)))
  /\ (forall e f p, In e ids -> In f ids -> e <> f -> 0 < pd p -> on_edge p (E e) -> on_edge p (E f) -> is_end p (E e) /\ is_end p (E f)).
(** At each point, an even number of edges of each polygon end *)
Definition same (a b : Z * Z) : bool := (fst a =? fst b) && (snd a =? snd b).
Definition closed (E : nat -> edge) (ids : list nat) : Prop := forall x,
  xor_all (map (fun e => member (E e)) (filter (fun e => same x (left (E e))) ids))
  = xor_all (map (fun e => member (E e)) (filter (fun e => same x (rigt (E e))) ids)).
(** The order of the result dictionary: by point; at a point, right ends come first, then left ends from bottom to top *)
Definition end_of (E : nat -> edge) (v : nat * bool) : Z * Z := if snd v then rigt (E (fst v)) else left (E (fst v)).
Definition comes_before (E : nat -> edge) (v w : nat * bool) : Prop :=
  lex_lt (end_of E v) (end_of E w)
  \/ (end_of E v = end_of E w
      /\ (snd v = true
          \/ (snd v = false /\ snd w = false /\ 0 < height (mk_point (fst (rigt (E (fst w)))) (snd (rigt (E (fst w)))) 1) (E (fst v))))).
(** The result dictionary contains the ends of the edges in this order *)
Definition ends_of (E : nat -> edge) (ids : list nat) (res : list (nat * bool)) : Prop :=
  NoDup res /\ (forall e s, In (e, s) res <-> In e ids)
  /\ (forall a b c v w, res = a ++ v :: b ++ w :: c -> comes_before E v w).

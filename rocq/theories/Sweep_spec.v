(** Specification for the first phase of the sweep: what a set of edges covers *)
From Coq Require Import ZArith NArith List Bool.
From Verif Require Import Matq_spec Reduce_model Reduce_spec Sweep_model.
Import ListNotations.
Open Scope Z_scope.

Definition edge_list (d : sdata) : list edge :=
  flat_map (fun i => match edges d i with Some e => [e] | None => [] end) (seq 0 (count d)).
(** The polygons of which an odd number of edges in a list have the given property *)
Definition odd_members (f : edge -> bool) (l : list edge) : N := xor_all (map member (filter f l)).

(** p is on the edge, which has its left end, but not its right end *)
Definition lex_leb (a b : Z * Z) : bool := (fst a <? fst b) || ((fst a =? fst b) && (snd a <=? snd b)).
Definition lex_ltb (a b : Z * Z) : bool := (fst a <? fst b) || ((fst a =? fst b) && (snd a <? snd b)).
Definition on_half (p : point) (e : edge) : bool :=
  (height p e =? 0) && lex_leb (scale (pd p) (left e)) (pt p) && lex_ltb (pt p) (scale (pd p) (rigt e)).
(** x is one of the ends *)
Definition ends_at (x : Z * Z) (e : edge) : bool := xorb (same x (left e)) (same x (rigt e)).

(** Two lists of edges: the same polygons, at each (rational) point, have an odd number of edges through this point; an odd
    number of edges below this point (i.e., the point is inside according to the even-odd rule); an odd number of ends of edges at
    a point *)
Definition same_cover (a b : list edge) : Prop :=
  (forall p, 0 < pd p -> odd_members (on_half p) a = odd_members (on_half p) b)
  /\ (forall p, 0 < pd p -> odd_members (beneath p) a = odd_members (beneath p) b)
  /\ (forall x, odd_members (ends_at x) a = odd_members (ends_at x) b).

(** The state of the data between two events: each edge is to the right of the sweep line (both ends are on the agenda), on the
    sweep line (the right end is on the agenda), or finished (no end is).  [taken] is an edge whose left end has just been taken off
    the agenda. *)
Definition edge_state (d : sdata) (i : nat) (e : edge) : Prop :=
  (agenda d i LEFT = Some (left e) /\ agenda d i RIGT = Some (rigt e) /\ on_line d i = false)
  \/ (agenda d i LEFT = None /\ agenda d i RIGT = Some (rigt e) /\ on_line d i = true)
  \/ (agenda d i LEFT = None /\ agenda d i RIGT = None /\ on_line d i = false).
Definition int_edge (e : edge) : Prop := vec_int (left e) /\ vec_int (rigt e).
Definition coherent (taken : option nat) (d : sdata) : Prop := forall i,
  match edges d i with
  | None => agenda d i LEFT = None /\ agenda d i RIGT = None /\ on_line d i = false
  | Some e => (i < count d)%nat /\ lex_lt (left e) (rigt e) /\ int_edge e
    /\ (if match taken with Some j => Nat.eqb j i | None => false end
        then agenda d i LEFT = None /\ agenda d i RIGT = Some (rigt e) /\ on_line d i = false
        else edge_state d i e)
  end.

(** e starts on o, not at its right end, and goes in the same direction *)
Definition overlaps (e o : edge) : Prop :=
  cross3_z (left e) (rigt o) (left o) = 0 /\ cross3_z (rigt o) (left e) (rigt e) = 0
  /\ lex_le (left o) (left e) /\ lex_lt (left e) (rigt o).
(** v is an inner point of o *)
Definition splits (v : Z * Z) (o : edge) : Prop :=
  cross3_z v (rigt o) (left o) = 0 /\ lex_lt (left o) v /\ lex_lt v (rigt o).

(** A segment in any direction as an edge *)
Definition edge_of (m : N) (s : (Z * Z) * (Z * Z)) : edge :=
  if lex_ltb (fst s) (snd s) then mk_edge (fst s) (snd s) m else mk_edge (snd s) (fst s) m.
(** The edges of polygons: each point of a path with the next one, the last one with the first one *)
Definition next_pairs (l : list (Z * Z)) : list ((Z * Z) * (Z * Z)) := match l with [] => [] | a :: r => combine l (r ++ [a]) end.
Definition poly_edges (m : N) (paths : list (list (Z * Z))) : list edge := map (edge_of m) (flat_map next_pairs paths).
Definition polys_edges (l : list (N * list (list (Z * Z)))) : list edge := flat_map (fun x => poly_edges (fst x) (snd x)) l.
(** The edges as a numbered set, as in the specification of the reduction *)
Definition edge_at (d : sdata) (i : nat) : edge := match edges d i with Some e => e | None => mk_edge (0, 0) (0, 0) 0 end.
Definition live (d : sdata) : list nat := filter (fun i => match edges d i with Some _ => true | None => false end) (seq 0 (count d)).

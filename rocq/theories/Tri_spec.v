(** Specification of the triangulation: functions of directed lines that change their sign with the direction, and what a well
    formed ring of vertices is *)
From Coq Require Import ZArith List Bool.
From Verif Require Import Reduce_model Poly_model Tri_model.
Import ListNotations.
Open Scope Z_scope.

(** Examples are twice the signed area of the triangle of the line and the origin, and the contribution of a line to the winding
    number of a point *)
Definition odd_fun (c : vec2 -> vec2 -> Z) : Prop := forall a b, c a b = - c b a.
(** The sum of a function for the three sides of a triangle *)
Definition around (c : vec2 -> vec2 -> Z) (t : vec2 * vec2 * vec2) : Z :=
  let '(x, y, z) := t in c x y + c y z + c z x.
(** Twice the area of the triangle of the line a b and the origin; clockwise is positive *)
Definition area2 (a b : vec2) : Z := snd a * fst b - fst a * snd b.
(** The sum of a function along a chain of points *)
Fixpoint along (c : vec2 -> vec2 -> Z) (l : list vec2) : Z :=
  match l with a :: (b :: _) as r => c a b + along c r | _ => 0 end.

(** ** Rings of vertices *)
Notation vx := (nat * bool)%type.

(** entering and leaving end of an edge in a direction *)
Definition en (d : tdata) (b : bool) (e : nat) : vx := (e, xorb (tback d e) b).
Definition lv (d : tdata) (b : bool) (e : nat) : vx := (e, negb (xorb (tback d e) b)).
Definition ent (d : tdata) (b : bool) (e : nat) : vx := if dis d (en d b e) then lv d b e else en d b e.
Definition stp (d : tdata) (b : bool) (v : vx) : vx :=
  if Bool.eqb (snd v) (xorb (tback d (fst v)) b) && negb (dis d (lv d b (fst v))) then lv d b (fst v) else ent d b (edge_step d (fst v) b).

Record wf (d : tdata) (L : list nat) : Prop := {
  w_nd : NoDup L;
  w_in : forall e b, In e L -> In (edge_step d e b) L;
  w_inv : forall e b, In e L -> edge_step d (edge_step d e b) (negb b) = e;
  w_en : forall v, In (fst v) L -> dis d v = true -> dis d (other_end v) = false;
  w_val : forall v, In (fst v) L -> dis d v = true -> valid d v = true;
  w_xy : forall v i, In (fst v) L -> idx d v = Some i -> nth_error (tpts d) i = Some (xy d v);
  w_pts : NoDup (tpts d);
  w_ne : forall e, In e L -> left (geo d e) <> rigt (geo d e)
}.
Definition on (d : tdata) (L : list nat) (v : vx) : Prop := In (fst v) L /\ dis d v = false.

(** Consecutive vertices *)
Fixpoint pth (d : tdata) (b : bool) (l : list vx) : Prop :=
  match l with u :: (v :: _) as r => stp d b u = v /\ pth d b r | _ => True end.

(** ** Neighbours with the same coordinates are at the ends of two edges that follow each other *)
Definition EB (P : vx -> Prop) (d : tdata) (L : list nat) : Prop :=
  forall b u, on d L u -> P u -> P (stp d b u) -> stp d b u <> u -> valid d u = true -> valid d (stp d b u) = true -> xy d (stp d b u) = xy d u ->
  vertex_eq_buddy d u = Some (stp d b u).
Definition all (v : vx) : Prop := True.

(** The vertices from p in one direction: p, possibly a second one at the same place, then those that can be removed, and z *)
Record seg (P : vx -> Prop) (d : tdata) (L : list nat) (bk : bool) (p : vx) (M R : list vx) (z : vx) : Prop := {
  s_wf : wf d L;
  s_eb : EB P d L;
  s_on : Forall (on d L) (p :: M ++ R);
  s_nd : NoDup (p :: M ++ R);
  s_pth : pth d bk (p :: M ++ R);
  s_last : exists R1, R = R1 ++ [z];
  s_val : forall u, In u (p :: M ++ R) -> u <> z -> valid d u = true;
  s_z : (valid d z = false /\ z = lv d bk (fst z)) \/ (valid d z = true /\ xy d z = xy d p /\ stp d bk z = p /\ vertex_eq_buddy d z = Some p /\ M = []);
  s_m : (M = [] /\ p = en d bk (fst p)) \/ (exists p', M = [p'] /\ xy d p' = xy d p /\ p' = en d bk (fst p'))
}.

(** the points of a triangle *)
Definition tri_xy (pts : list vec2) (t : tri) : vec2 * vec2 * vec2 := (nth (p0 t) pts (0, 0), nth (p1 t) pts (0, 0), nth (p2 t) pts (0, 0)).
Definition tri_ok (pts : list vec2) (t : tri) : Prop :=
  (p0 t < length pts)%nat /\ (p1 t < length pts)%nat /\ (p2 t < length pts)%nat /\ 0 < cross3_z (nth (p0 t) pts (0, 0)) (nth (p1 t) pts (0, 0)) (nth (p2 t) pts (0, 0)).
Fixpoint tsum (c : vec2 -> vec2 -> Z) (pts : list vec2) (l : list tri) : Z := match l with [] => 0 | t :: l => around c (tri_xy pts t) + tsum c pts l end.

(** Specification of rotate_extrude *)
From Coq Require Import List Bool Arith QArith.
From Verif Require Import Mesh_spec Tower_model Tower_spec.
Import ListNotations.
Local Open Scope nat_scope.

Definition edge_dec (a b : nat * nat) : {a = b} + {a <> b}.
Proof. decide equality; apply Nat.eq_dec. Defined.
(** Each directed edge is used as often as its reverse *)
Definition balanced (f : list (list nat)) : Prop := forall e, count_occ edge_dec (all_edges f) e = count_occ edge_dec (all_edges f) (swap e).
(** No point is used twice, and each path is a polygon *)
Definition simple_paths (paths : list (list nat)) : Prop := NoDup (concat paths) /\ forall p, In p paths -> 3 <= length p.
Definition paths_ok (n : nat) (paths : list (list nat)) : Prop := forall i, In i (concat paths) -> i < n.

Local Open Scope Q_scope.
Definition cross (a b : Q * Q) : Q := fst a * snd b - snd a * fst b.
(** The radius of a point: points that are (almost) on the axis are put on the axis *)
Definition radius (zero : Q -> bool) (q : Q * Q) : Q := if zero (fst q) then 0 else fst q.
Definition flat_pt (zero : Q -> bool) (p : list (Q * Q)) (i : nat) : Q * Q := let q := nth i p (0, 0) in (radius zero q, snd q).
(** 6 times the integral of x over the area enclosed by the paths *)
Definition moment (zero : Q -> bool) (p : list (Q * Q)) (paths : list (list nat)) : Q :=
  qsum (fun e => (fst (flat_pt zero p (fst e)) + fst (flat_pt zero p (snd e))) * cross (flat_pt zero p (fst e)) (flat_pt zero p (snd e))) (all_edges paths).
(** The sum of the sines of the angles between successive entries of the table, from [a], [n] steps *)
Definition turning (cs : list (Q * Q)) (a n : nat) : Q := qsum (fun j => cross (nth j cs (0, 0)) (nth (S j) cs (0, 0))) (seq a n).
(** The sides of the axis where there are points *)
Definition on_right (zero : Q -> bool) (p : list (Q * Q)) : Prop := exists q, In q p /\ zero (fst q) = false /\ 0 <= fst q.
Definition on_left (zero : Q -> bool) (p : list (Q * Q)) : Prop := exists q, In q p /\ zero (fst q) = false /\ fst q < 0.

(** The surface is balanced and refers to existing points; if the paths are simple, then it is closed and made of polygons *)
Definition good (paths : list (list nat)) (r : list vec3 * list (list nat)) : Prop :=
  balanced (snd r) /\ (forall i, In i (concat (snd r)) -> (i < length (fst r))%nat) /\
  (simple_paths paths -> closed (snd r) /\ forall f, In f (snd r) -> (3 <= length f)%nat).

(** Specification of the bounding box *)
From Coq Require Import List Bool ZArith.
From Verif Require Import Bb_model Csg3_spec.
Import ListNotations.

Definition in_box (b : box) (p : point) : Prop := forall i, le (get (bmin b) i) (Fin (p i)) = true /\ le (Fin (p i)) (get (bmax b) i) = true.
(** [b] does not reach beyond [B] *)
Definition within (b B : box) : Prop := forall i, le (get (bmin B) i) (get (bmin b) i) = true /\ le (get (bmax b) i) (get (bmax B) i) = true.

(** The points of polyhedra and spheres *)
Section Sem.
Variables (poly : list point -> nat -> point -> Prop) (sphere : vec -> vec -> point -> Prop).
(** A solid has at least 4 points and 4 faces, and in each direction each of its points is between some of its corners;
    the bounds of a sphere are right *)
Record solids : Prop := {
  poly_size : forall pts n p, poly pts n p -> 4 <= length pts /\ 4 <= n;
  poly_between : forall pts n p, poly pts n p -> forall i, exists v w, In v pts /\ In w pts /\ (v i <= p i <= w i)%Z;
  sphere_between : forall lo hi p, sphere lo hi p -> in_box (mk_box lo hi) p
}.
Fixpoint sem (t : tree) (p : point) : Prop :=
  match t with
  | Poly pts n => poly pts n p
  | Sphere lo hi => sphere lo hi p
  | Add l => any (fun t => sem t p) l
  | Sub a s => any (fun t => sem t p) a /\ ~ any (fun t => sem t p) s
  | Cut l => l <> [] /\ every (fun a => any (fun t => sem t p) a) l
  | Xor l => odd (fun a => any (fun t => sem t p) a) l
  end.
(** The points of all parts, including what is subtracted or intersected *)
Fixpoint parts (t : tree) (p : point) : Prop :=
  match t with
  | Poly pts n => poly pts n p
  | Sphere lo hi => sphere lo hi p
  | Add l => any (fun t => parts t p) l
  | Sub a s => any (fun t => parts t p) a \/ any (fun t => parts t p) s
  | Cut l | Xor l => any (fun a => any (fun t => parts t p) a) l
  end.
End Sem.

Fixpoint no_sphere (t : tree) : Prop :=
  match t with
  | Poly _ _ => True
  | Sphere _ _ => False
  | Add l => every no_sphere l
  | Sub a s => every no_sphere a /\ every no_sphere s
  | Cut l | Xor l => every (fun a => every no_sphere a) l
  end.
(** Intersections have two operands or more (csg3.c 260) *)
Fixpoint cuts_ok (t : tree) : Prop :=
  match t with
  | Poly _ _ | Sphere _ _ => True
  | Add l => every cuts_ok l
  | Sub a s => every cuts_ok a /\ every cuts_ok s
  | Cut l => length l <> 1 /\ every (fun a => every cuts_ok a) l
  | Xor l => every (fun a => every cuts_ok a) l
  end.
(** The corners of the polyhedra that are not degenerate; all or only those that are not subtracted *)
Fixpoint corners (max : bool) (t : tree) : list point :=
  match t with
  | Poly pts n => if (length pts <? 4)%nat || (n <? 4)%nat then [] else pts
  | Sphere _ _ => []
  | Add l => flat_map (corners max) l
  | Sub a s => flat_map (corners max) a ++ (if max then flat_map (corners max) s else [])
  | Cut l | Xor l => flat_map (fun a => flat_map (corners max) a) l
  end.

(** Specification of the conversion of the SCAD tree: sets of points *)
From Coq Require Import List Bool.
From Verif Require Import Csg3_model.
Import ListNotations.

Definition any {A} (f : A -> Prop) := fix any (l : list A) : Prop := match l with [] => False | x :: l => f x \/ any l end.
Definition every {A} (f : A -> Prop) := fix every (l : list A) : Prop := match l with [] => True | x :: l => f x /\ every l end.
Definition odd {A} (f : A -> Prop) := fix odd (l : list A) : Prop := match l with [] => False | x :: l => (f x /\ ~ odd l) \/ (~ f x /\ odd l) end.

Section Spec.
Variables (mat X op P : Type).
(** The points of a solid; the point that a matrix maps to a point (matrices are invertible); what is made of the set of points of the
    children of linear_extrude etc. *)
Variables (inside : X -> P -> Prop) (pre : mat -> P -> P) (opsem : op -> (P -> Prop) -> P -> Prop).
Notation scad := (scad mat X op).
Notation csg := (csg mat X).

(** ** The points of a CSG tree *)
Fixpoint sem (c : csg) (p : P) : Prop :=
  match c with
  | Leaf _ _ x m => inside x (pre m p)
  | Sub _ _ a s => any (fun c => sem c p) a /\ ~ any (fun c => sem c p) s
  | Cut _ _ l => every (fun a => any (fun c => sem c p) a) l
  | Xor _ _ l => odd (fun a => any (fun c => sem c p) a) l
  end.
Definition sem_all (l : list csg) (p : P) : Prop := any (fun c => sem c p) l.

(** ** The points of a SCAD tree *)
(** Whether something is there, in a 3D ([dim]) or 2D context: an ignored node or one without shapes does not count as a child *)
Fixpoint counts (s : scad) (dim : bool) : bool :=
  match s with Node _ _ _ ign _ k =>
    negb ign &&
    match k with
    | Union _ _ _ l | Difference _ _ _ l | Intersection _ _ _ l | Color _ _ _ l => existsb (fun x => counts x dim) l
    | Xform _ _ _ (Useless _ _) _ => false
    | Xform _ _ _ _ l => existsb (fun x => counts x dim) l
    | Extrude _ _ _ _ _ l => dim && existsb (fun x => counts x false) l
    | Hull _ _ _ _ _ l => negb dim && existsb (fun x => counts x false) l
    | Projection _ _ _ _ _ l => negb dim && existsb (fun x => counts x true) l
    | Shape _ _ _ d _ _ => Bool.eqb d dim
    | Import _ _ _ _ _ _ => true
    end
  end.
(** The first child that counts, without all later ones *)
Definition first_minus (cnt : scad -> bool) (f : scad -> Prop) := fix go (l : list scad) : Prop :=
  match l with [] => False | x :: l => if cnt x then f x /\ ~ any f l else go l end.
Definition shape_set (s : shape X) (p : P) : Prop := match s with Solids _ xs => any (fun x => inside x p) xs | _ => False end.
Fixpoint means (s : scad) (dim : bool) (p : P) : Prop :=
  match s with Node _ _ _ ign _ k =>
    if ign then False else
    match k with
    | Union _ _ _ l | Color _ _ _ l => any (fun x => means x dim p) l
    | Difference _ _ _ l => first_minus (fun x => counts x dim) (fun x => means x dim p) l
    | Intersection _ _ _ l => any (fun x => counts x dim = true) l /\ every (fun x => counts x dim = true -> means x dim p) l
    | Xform _ _ _ (Nothing _) l => any (fun x => means x dim p) l
    | Xform _ _ _ (Use _ a) l => any (fun x => means x dim (pre a p)) l
    | Xform _ _ _ (Useless _ _) l => False
    | Extrude _ _ _ o _ l => if dim then opsem o (fun p => any (fun x => means x false p) l) p else False
    | Hull _ _ _ o _ l => if dim then False else opsem o (fun p => any (fun x => means x false p) l) p
    | Projection _ _ _ o _ l => if dim then False else opsem o (fun p => any (fun x => means x true p) l) p
    | Shape _ _ _ d _ s | Import _ _ _ d _ s => if Bool.eqb d dim then shape_set s p else False
    end
  end.

(** ** The trees for which the conversion is right *)
(** A child of an intersection that counts is not the empty set; hull and projection are not transformed in 2D ([u]: there is no
    transformation above in the same space) *)
Fixpoint fine (s : scad) (dim u : bool) : Prop :=
  match s with Node _ _ _ ign _ k =>
    if ign then True else
    match k with
    | Union _ _ _ l | Color _ _ _ l | Difference _ _ _ l => every (fun x => fine x dim u) l
    | Intersection _ _ _ l => every (fun x => fine x dim u) l /\ every (fun x => counts x dim = true -> exists p, means x dim p) l
    | Xform _ _ _ (Nothing _) l => every (fun x => fine x dim u) l
    | Xform _ _ _ (Use _ a) l => every (fun x => fine x dim false) l
    | Xform _ _ _ (Useless _ _) l => True
    | Extrude _ _ _ o _ l => if dim then every (fun x => fine x false true) l else True
    | Hull _ _ _ o _ l => if dim then True else u = true /\ every (fun x => fine x false true) l
    | Projection _ _ _ o _ l => if dim then True else u = true /\ every (fun x => fine x true true) l
    | Shape _ _ _ _ _ _ | Import _ _ _ _ _ _ => True
    end
  end.
(** No intersection has a single child that counts and then more children *)
Definition lone (cnt : scad -> bool) := fix go (l : list scad) : bool :=
  match l with
  | [] => false
  | x :: l => if cnt x then match l with [] => false | _ => forallb (fun x => negb (cnt x)) l end else go l
  end.
Fixpoint tidy (s : scad) (dim : bool) : Prop :=
  match s with Node _ _ _ ign _ k =>
    if ign then True else
    match k with
    | Union _ _ _ l | Color _ _ _ l | Difference _ _ _ l | Xform _ _ _ _ l => every (fun x => tidy x dim) l
    | Intersection _ _ _ l => every (fun x => tidy x dim) l /\ lone (fun x => counts x dim) l = false
    | Extrude _ _ _ o _ l | Hull _ _ _ o _ l => every (fun x => tidy x false) l
    | Projection _ _ _ o _ l => every (fun x => tidy x true) l
    | Shape _ _ _ _ _ _ | Import _ _ _ _ _ _ => True
    end
  end.

(** Trees without errors: shapes and operations are used in the right contexts (or that is not an error), and none is bad *)
Fixpoint clean (s : scad) (dim : bool) : Prop :=
  match s with Node _ _ _ ign _ k =>
    if ign then True else
    match k with
    | Union _ _ _ l | Color _ _ _ l | Difference _ _ _ l | Intersection _ _ _ l => every (fun x => clean x dim) l
    | Xform _ _ _ (Useless _ err) _ => err = false
    | Xform _ _ _ _ l => every (fun x => clean x dim) l
    | Extrude _ _ _ _ out l => if dim then every (fun x => clean x false) l else out = false
    | Hull _ _ _ _ out l => if dim then out = false else every (fun x => clean x false) l
    | Projection _ _ _ _ out l => if dim then out = false else every (fun x => clean x true) l
    | Shape _ _ _ d out s | Import _ _ _ d out s => if Bool.eqb d dim then s <> Bad _ else out = false
    end
  end.

(** ** The root modifier: the marked nodes, with the matrices of the transformations above *)
Variable mul : mat -> mat -> mat.
Fixpoint find_root (m : mat) (s : scad) : list (scad * mat) :=
  match s with Node _ _ _ ign root k =>
    if root then [(s, m)] else if ign then [] else
    match k with
    | Xform _ _ _ (Use _ a) l => flat_map (fun x => find_root (mul m a) x) l
    | Xform _ _ _ (Useless _ _) l => []
    | Union _ _ _ l | Difference _ _ _ l | Intersection _ _ _ l | Color _ _ _ l | Xform _ _ _ (Nothing _) l | Extrude _ _ _ _ _ l | Hull _ _ _ _ _ l
    | Projection _ _ _ _ _ l => flat_map (fun x => find_root m x) l
    | Shape _ _ _ _ _ _ | Import _ _ _ _ _ _ => []
    end
  end.

(** ** What is assumed about the parts that are not modelled *)
Variables (unit : mat) (build : op -> mat -> list csg -> built mat X).
Record laws : Prop := {
  pre_unit : forall p, pre unit p = p;
  pre_mul : forall m a p, pre (mul m a) p = pre a (pre m p);
  pre_onto : forall m q, exists p, pre m p = q;
  opsem_ext : forall o A B, (forall p, A p <-> B p) -> forall p, opsem o A p <-> opsem o B p;
  build_sem : forall o m rc l, build o m rc = Push _ _ l -> forall p, sem_all l p <-> opsem o (sem_all rc) (pre m p);
  build_nil : forall o m l, build o m [] = Push _ _ l -> l = []
}.
End Spec.

(** What the matrices and the transformations shall mean.  Uses from the model only the types of vectors and of transformations. *)
From Coq Require Import Reals List.
From Verif Require Import Lin_model.
Import ListNotations.
Local Open Scope R_scope.

(** Sums and the determinant of an [n] by [n] matrix, by expansion along the first row *)
Fixpoint sum (n : nat) (f : nat -> R) : R := match n with O => 0 | S n => sum n f + f n end.
Fixpoint determinant (n : nat) (a : nat -> nat -> R) : R :=
  match n with
  | O => 1
  | S k => sum n (fun j => (-1) ^ j * a 0%nat j * determinant k (fun y x => a (S y) (if Nat.ltb x j then x else S x)))
  end.
(** The elements of a matrix given by rows *)
Definition rows (l : list (list R)) (y x : nat) : R := nth x (nth y l []) 0.
Definition el2 (m : mat2) := rows [[a00 m; a01 m]; [a10 m; a11 m]].
Definition el3 (m : mat3) := rows [[m00 m; m01 m; m02 m]; [m10 m; m11 m; m12 m]; [m20 m; m21 m; m22 m]].
Definition el4 (m : mat4) := rows [[n00 m; n01 m; n02 m; n03 m]; [n10 m; n11 m; n12 m; n13 m]; [n20 m; n21 m; n22 m; n23 m]; [n30 m; n31 m; n32 m; n33 m]].

(** Vector algebra *)
Definition plus (a b : vec3) : vec3 := V3 (vx a + vx b) (vy a + vy b) (vz a + vz b).
Definition times (k : R) (a : vec3) : vec3 := V3 (k * vx a) (k * vy a) (k * vz a).
Definition inner (a b : vec3) : R := vx a * vx b + vy a * vy b + vz a * vz b.
Definition cross (a b : vec3) : vec3 := V3 (vy a * vz b - vz a * vy b) (vz a * vx b - vx a * vz b) (vx a * vy b - vy a * vx b).
Definition norm (a : vec3) : R := sqrt (inner a a).

(** Two maps undo each other *)
Definition inverse_of {A : Type} (f g : A -> A) : Prop := forall p, g (f p) = p /\ f (g p) = p.

(** The transformations of OpenSCAD, as maps of points *)
Definition translate (v p : vec3) : vec3 := plus p v.
Definition scale (v p : vec3) : vec3 := V3 (vx v * vx p) (vy v * vy p) (vz v * vz p).
(** reflection at the plane through the origin that is perpendicular to [v] *)
Definition reflect (v p : vec3) : vec3 := plus p (times (-2 * inner v p / inner v v) v).
(** rotation around [n] (Rodrigues' formula), by the angle of the given sine and cosine *)
Definition rotate_about (n : vec3) (s c : R) (p : vec3) : vec3 :=
  let k := times (/ norm n) n in
  plus (plus (times c p) (times s (cross k p))) (times ((1 - c) * inner k p) k).
(** the affine map of a matrix *)
Definition affine (m : mat3w) (p : vec3) : vec3 :=
  V3 (m00 (wb m) * vx p + m01 (wb m) * vy p + m02 (wb m) * vz p + vx (ww m))
     (m10 (wb m) * vx p + m11 (wb m) * vy p + m12 (wb m) * vz p + vy (ww m))
     (m20 (wb m) * vx p + m21 (wb m) * vy p + m22 (wb m) * vz p + vz (ww m)).
Definition ex : vec3 := V3 1 0 0.
Definition ey : vec3 := V3 0 1 0.
Definition ez : vec3 := V3 0 0 1.
(** equal up to less than [e] in each coordinate *)
Definition near (e : R) (a b : vec3) : Prop := Rabs (vx a - vx b) < e /\ Rabs (vy a - vy b) < e /\ Rabs (vz a - vz b) < e.
(** what one transformation does to a point: a translation may be off by less than [e] *)
Definition meaning (e : R) (t : xf) (f : vec3 -> vec3) : Prop :=
  match t with
  | Translate v => exists v', near e v' v /\ forall p, f p = translate v' p
  | Mirror v => forall p, f p = reflect v p
  | Scale v => forall p, f p = scale v p
  | Multmatrix m => forall p, f p = affine m p
  | RotAxis n s c => forall p, f p = rotate_about n s c p
  | RotXYZ sx cx sy cy sz cz => forall p, f p = rotate_about ez sz cz (rotate_about ey sy cy (rotate_about ex sx cx p))
  end.
(** and a nest of them, outermost first: the innermost one is applied first *)
Inductive nest (e : R) : list xf -> (vec3 -> vec3) -> Prop :=
  | nest_nil : forall f, (forall p, f p = p) -> nest e [] f
  | nest_cons : forall t l f g h, meaning e t f -> nest e l g -> (forall p, h p = f (g p)) -> nest e (t :: l) h.
(** the angles are angles, and axes of rotations are not too short *)
Definition fine (e : R) (t : xf) : Prop :=
  match t with
  | RotAxis n s c => e <= norm n /\ s * s + c * c = 1
  | RotXYZ sx cx sy cy sz cz => sx * sx + cx * cx = 1 /\ sy * sy + cy * cy = 1 /\ sz * sz + cz * cz = 1
  | _ => True
  end.
(** which transformations shall be refused: those that flatten *)
Definition refused (e e2 : R) (t : xf) : Prop :=
  match t with
  | Mirror v => near e v (V3 0 0 0)
  | Scale v => Rabs (vx v) < e \/ Rabs (vy v) < e \/ Rabs (vz v) < e
  | Multmatrix m => Rabs (determinant 3 (el3 (wb m))) < e2
  | _ => False
  end.

(** the inverse and the determinant that are stored with a matrix are right *)
Definition proper (m : mat3wi) : Prop := inverse_of (affine (fwd m)) (affine (bwd m)) /\ idet m = determinant 3 (el3 (wb (fwd m))).

(** Preserves distances from the origin, and angles *)
Definition isometry (f : vec3 -> vec3) : Prop := forall p q, inner (f p) (f q) = inner p q.
(** A matrix that permutes the coordinate axes, up to sign: exactly one nonzero element, 1 or -1, in each row and column *)
Definition signed (x : R) : Prop := x = 1 \/ x = -1.
Definition axis_aligned (m : mat3) : Prop :=
  let one a b c := (signed a /\ b = 0 /\ c = 0) \/ (a = 0 /\ signed b /\ c = 0) \/ (a = 0 /\ b = 0 /\ signed c) in
  one (m00 m) (m01 m) (m02 m) /\ one (m10 m) (m11 m) (m12 m) /\ one (m20 m) (m21 m) (m22 m) /\
  one (m00 m) (m10 m) (m20 m) /\ one (m01 m) (m11 m) (m21 m) /\ one (m02 m) (m12 m) (m22 m).

(** The argument of multmatrix: a list of 2, 3 or 4 rows of 3 or 4 numbers; [f y x] is the element, missing ones are as in the unit matrix *)
Definition identity (y x : nat) : R := if Nat.eqb y x then 1 else 0.
Definition matrix_arg (v : val) (f : nat -> nat -> R) : Prop :=
  exists r, v = Arr (map (fun l => Arr (map Num l)) r) /\ (2 <= length r <= 4)%nat /\ Forall (fun l => length l = 3%nat \/ length l = 4%nat) r /\
    forall y x, (y < 4)%nat -> (x < 4)%nat -> f y x = nth x (nth y r []) (identity y x).

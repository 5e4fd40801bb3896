(** Placement of the shapes of an SVG file as the standard says. *)
From Coq Require Import ZArith QArith List Bool.
From Verif Require Import Svgdoc_model.
Import ListNotations.
Local Open Scope Q_scope.

Definition vec := (Q * Q)%type.
Definition veq (a b : vec) : Prop := fst a == fst b /\ snd a == snd b.

(** a matrix maps a point *)
Definition at_pt (m : mat) (p : vec) : vec :=
  (m00 m * fst p + m01 m * snd p + w0 m, m10 m * fst p + m11 m * snd p + w1 m).

Section Spec.
Variables tand sind cosd : Q -> Q.

(** the commands of [transform]: https://www.w3.org/TR/SVG11/coords.html#TransformAttribute *)
Inductive means : name -> list Q -> (vec -> vec) -> Prop :=
  | t1 x : means translate_ [x] (fun p => (fst p + x, snd p))
  | t2 x y : means translate_ [x; y] (fun p => (fst p + x, snd p + y))
  | s1 k : means scale_ [k] (fun p => (k * fst p, k * snd p))
  | s2 x y : means scale_ [x; y] (fun p => (x * fst p, y * snd p))
  | r1 a : means rotate_ [a] (fun p => (cosd a * fst p - sind a * snd p, sind a * fst p + cosd a * snd p))
  | r3 a x y : means rotate_ [a; x; y]
      (fun p => (cosd a * (fst p - x) - sind a * (snd p - y) + x, sind a * (fst p - x) + cosd a * (snd p - y) + y))
  | kx a : means skewX_ [a] (fun p => (fst p + tand a * snd p, snd p))
  | ky a : means skewY_ [a] (fun p => (fst p, snd p + tand a * fst p))
  | mx a b c d e f : means matrix_ [a; b; c; d; e; f] (fun p => (a * fst p + c * snd p + e, b * fst p + d * snd p + f)).

(** a list of commands: the last one is applied to the point first *)
Inductive meanss : list (name * list Q) -> (vec -> vec) -> Prop :=
  | ms_nil : meanss [] (fun p => p)
  | ms_cons n v cs f g : means n v f -> meanss cs g -> meanss ((n, v) :: cs) (fun p => f (g p)).

(** the map of one element: what its children's coordinates become *)
Inductive maps : elem -> (vec -> vec) -> Prop :=
  | mp_none k id ch : plain k -> maps (El k id None ch) (fun p => p)
  | mp_some k id cs ch f : plain k -> meanss cs f -> maps (El k id (Some cs) ch) f
  | mp_svg_none pre post id ch : maps (El (Svg pre post) id None ch) (fun p => at_pt pre (at_pt post p))
  | mp_svg pre post id cs ch f : meanss cs f -> maps (El (Svg pre post) id (Some cs) ch) (fun p => at_pt pre (f (at_pt post p)))
with plain : kind -> Prop :=
  | pl_group : plain Group
  | pl_shape n : plain (Shape n).

(** the map of a list of nested elements, outermost first *)
Inductive mapss : list elem -> (vec -> vec) -> Prop :=
  | mps_nil : mapss [] (fun p => p)
  | mps_cons e es f g : maps e f -> mapss es g -> mapss (e :: es) (fun p => f (g p)).

(** all shapes in the order of the document, each with the elements that it is in, outermost first, ending with itself *)
Fixpoint shapes (e : elem) : list (nat * list elem) :=
  match e with
  | El Skipped _ _ _ => []
  | El (Shape n) _ _ _ => [(n, [e])]
  | El _ _ _ ch => map (fun x => (fst x, e :: snd x)) (flat_map shapes ch)
  end.

Definition id_of (e : elem) : option name := match e with El _ id _ _ => id end.
Definition has_transform (e : elem) : Prop := match e with El _ _ tr _ => tr <> None end.

(** is one of the elements the layer? *)
Definition in_layer (lay : option name) (path : list elem) : bool :=
  match lay with
  | None => true
  | Some l => existsb (fun e => match id_of e with Some i => if list_eq_dec Z.eq_dec l i then true else false | None => false end) path
  end.
End Spec.

(** [preserveAspectRatio]: none, or how to align and whether to slice *)
Inductive par := PNone | PAlign (ax ay : Q) (slice : bool).

(** the map of a view box: https://www.w3.org/TR/SVG2/coords.html#ComputingAViewportsTransform *)
Definition view_map (a : par) (vx vy vw vh ex ey ew eh : Q) (p : vec) : vec :=
  match a with
  | PNone => (ex + (fst p - vx) * (ew / vw), ey + (snd p - vy) * (eh / vh))
  | PAlign ax ay slice =>
      let sx := ew / vw in
      let sy := eh / vh in
      let s := if xorb (Qle_bool sx sy) slice then sx else sy in
      (ex + (fst p - vx) * s + (ew - vw * s) * ax, ey + (snd p - vy) * s + (eh - vh * s) * ay)
  end.

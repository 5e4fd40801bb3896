(** Path data of SVG: grammar and meaning (https://www.w3.org/TR/SVG/paths.html), without arcs. *)
From Coq Require Import ZArith List Bool.
Import ListNotations.
Local Open Scope Z_scope.

Definition byte_text := list Z.

(** * Numbers *)
Definition digit (c : Z) : Prop := 48 <= c <= 57.
Definition digits (l : byte_text) : Prop := Forall digit l.
Inductive mantissa : byte_text -> Prop :=
  | m_int ds : digits ds -> ds <> [] -> mantissa ds
  | m_dot a b : digits a -> digits b -> a ++ b <> [] -> mantissa (a ++ 46 :: b).
(** exponents; [signed]: with a sign *)
Inductive expo (signed : bool) : byte_text -> Prop :=
  | e_none : expo signed []
  | e_some c s ds : c = 101 \/ c = 69 -> s = [] \/ (signed = true /\ (s = [43] \/ s = [45])) ->
      digits ds -> ds <> [] -> expo signed (c :: s ++ ds).
Definition num (signed : bool) (w : byte_text) : Prop :=
  exists s m e, (s = [] \/ s = [43] \/ s = [45]) /\ mantissa m /\ expo signed e /\ w = s ++ m ++ e.

(** the text r behind the number w is not a continuation of it *)
Definition ends (w r : byte_text) : Prop :=
  match r with
  | [] => True
  | c :: _ => ~ digit c /\ (c = 46 -> In 46 w \/ In 101 w \/ In 69 w) /\ c <> 101 /\ c <> 69 /\ c <> 120 /\ c <> 88
  end.

Definition space (c : Z) : Prop := c = 32 \/ c = 9 \/ c = 13 \/ c = 10 \/ c = 12.
Definition spaces (l : byte_text) : Prop := Forall space l.
Definition sep (comma : bool) (l : byte_text) : Prop :=
  spaces l \/ (comma = true /\ exists a b, spaces a /\ spaces b /\ l = a ++ 44 :: b).

Section Spec.
Variable D : Type.
Variables (dzero : D) (dadd dmir : D -> D -> D) (near : D -> D -> bool).
Definition point := (D * D)%type.
Variable quad_in : point -> point -> point -> list point.
Variable cub_in : point -> point -> point -> point -> list point.
Variable val : byte_text -> D.

Inductive cmd :=
  | Close
  | Move (rel : bool) (p : point)
  | Line (rel : bool) (p : point)
  | Horiz (rel : bool) (x : D)
  | Vert (rel : bool) (y : D)
  | Quad (rel : bool) (c p : point)
  | SQuad (rel : bool) (p : point)
  | Cub (rel : bool) (c1 c2 p : point)
  | SCub (rel : bool) (c p : point).

(** * Grammar *)
(** [nums signed comma vs t r]: t is the numbers vs, followed by r; a comma may be before the first one *)
Inductive nums (signed : bool) : bool -> list D -> byte_text -> byte_text -> Prop :=
  | nums_nil c r : nums signed c [] r r
  | nums_cons c vs sp w t r : sep c sp -> num signed w -> ends w t -> nums signed true vs t r ->
      nums signed c (val w :: vs) (sp ++ w ++ t) r.

Fixpoint pairs (vs : list D) : option (list point) :=
  match vs with
  | [] => Some []
  | x :: y :: r => option_map (cons (x, y)) (pairs r)
  | _ => None
  end.
Fixpoint by2 (ps : list point) : option (list (point * point)) :=
  match ps with
  | [] => Some []
  | p :: q :: r => option_map (cons (p, q)) (by2 r)
  | _ => None
  end.
Fixpoint by3 (ps : list point) : option (list (point * point * point)) :=
  match ps with
  | [] => Some []
  | p :: q :: s :: r => option_map (cons (p, q, s)) (by3 r)
  | _ => None
  end.
Definition some {A B} (f : A -> B) (l : option (list A)) : option (list B) :=
  match l with Some (x :: r) => Some (map f (x :: r)) | _ => None end.
Definition bnd {A B} (x : option A) (f : A -> option B) : option B := match x with Some a => f a | None => None end.

(** the commands that a letter with numbers stands for *)
Definition expand (l : Z) (vs : list D) : option (list cmd) :=
  match l with
  | 77 => match pairs vs with Some (p :: ps) => Some (Move false p :: map (Line false) ps) | _ => None end
  | 109 => match pairs vs with Some (p :: ps) => Some (Move true p :: map (Line true) ps) | _ => None end
  | 76 => some (Line false) (pairs vs)
  | 108 => some (Line true) (pairs vs)
  | 72 => some (Horiz false) (Some vs)
  | 104 => some (Horiz true) (Some vs)
  | 86 => some (Vert false) (Some vs)
  | 118 => some (Vert true) (Some vs)
  | 81 => some (fun x => Quad false (fst x) (snd x)) (bnd (pairs vs) by2)
  | 113 => some (fun x => Quad true (fst x) (snd x)) (bnd (pairs vs) by2)
  | 84 => some (SQuad false) (pairs vs)
  | 116 => some (SQuad true) (pairs vs)
  | 67 => some (fun x => Cub false (fst (fst x)) (snd (fst x)) (snd x)) (bnd (pairs vs) by3)
  | 99 => some (fun x => Cub true (fst (fst x)) (snd (fst x)) (snd x)) (bnd (pairs vs) by3)
  | 83 => some (fun x => SCub false (fst x) (snd x)) (bnd (pairs vs) by2)
  | 115 => some (fun x => SCub true (fst x) (snd x)) (bnd (pairs vs) by2)
  | _ => None
  end.

Inductive path_text (signed : bool) : list cmd -> byte_text -> Prop :=
  | pt_end sp : spaces sp -> path_text signed [] sp
  | pt_close sp l t cs : spaces sp -> l = 90 \/ l = 122 -> path_text signed cs t ->
      path_text signed (Close :: cs) (sp ++ l :: t)
  | pt_group sp l vs t r cs1 cs2 : spaces sp -> nums signed false vs t r -> expand l vs = Some cs1 ->
      path_text signed cs2 r -> path_text signed (cs1 ++ cs2) (sp ++ l :: t).

(** * Meaning *)
(** last control point: of a quadratic curve, of a cubic one *)
Inductive control := NoC | QC (p : point) | CC (p : point).

Record pen := mk_pen {
  start : point;        (* of the subpath *)
  at_ : point;          (* current point *)
  last : control;
  moved : bool;         (* nothing was drawn since the last move *)
  idle : bool           (* the last command was a line to (nearly) the same point *)
}.
Definition pen0 : pen := mk_pen (dzero, dzero) (dzero, dzero) NoC false false.

Inductive event := Break | Draw (a : point) (l : list point) | Nothing.

Definition absolute (rel : bool) (c p : point) : point :=
  if rel then (dadd (fst p) (fst c), dadd (snd p) (snd c)) else p.
Definition mirror (c k : point) : point := (dmir (fst c) (fst k), dmir (snd c) (snd k)).

Definition line_to (k : pen) (p : point) : event * pen :=
  if near (fst (at_ k)) (fst p) && near (snd (at_ k)) (snd p)
  then (Nothing, mk_pen (start k) (at_ k) NoC (moved k) true)
  else (Draw (at_ k) [p], mk_pen (start k) p NoC false false).
Definition quad_to (k : pen) (c p : point) : event * pen :=
  (Draw (at_ k) (quad_in (at_ k) c p ++ [p]), mk_pen (start k) p (QC c) false false).
Definition cub_to (k : pen) (c1 c2 p : point) : event * pen :=
  (Draw (at_ k) (cub_in (at_ k) c1 c2 p ++ [p]), mk_pen (start k) p (CC c2) false false).

Definition step (k : pen) (c : cmd) : event * pen :=
  let a := at_ k in
  match c with
  | Close => (Break, mk_pen (start k) (start k) NoC false false)
  | Move rel p => let p := absolute rel a p in (Break, mk_pen p p NoC true false)
  | Line rel p => line_to k (absolute rel a p)
  | Horiz rel x => line_to k (if rel then dadd x (fst a) else x, snd a)
  | Vert rel y => line_to k (fst a, if rel then dadd y (snd a) else y)
  | Quad rel c p => quad_to k (absolute rel a c) (absolute rel a p)
  | SQuad rel p => quad_to k (match last k with QC m => mirror a m | _ => a end) (absolute rel a p)
  | Cub rel c1 c2 p => cub_to k (absolute rel a c1) (absolute rel a c2) (absolute rel a p)
  | SCub rel c p => cub_to k (match last k with CC m => mirror a m | _ => a end) (absolute rel a c) (absolute rel a p)
  end.

Fixpoint events (k : pen) (cs : list cmd) : list event :=
  match cs with
  | [] => []
  | c :: cs => let '(e, k) := step k c in e :: events k cs
  end.

(** the subpaths, each as list of points; [l] is the one being drawn *)
Definition flush (l : list point) : list (list point) := match l with [] => [] | _ => [l] end.
Fixpoint subpaths (l : list point) (es : list event) : list (list point) :=
  match es with
  | [] => flush l
  | Nothing :: es => subpaths l es
  | Break :: es => flush l ++ subpaths [] es
  | Draw a ps :: es => subpaths (match l with [] => a :: ps | _ => l ++ ps end) es
  end.
Definition drawing (cs : list cmd) : list (list point) := subpaths [] (events pen0 cs).

(** What the code does not do right: closing a subpath without any line, and smooth curves behind a
    line that goes (nearly) nowhere. *)
Fixpoint fine (k : pen) (cs : list cmd) : Prop :=
  match cs with
  | [] => True
  | c :: cs =>
      (c = Close -> moved k = false) /\
      (idle k = true -> match c with SQuad _ _ | SCub _ _ _ => False | _ => True end) /\
      fine (snd (step k c)) cs
  end.

(** points with their number in the path and the number of the path *)
Fixpoint number_points (i j : nat) (l : list point) : list (point * nat * nat) :=
  match l with [] => [] | p :: l => (p, j, i) :: number_points i (S j) l end.
Fixpoint number_paths (i : nat) (ls : list (list point)) : list (point * nat * nat) :=
  match ls with [] => [] | l :: ls => number_points i 0 l ++ number_paths (S i) ls end.

(** strtod reads exactly the numbers of the grammar, if nothing follows that continues them *)
Definition strtod_reads (strtod : byte_text -> D * nat) : Prop :=
  forall w r, num true w -> ends w r -> strtod (w ++ r) = (val w, length w).
End Spec.

(** Specification of the output of triangles as scenes *)
From Coq Require Import ZArith List Bool Permutation.
From Verif Require Import Js_model.
Import ListNotations.
Open Scope nat_scope.

Definition triangle := (vertex * vertex * vertex)%type.
(** ** Reading a scene *)
(** The numbers whose differences are given *)
Fixpoint undelta (last : Z) (l : list Z) : list Z := match l with [] => [] | d :: l => (last + d)%Z :: undelta (last + d)%Z l end.
(** The vertex with a number; none for numbers that are not in the scene *)
Definition look (vs : list vertex) (i : Z) : option vertex := if (i <? 0)%Z then None else nth_error vs (Z.to_nat i).
Fixpoint group3 (vs : list vertex) (l : list Z) : option (list triangle) :=
  match l with
  | [] => Some []
  | a :: b :: c :: l =>
    match look vs a, look vs b, look vs c, group3 vs l with
    | Some x, Some y, Some z, Some r => Some ((x, y, z) :: r)
    | _, _, _, _ => None
    end
  | _ => None
  end.
Definition read_scene (s : scene) : option (list triangle) := group3 (fst s) (undelta 0%Z (snd s)).
Fixpoint read (l : list scene) : option (list triangle) :=
  match l with
  | [] => Some []
  | s :: l => match read_scene s, read l with Some a, Some b => Some (a ++ b) | _, _ => None end
  end.

(** ** The triangles that are wanted for a polygon that is a layer from level 0 to level 1 *)
Definition pt (pts : list point) (k : nat) : point := nth k pts (0%Z, 0%Z).
Definition vt (n : normal) (pts : list point) (zi k : nat) (z : bool) : vertex := mk_vertex n (pt pts k) zi z.
Definition edge_tris (pts : list point) (zi j k : nat) : list triangle :=
  let n := Side (pt pts j) (pt pts k) in
  [ (vt n pts zi k false, vt n pts zi j true, vt n pts zi k true);
    (vt n pts zi k false, vt n pts zi j false, vt n pts zi j true) ].
Definition tri_sides (pts : list point) (zi : nat) (t : tri_t) : list triangle :=
  (if o01 t then edge_tris pts zi (p0 t) (p1 t) else []) ++ (if o12 t then edge_tris pts zi (p1 t) (p2 t) else []) ++ (if o20 t then edge_tris pts zi (p2 t) (p0 t) else []).
Definition poly_tris (th : bool) (zi : nat) (r : poly) : list triangle :=
  let top := match diff_above r with Some g => g | None => body r end in
  let bot := match (if th then diff_below r else None) with Some g => g | None => body r end in
  (if th then map (fun t => (vt Up (fst top) zi (p1 t) true, vt Up (fst top) zi (p0 t) true, vt Up (fst top) zi (p2 t) true)) (snd top) else [])
  ++ map (fun t => (vt Down (fst bot) zi (p0 t) false, vt Down (fst bot) zi (p1 t) false, vt Down (fst bot) zi (p2 t) false)) (snd bot)
  ++ (if th then flat_map (tri_sides (fst (body r)) zi) (snd (body r)) else []).
(** The triangles wanted for the polygons of a tree *)
Definition all_tris (thick : list bool) (l : list (nat * poly)) : list triangle := flat_map (fun x => poly_tris (nth (fst x) thick false) (fst x) (snd x)) l.
(** Triangles refer to points that exist *)
Definition gon_ok (g : gon) : Prop := forall t, In t (snd g) -> p0 t < length (fst g) /\ p1 t < length (fst g) /\ p2 t < length (fst g).
Definition poly_ok (r : poly) : Prop :=
  gon_ok (body r) /\ (forall g, diff_above r = Some g -> gon_ok g) /\ (forall g, diff_below r = Some g -> gon_ok g).

(** ** The polygons of a tree that are printed, with the layers they are in *)
Inductive shown : nat -> csg2 -> list (nat * poly) -> Prop :=
| sh_poly : forall zi r, shown zi (Poly r) [(zi, r)]
| sh_add : forall zi l x, shown_all zi l x -> shown zi (Add l) x
| sh_sub : forall zi a s x, shown_all zi a x -> shown zi (Sub a s) x
| sh_cut0 : forall zi, shown zi (Cut []) []
| sh_cut : forall zi a l x, shown_all zi a x -> shown zi (Cut (a :: l)) x
| sh_xor0 : forall zi, shown zi (Xor []) []
| sh_xor : forall zi a l x, shown_all zi a x -> shown zi (Xor (a :: l)) x
| sh_stack : forall zi i l x, shown_layers i l x -> shown zi (Stack i l) x
with shown_all : nat -> list csg2 -> list (nat * poly) -> Prop :=
| sa_nil : forall zi, shown_all zi [] []
| sa_cons : forall zi r l x y, shown zi r x -> shown_all zi l y -> shown_all zi (r :: l) (x ++ y)
(** an empty layer need not have a number *)
with shown_layers : nat -> list (nat * list csg2) -> list (nat * poly) -> Prop :=
| sl_nil : forall i, shown_layers i [] []
| sl_empty : forall i z l y, shown_layers (S i) l y -> shown_layers i ((z, []) :: l) y
| sl_cons : forall i root l x y, shown_all i root x -> shown_layers (S i) l y -> shown_layers i ((i, root) :: l) (x ++ y).
(** What a 16 bit index can address: the limits of a scene *)
Definition scene_fits (s : scene) : Prop := 0 < length (snd s) /\ length (snd s) = length (fst s) /\ length (fst s) <= Z.to_nat 65535.
(** As few scenes as possible: all but the last are filled up *)
Definition full (s : scene) : Prop := length (fst s) = Z.to_nat 65535.
Definition packed (l : list scene) : Prop := exists pre post, l = pre ++ post /\ Forall full pre /\ length post <= 1.

(** ** Surfaces *)
Definition pos (v : vertex) : point * bool := (v_p v, v_z v).
Definition swap {A} (e : A * A) : A * A := (snd e, fst e).
Definition tri_edges (t : triangle) : list ((point * bool) * (point * bool)) :=
  let '(x, y, z) := t in [(pos x, pos y); (pos y, pos z); (pos z, pos x)].
(** Each directed edge occurs as often as its reverse: the surface has no boundary *)
Definition closed (l : list triangle) : Prop := Permutation (flat_map tri_edges l) (map swap (flat_map tri_edges l)).
(** The sides of triangles that are not marked as part of the outline are between two triangles *)
Definition inner (pts : list point) (t : tri_t) : list (point * point) :=
  (if o01 t then [] else [(pt pts (p0 t), pt pts (p1 t))]) ++ (if o12 t then [] else [(pt pts (p1 t), pt pts (p2 t))]) ++ (if o20 t then [] else [(pt pts (p2 t), pt pts (p0 t))]).
Definition flags_right (g : gon) : Prop := Permutation (flat_map (inner (fst g)) (snd g)) (map swap (flat_map (inner (fst g)) (snd g))).

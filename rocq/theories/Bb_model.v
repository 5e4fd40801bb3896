(** Model of src/hob3l/csg3.c 460-490, 2322-2470: the bounding box of a CSG tree.

    Coordinates are doubles without NaN: every finite double is a multiple of 2^-1074, so they are integers here.  The coordinates of
    points are finite.  cp_gt (comparison with an epsilon, algo.h 93) is abstract: [gt]. *)
From Coq Require Import List Bool ZArith.
Import ListNotations.

Inductive num := NInf | Fin (z : Z) | PInf.
Definition le (a b : num) : bool :=
  match a, b with NInf, _ => true | _, NInf => false | _, PInf => true | PInf, _ => false | Fin a, Fin b => (a <=? b)%Z end.
Definition lt (a b : num) : bool := negb (le b a).
Inductive axis := AX | AY | AZ.
Record vec := mk_vec { vx : num; vy : num; vz : num }.
Definition get (v : vec) (i : axis) : num := match i with AX => vx v | AY => vy v | AZ => vz v end.
Definition tab (f : axis -> num) : vec := mk_vec (f AX) (f AY) (f AZ).
Definition point := axis -> Z.
(** include/hob3lmat/mat_tam.h cp_vec3_minmax_t *)
Record box := mk_box { bmin : vec; bmax : vec }.
(** include/hob3lmat/mat_tam.h 32-34, 44-46 *)
Definition EMPTY : box := mk_box (tab (fun _ => PInf)) (tab (fun _ => NInf)).
Definition FULL : box := mk_box (tab (fun _ => NInf)) (tab (fun _ => PInf)).

(** src/hob3lmat/mat_gen_ext.c 117-152 *)
Definition vec3_min (a b : vec) : vec := tab (fun i => if le (get a i) (get b i) then get a i else get b i).
Definition vec3_max (a b : vec) : vec := tab (fun i => if le (get b i) (get a i) then get a i else get b i).
(** src/hob3lmat/mat_gen_ext.c 173-179 *)
Definition minmax (r : box) (p : point) : box := mk_box (vec3_min (bmin r) (tab (fun i => Fin (p i)))) (vec3_max (bmax r) (tab (fun i => Fin (p i)))).

Section Bb.
Variable gt : num -> num -> bool.
(** src/hob3lmat/mat_gen_ext.c 257-264 *)
Definition valid (a : box) : bool := if gt (get (bmin a) AX) (get (bmax a) AX) then false else if gt (get (bmin a) AY) (get (bmax a) AY) then false else if gt (get (bmin a) AZ) (get (bmax a) AZ) then false else true.
(** src/hob3lmat/mat_gen_ext.c 200-209 *)
Definition minmax_or (a b : box) : box := if negb (valid a) then b else if negb (valid b) then a else mk_box (vec3_min (bmin a) (bmin b)) (vec3_max (bmax a) (bmax b)).
(** src/hob3lmat/mat_gen_ext.c 231-237 *)
Definition minmax_and (a b : box) : box := mk_box (vec3_max (bmin a) (bmin b)) (vec3_min (bmax a) (bmax b)).

(** include/hob3l/csg_tam.h, csg3_tam.h: polyhedron with points and number of faces; sphere, with the bounds [lo], [hi] that are computed
    from its matrix (csg3.c 465-475); operations, whose operands are unions *)
Inductive tree := Poly (pts : list point) (faces : nat) | Sphere (lo hi : vec) | Add (l : list tree) | Sub (a s : list tree) | Cut (l : list (list tree)) | Xor (l : list (list tree)).

(** csg3.c 460-478 [csg3_sphere_minmax1], 480-488 [csg3_sphere_minmax] *)
Definition sphere_minmax (bb : box) (lo hi : vec) : box :=
  let mn := tab (fun i => if lt (get lo i) (get (bmin bb) i) then get lo i else get (bmin bb) i) in
  let mx := tab (fun i => if lt (get mn i) (get hi i) then get hi i else get (bmax bb) i) in
  mk_box mn mx.
(** csg3.c 2394-2404 [get_bb_poly3] *)
Definition get_bb_poly3 (bb : box) (pts : list point) (faces : nat) : box :=
  if (length pts <? 4)%nat || (faces <? 4)%nat then bb else fold_left minmax pts bb.

Section Rec.
Variable get_bb : box -> tree -> bool -> box.
(** csg3.c 2327-2342 [get_bb_v_csg3], [get_bb_add] *)
Definition get_bb_v (max : bool) := fix go (bb : box) (l : list tree) : box := match l with [] => bb | x :: l => go (get_bb bb x max) l end.
(** csg3.c 2344-2352 [get_bb_xor], 2373-2377 *)
Definition get_bb_each (max : bool) := fix go (bb : box) (l : list (list tree)) : box := match l with [] => bb | x :: l => go (get_bb_v max bb x) l end.
(** csg3.c 2380-2389: the loop for intersection *)
Definition get_bb_and := fix go (bb2 : box) (l : list (list tree)) : box :=
  match l with
  | [] => bb2
  | x :: l =>
    let bb3 := get_bb_v false EMPTY x in
    let bb2 := minmax_and bb2 bb3 in
    if negb (valid bb2) then bb2 else go bb2 l
  end.
End Rec.

(** csg3.c 2354-2363 [get_bb_sub], 2365-2392 [get_bb_cut], 2413-2443 [get_bb_csg3] *)
Fixpoint get_bb (bb : box) (r : tree) (max : bool) {struct r} : box :=
  match r with
  | Add l => get_bb_v get_bb max bb l
  | Xor l => get_bb_each get_bb max bb l
  | Sub a s => let bb := get_bb_v get_bb max bb a in if max then get_bb_v get_bb max bb s else bb
  | Cut l =>
    match l with
    | [] => bb
    | _ :: l' => if max then get_bb_each get_bb max bb l else minmax_or bb (get_bb_and get_bb FULL l')
    end
  | Sphere lo hi => sphere_minmax bb lo hi
  | Poly pts faces => get_bb_poly3 bb pts faces
  end.
(** csg3.c 2460-2470 [cp_csg3_tree_minmax]; [None]: there is no root *)
Definition tree_minmax (bb : box) (r : option (list tree)) (max : bool) : box := match r with None => bb | Some l => get_bb_v get_bb max bb l end.
End Bb.

(** Model of src/hob3l/csg2-2js.c: the output of triangles as scenes for WebGL.

    Out of scope: the text format of a scene (the groups, scale factors, the global transformation, the constant color), and the
    conversion of coordinates and normals to integers, which is done for each vertex separately: a vertex here is the data that
    store_vertex gets (point, level, normal).  The normal of a side is named by the edge that it is computed for.  Whether the top and
    the bottom of a layer are at different heights is a parameter for each layer (cp_eq of floating point numbers).  [None] is a failing
    assertion or an access outside an array. *)
From Coq Require Import ZArith List Bool.
Import ListNotations.
Open Scope nat_scope.

Definition point := (Z * Z)%type.
Inductive normal := Up | Down | Side (a b : point).
(** csg2-2js.c 35-39 [vertex_t], 162-179 [store_vertex]: normal, point, layer, and level in the layer (z[0] or z[1]) *)
Record vertex := mk_vertex { v_n : normal; v_p : point; v_zi : nat; v_z : bool }.
(** csg2-2js.c 26-27 *)
Definition VERTEX_CNT : nat := Z.to_nat 65535.
Definition VERTEX_MASK (n : nat) : nat := n mod Z.to_nat 65536.
(** What is printed for a scene: csg2-2js.c 74-150, the vertices and the index differences *)
Definition scene := (list vertex * list Z)%type.
(** csg2-2js.c 45-51 [ctxt_t], with the scenes printed so far *)
Record ctxt := mk_ctxt { vtx : nat -> vertex; v_cnt : nat; tri : nat -> nat * nat * nat; tri_cnt : nat; out : list scene }.

(** csg2-2js.c 60-67 [idx_val]; SHIFT_I is 0 *)
Definition idx_val (last : Z) (x : nat) : Z * Z := ((Z.of_nat x - last)%Z, Z.of_nat x).
(** csg2-2js.c 74-150: the loop for the index differences *)
Fixpoint put_index (tri : nat -> nat * nat * nat) (i n : nat) (last : Z) : list Z :=
  match n with
  | O => []
  | S n =>
    let '(a, b, c) := tri i in
    let '(d0, last) := idx_val last a in
    let '(d1, last) := idx_val last b in
    let '(d2, last) := idx_val last c in
    d0 :: d1 :: d2 :: put_index tri (S i) n last
  end.
(** csg2-2js.c 74-150 [scene_flush] *)
Definition scene_flush (c : ctxt) : ctxt :=
  let o := if 0 <? tri_cnt c then out c ++ [(map (vtx c) (seq 0 (v_cnt c)), put_index (tri c) 0 (tri_cnt c) 0%Z)] else out c in
  mk_ctxt (vtx c) 0 (tri c) 0 o.

Definition upd {A} (f : nat -> A) (i : nat) (x : A) : nat -> A := fun j => if j =? i then x else f j.
(** c->v[i] = x *)
Definition store_vertex (c : ctxt) (i : nat) (x : vertex) : option ctxt :=
  if i <? VERTEX_CNT then Some (mk_ctxt (upd (vtx c) i x) (v_cnt c) (tri c) (tri_cnt c) (out c)) else None.
Definition obind {A B} (x : option A) (f : A -> option B) : option B := match x with Some a => f a | None => None end.
(** csg2-2js.c 181-210 [triangle_put_js] *)
Definition triangle_put (c : ctxt) (pts : list point) (zi : nat) (n : normal) (k1 : nat) (i1 : bool) (k2 : nat) (i2 : bool) (k3 : nat) (i3 : bool) : option ctxt :=
  let c := if (VERTEX_CNT <? v_cnt c + 3) || (VERTEX_CNT <? tri_cnt c + 1) then scene_flush c else c in
  obind (nth_error pts k1) (fun xy1 => obind (nth_error pts k2) (fun xy2 => obind (nth_error pts k3) (fun xy3 =>
  if negb (tri_cnt c <? VERTEX_CNT) then None else
  let t0 := VERTEX_MASK (v_cnt c) in
  let t1 := VERTEX_MASK (v_cnt c + 1) in
  let t2 := VERTEX_MASK (v_cnt c + 2) in
  let c := mk_ctxt (vtx c) (v_cnt c + 3) (upd (tri c) (tri_cnt c) (t0, t1, t2)) (tri_cnt c + 1) (out c) in
  obind (store_vertex c t0 (mk_vertex n xy1 zi i1)) (fun c =>
  obind (store_vertex c t1 (mk_vertex n xy2 zi i2)) (fun c => store_vertex c t2 (mk_vertex n xy3 zi i3)))))).

(** gon_tam.h [cp_csg2_tri_t], [cp_csg2_poly_t]: points and triangles with the flags of the sides 01, 12, 20; diff_above and diff_below *)
Record tri_t := mk_tri { p0 : nat; p1 : nat; p2 : nat; o01 : bool; o12 : bool; o20 : bool }.
Definition gon := (list point * list tri_t)%type.
Record poly := mk_poly { body : gon; diff_above : option gon; diff_below : option gon }.

(** csg2-2js.c 217-256 [poly_put_js_outline_edge] *)
Definition outline_edge (c : ctxt) (pts : list point) (zi ij ik : nat) : option ctxt :=
  obind (nth_error pts ij) (fun pj => obind (nth_error pts ik) (fun pk =>
  let n := Side pj pk in
  obind (triangle_put c pts zi n ik false ij true ik true) (fun c =>
  triangle_put c pts zi n ik false ij false ij true))).
Fixpoint each {A} (f : ctxt -> A -> option ctxt) (c : ctxt) (l : list A) : option ctxt :=
  match l with [] => Some c | x :: l => obind (f c x) (fun c => each f c l) end.
Definition when (b : bool) (f : ctxt -> option ctxt) (c : ctxt) : option ctxt := if b then f c else Some c.
(** csg2-2js.c 258-320 [poly_put_js]; [thick]: for each layer of the
    tree (t->z), whether the top is at another height than the bottom *)
Definition poly_put (thick : list bool) (c : ctxt) (zi : nat) (r : poly) : option ctxt :=
  obind (nth_error thick zi) (fun th =>
  obind (when th (fun c =>
    let top := match diff_above r with Some g => g | None => body r end in
    each (fun c t => triangle_put c (fst top) zi Up (p1 t) true (p0 t) true (p2 t) true) c (snd top)) c) (fun c =>
  let bot := match (if th then diff_below r else None) with Some g => g | None => body r end in
  obind (each (fun c t => triangle_put c (fst bot) zi Down (p0 t) false (p1 t) false (p2 t) false) c (snd bot)) (fun c =>
  when th (fun c =>
    each (fun c t =>
      obind (when (o01 t) (fun c => outline_edge c (fst (body r)) zi (p0 t) (p1 t)) c) (fun c =>
      obind (when (o12 t) (fun c => outline_edge c (fst (body r)) zi (p1 t) (p2 t)) c) (fun c =>
      when (o20 t) (fun c => outline_edge c (fst (body r)) zi (p2 t) (p0 t)) c))) c (snd (body r))) c))).

(** The objects of a 2D tree that can be printed: csg2-2js.c 407-449 [csg2_put_js].  The vectors of cut and xor have elements that are
    additions; a stack has layers, and a layer has its index and an addition. *)
Inductive csg2 :=
| Poly (r : poly)
| Add (l : list csg2)
| Sub (a s : list csg2)
| Cut (l : list (list csg2))
| Xor (l : list (list csg2))
| Stack (idx0 : nat) (layers : list (nat * list csg2))
| Other.
(** csg2-2js.c 322-461: [union_put_js], [add_put_js], [sub_put_js], [cut_put_js], [xor_put_js], [layer_put_js], [stack_put_js],
    [csg2_put_js], [v_csg2_put_js] *)
Fixpoint put (thick : list bool) (c : ctxt) (zi : nat) (r : csg2) : option ctxt :=
  let put_v := fix put_v (c : ctxt) (zi : nat) (l : list csg2) : option ctxt :=
    match l with [] => Some c | x :: l => obind (put thick c zi x) (fun c => put_v c zi l) end in
  match r with
  | Poly p => poly_put thick c zi p
  | Add l => put_v c zi l
  | Sub a _ => put_v c zi a
  | Cut l => match l with [] => Some c | a :: _ => put_v c zi a end
  | Xor l => match l with [] => Some c | a :: _ => put_v c zi a end
  | Stack idx0 layers =>
    (fix put_l (c : ctxt) (i : nat) (l : list (nat * list csg2)) : option ctxt :=
      match l with
      | [] => Some c
      | (z, root) :: l =>
        obind (match root with [] => Some c | _ => if i =? z then put_v c z root else None end) (fun c => put_l c (S i) l)
      end) c idx0 layers
  | Other => None
  end.
(** csg2-2js.c 596-610 [cp_csg2_tree_put_js] *)
Definition put_js (thick : list bool) (v0 : nat -> vertex) (t0 : nat -> nat * nat * nat) (root : option csg2) : option (list scene) :=
  let c := scene_flush (mk_ctxt v0 0 t0 0 []) in
  obind (match root with Some r => put thick c 0 r | None => Some c end) (fun c => Some (out (scene_flush c))).

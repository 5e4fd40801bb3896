(** Model of src/hob3l/csg3.c 564-702: the faces of polyhedra whose points are layers on each other.

    A face is a list of indices of points.  Left out: locations.  The array of faces has a fixed size; a write beyond it or a reference to
    a point that does not exist is an assertion that fails (cp_v_nth, vec.h 845-854): [None].  size_t is [nat]: fnz - 2 must not be
    negative (all callers have fnz >= 2). *)
From Coq Require Import List Bool Arith QArith.
Import ListNotations.
Local Open Scope nat_scope.

Definition bind {A B} (x : option A) (f : A -> option B) : option B := match x with Some x => f x | None => None end.
Definition check (b : bool) {A} (x : option A) : option A := if b then x else None.
Fixpoint foldM {A B} (f : B -> A -> option B) (l : list A) (st : B) : option B := match l with [] => Some st | x :: l => bind (f st x) (foldM f l) end.
Definition b2n (b : bool) : nat := if b then 1 else 0.
(** include/hob3lbase/arith.h 87-95 *)
Definition wrap_add1 (i n : nat) : nat := let i := S i in if i =? n then 0 else i.

(** csg3.c 34-36 *)
Inductive tri := TRI_NONE | TRI_LEFT | TRI_RIGHT.
Definition is_tri (t : tri) : bool := match t with TRI_NONE => false | _ => true end.

Section Tower.
(** o->point.size; fn; the size of o->face *)
Variables (npts fn fcnt : nat).
Definition points_ok (f : list nat) : bool := forallb (fun i => i <? npts) f.
(** csg3.c 409-432 [face_rev_perhaps], [face_basics], with &cp_v_nth(&o->face, k++) *)
Definition push_face (st : list (list nat)) (f : list nat) (rev : bool) : option (list (list nat)) :=
  check (length st <? fcnt) (check (points_ok f) (check (3 <=? length f) (Some (st ++ [if rev then List.rev f else f])))).
(** csg3.c 564-584 [face_from_poly_lid] *)
Definition face_from_poly_lid (st : list (list nat)) (rev top : bool) : option (list (list nat)) :=
  let j_offset := if top then npts - fn else 0 in
  push_face st (map (fun j => j + j_offset) (seq 0 fn)) (xorb rev top).
(** csg3.c 656-687: the body of the loop for a side *)
Definition side (rev : bool) (t : tri) (i : nat) (st : list (list nat)) (j0 : nat) : option (list (list nat)) :=
  let k1 := i * fn in
  let k0 := k1 - fn in
  let j1 := wrap_add1 j0 fn in
  match t with
  | TRI_LEFT =>
    bind (push_face st [k0 + j0; k0 + j1; k1 + j0] (negb rev)) (fun st =>
    push_face st [k1 + j1; k1 + j0; k0 + j1] (negb rev))
  | TRI_RIGHT =>
    bind (push_face st [k0 + j0; k0 + j1; k1 + j1] (negb rev)) (fun st =>
    push_face st [k1 + j1; k1 + j0; k0 + j0] (negb rev))
  | TRI_NONE => push_face st [k0 + j0; k0 + j1; k1 + j1; k1 + j0] (negb rev)
  end.
(** csg3.c 690-698 *)
Definition roof (rev : bool) (st : list (list nat)) (j0 : nat) : option (list (list nat)) :=
  let kw := npts - 1 in
  let kv := kw - fn in
  let j1 := wrap_add1 j0 fn in
  push_face st [kv + j0; kv + j1; kw] (negb rev).
End Tower.

(** csg3.c 612-702 [faces_n_edges_from_tower], without the transformation of the points; [neg]: m->d < 0 *)
Definition tower (npts fn fnz : nat) (neg rev : bool) (t : tri) : option (list (list nat)) :=
  check (3 <=? fn)
  (let rev := if neg then negb rev else rev in
  let has_top := npts =? fn * fnz in
  check (has_top || (npts =? 1 + fn * (fnz - 1)))
  (let fcnt := 1 + b2n has_top + (fnz - 2) * fn * (1 + b2n (is_tri t)) + fn * (1 + b2n (is_tri t && has_top)) in
  bind (face_from_poly_lid npts fn fcnt [] rev false) (fun st =>
  bind (if has_top then face_from_poly_lid npts fn fcnt st rev true else Some st) (fun st =>
  bind (foldM (fun st i => foldM (side npts fn fcnt rev t i) (seq 0 fn) st) (seq 1 (fnz - b2n (negb has_top) - 1)) st) (fun st =>
  bind (if has_top then Some st else foldM (roof npts fn fcnt rev) (seq 0 fn) st) (fun st =>
  check (length st =? fcnt) (Some st))))))).

(** The callers: number of points and parameters.  csg3.c 1306-1319 [csg3_from_cube], 1452-1490 [csg3_poly_cylinder] ([cone]: cp_eq(r2, 0)),
    715-744 [csg3_poly_make_sphere], 1668-1729 [csg3_from_linext] for one path of [pcnt] points ([cone]: the scale is 0). *)
Definition cube_faces (neg : bool) := tower 8 4 2 neg false TRI_NONE.
Definition cylinder_faces (fn : nat) (cone neg : bool) := tower (if cone then fn + 1 else 2 * fn) fn 2 neg false TRI_NONE.
Definition sphere_faces (fn : nat) (neg : bool) := let fnz := (fn + 1) / 2 in check (2 <=? fnz) (tower (fn * fnz) fn fnz neg true TRI_NONE).
Definition linext_faces (pcnt slices : nat) (cone neg : bool) (t : tri) :=
  let zcnt := if cone then slices else slices + 1 in
  tower (zcnt * pcnt + b2n cone) pcnt (slices + 1) neg true t.
(** The points of the cube, csg3.c 1314-1316: !(i&1)^!(i&2), !(i&2), !(i&4) *)
Definition cube_point (i : nat) : Z * Z * Z :=
  let z (b : bool) : Z := if b then 1%Z else 0%Z in
  (z (xorb (negb (Nat.testbit i 0)) (negb (Nat.testbit i 1))), z (negb (Nat.testbit i 1)), z (negb (Nat.testbit i 2))).

(** The transformation of the points: csg3.c 633-635, src/hob3lmat/mat_gen_ext.c 417-440 [cp_vec3w_xform]: exact numbers *)
Local Open Scope Q_scope.
Record vec3 := mk_vec3 { px : Q; py : Q; pz : Q }.
(** rows of the matrix, and translation *)
Record mat3w := mk_mat3w { r0 : vec3; r1 : vec3; r2 : vec3; w : vec3 }.
Definition dot (a b : vec3) : Q := px a * px b + py a * py b + pz a * pz b.
Definition xform (m : mat3w) (v : vec3) : vec3 := mk_vec3 (dot (r0 m) v + px (w m)) (dot (r1 m) v + py (w m)) (dot (r2 m) v + pz (w m)).
(** Triple product; [cp_mat3_det] of the rows *)
Definition det3 (a b c : vec3) : Q :=
  px a * (py b * pz c - pz b * py c) + py a * (pz b * px c - px b * pz c) + pz a * (px b * py c - py b * px c).
Definition det (m : mat3w) : Q := det3 (r0 m) (r1 m) (r2 m).
(** Points and faces of a solid: [pts] before the transformation *)
Definition solid (pts : list vec3) (m : mat3w) (fn fnz : nat) (rev : bool) (t : tri) : option (list vec3 * list (list nat)) :=
  option_map (fun f => (map (xform m) pts, f)) (tower (length pts) fn fnz (negb (Qle_bool 0 (det m))) rev t).

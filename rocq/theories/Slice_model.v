(** Model of src/hob3lop/op-slice.c, completely, on coordinates that are already converted to int:
    [cq_import_dim] (src/hob3lop/gon.c 51-73) is floating point, but it is a function that is applied
    to each coordinate and to the cut height (op-slice.c 69-79), so converting all vertices
    first gives the same.  cp_v_push is appending (see Vec_model), running out of memory is not modelled. *)
From Coq Require Import ZArith Bool List.
From Verif Require Import Matq_model.
Import ListNotations.
Local Open Scope Z_scope.

(** include/hob3lop/gon_tam.h: cq_vec3_t, cq_line2_t *)
Record vec3 := mk_vec3 { x3 : Z; y3 : Z; z3 : Z }.
Notation line2 := (vec2 * vec2)%type.

(** 8-24 [cq_slice_interpol] *)
Definition interpol (z z0 z1 a0 a1 : Z) : res Z :=
  let! _ := check (z0 <? z1) in
  let! _ := check (z0 <=? z) in
  let! _ := check (z <=? z1) in
  let! u := dim_sub z1 z in
  let! r0 := dim_mul a0 u in
  let! v := dim_sub z z0 in
  let! r1 := dim_mul a1 v in
  let! s := dimw_add r0 r1 in
  let! d := dim_sub z1 z0 in
  let! r := divw_rnd s d in
  let rh := s32 r in
  let! _ := check (r =? rh) in
  Ok rh.

(** 26-34 [cq_slice_cut_z] *)
Definition cut_z (z : Z) (a b : vec3) : res vec2 :=
  let! x := interpol z (z3 a) (z3 b) (x3 a) (x3 b) in
  let! y := interpol z (z3 a) (z3 b) (y3 a) (y3 b) in
  Ok ((x, y)).

(** 36-61 [cq_slice_polyline_int]; the result is the new [out] *)
Definition polyline (out : list vec2) (z : Z) (a b : vec3) : res (list vec2) :=
  let '(a, b) := if z3 b <? z3 a then (b, a) else (a, b) in
  if z3 b <=? z then Ok out
  else if z <? z3 a then Ok out
  else
    let! _ := check (negb (z3 a =? z3 b)) in
    let! p := cut_z z a b in
    Ok (out ++ [p]).

(** 113-117: the loop in [cq_slice_add_face] *)
Fixpoint face_loop (z : Z) (face : list vec3) (n : nat) (i : nat) (out : list vec2) : res (list vec2) :=
  match n with
  | O => Ok out
  | S n =>
      let j := if Nat.eqb (i + 1) (length face) then 0%nat else (i + 1)%nat in
      match nth_error face i, nth_error face j with
      | Some a, Some b => let! out := polyline out z a b in face_loop z face n (i + 1) out
      | _, _ => UB
      end
  end.

(** src/hob3lop/gon.c 25-31 [cq_vec2_minmax] from [CQ_VEC2_MINMAX_INIT]: only the minimum is used *)
Definition bb_min (l : list vec2) : vec2 :=
  fold_left (fun m p => (Z.min (fst m) (fst p), Z.min (snd m) (snd p))) l
    (2147483647, 2147483647).

(** the keys compared by 82-88 [vec2_cmp]; in C, these are computed in each comparison, and all
    elements are compared at least once *)
Fixpoint keys (o : vec2) (l : list vec2) : res (list (Z * vec2)) :=
  match l with
  | [] => Ok []
  | p :: l =>
      let! k := vec2_sqr_dist p o in
      let! r := keys o l in
      Ok ((k, p) :: r)
  end.

Section Sort.
(** include/hob3lbase/vec.h 524 [cp_v_qsort]: this is qsort_r of the C library: some function that
    sorts by the key *)
Variable qsort : list (Z * vec2) -> list (Z * vec2).

(** 90-132 [cq_slice_add_face] *)
Definition add_face (out : list vec2) (z : Z) (face : list vec3) : res (list vec2) :=
  if Nat.ltb (length face) 3 then Ok out
  else
    let! _ := check (Nat.even (length out)) in
    let! out2 := face_loop z face (length face) 0 out in
    let i0 := length out in
    let n := (length out2 - i0)%nat in
    let! _ := check (Nat.even n) in
    if Nat.eqb n 0 then Ok out2
    else
      let new := skipn i0 out2 in
      let! ks := keys (bb_min new) new in
      Ok (firstn i0 out2 ++ map snd (qsort ks)).

(** src/hob3l/csg2-layer.c 36-38: all faces of a polyhedron *)
Fixpoint add_faces (out : list vec2) (z : Z) (faces : list (list vec3)) : res (list vec2) :=
  match faces with
  | [] => Ok out
  | f :: faces => let! out := add_face out z f in add_faces out z faces
  end.

(** include/hob3lop/gon.h 39-47 [cq_v_vec2_move_v_line2] *)
Fixpoint pairs_up (out : list vec2) : res (list line2) :=
  match out with
  | [] => Ok []
  | [_] => Fail
  | a :: b :: r => let! l := pairs_up r in Ok ((a, b) :: l)
  end.

Definition veq (a b : vec2) : bool := (fst a =? fst b) && (snd a =? snd b).

(** 141-146: the loop in [cq_slice_fini]: a line without length is replaced by the last line *)
Fixpoint fini_loop (fuel : nat) (i : nat) (r : list line2) : res (list line2) :=
  match fuel with
  | O => UB
  | S fuel =>
      match nth_error r i with
      | None => Ok r
      | Some (a, b) =>
          if veq a b then
            match nth_error r (length r - 1) with
            | None => UB
            | Some x => fini_loop fuel i (firstn (length r - 1) (firstn i r ++ x :: skipn (i + 1) r))
            end
          else fini_loop fuel (i + 1) r
      end
  end.

(** 134-149 [cq_slice_fini] *)
Definition fini (out : list vec2) : res (list line2) :=
  let! r := pairs_up out in
  fini_loop (S (length r)) 0 r.

(** src/hob3l/csg2-layer.c 19-40 [csg2_add_layer_poly] (the part that does the slicing):
    init (op-slice.c 151-159), each face, fini *)
Definition slice_poly (z : Z) (faces : list (list vec3)) : res (list line2) :=
  let! out := add_faces [] z faces in
  fini out.
End Sort.

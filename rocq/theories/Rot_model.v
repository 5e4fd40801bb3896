(** Model of src/hob3l/csg3.c 1810-2102: the polyhedra made by rotate_extrude from a 2D polygon.

    Left out: locations, the pool, the flattening of the children (the polygon is the input), the number of segments (an input; see
    [cp_csg3_get_fn]) and the sines and cosines (the table [cs] is an input).  Numbers are rational.  Reading or writing beyond the
    end of an array, and assertions that fail, are [None] / [Fail]. *)
From Coq Require Import List Bool Arith QArith.
From Verif Require Import Tower_model.
Import ListNotations.
Local Open Scope nat_scope.

(** csg3.c 1810-1823 *)
Definition rotext_idx (x0_cnt xi_cnt : nat) (idx : list nat) (i j : nat) : option nat :=
  bind (nth_error idx i) (fun k =>
  if Nat.odd k then Some (Nat.div2 k + x0_cnt + xi_cnt * j)
  else check (Nat.div2 k <? x0_cnt) (Some (Nat.div2 k))).

(** csg3.c 1833-1846: the filtered indices *)
Definition face4 (idx0 idx1 idx2 idx3 : nat) : list nat :=
  [idx0] ++
  (if negb (idx0 =? idx1) then [idx1] else []) ++
  (if negb (idx0 =? idx2) && negb (idx1 =? idx2) then [idx2] else []) ++
  (if negb (idx0 =? idx3) && negb (idx1 =? idx3) && negb (idx2 =? idx3) then [idx3] else []).
(** csg3.c 409-416 *)
Definition rev_perhaps (rev : bool) (f : list nat) : list nat := if rev then List.rev f else f.
(** csg3.c 1825-1861; [npts]: the size of p3->point (cp_v_nth_ptr asserts that the index is in range) *)
Definition push_face4 (npts : nat) (st : list (list nat)) (i0 i1 i2 i3 : nat) (rev : bool) : option (list (list nat)) :=
  let f := face4 i0 i1 i2 i3 in
  if length f <? 3 then Some st
  else check (forallb (fun i => i <? npts) f) (Some (st ++ [rev_perhaps rev f])).

Fixpoint mapM {A B} (f : A -> option B) (l : list A) : option (list B) :=
  match l with [] => Some [] | x :: l => bind (f x) (fun y => bind (mapM f l) (fun r => Some (y :: r))) end.
(** cp_v_nth(..) = v *)
Fixpoint put {A} (l : list A) (k : nat) (v : A) : option (list A) :=
  match l, k with [], _ => None | _ :: l, 0 => Some (v :: l) | x :: l, S k => bind (put l k v) (fun r => Some (x :: r)) end.

Section Arc.
(** the points and paths of p2 (indices of points), and the table idx with the number of points on the axis *)
Variables (p2 : list (Q * Q)) (paths : list (list nat)) (idx : list nat) (x0_cnt : nat).
Definition xi_cnt : nat := length p2 - x0_cnt.
Definition pt_cnt (slice_cnt : nat) : nat := x0_cnt + xi_cnt * slice_cnt.

(** csg3.c 1893-1912: the loop over the points *)
Definition rot_point (cs : list (Q * Q)) (slice_cnt : nat) (pts : list vec3) (i : nat) : option (list vec3) :=
  bind (nth_error p2 i) (fun q2 => bind (nth_error idx i) (fun k =>
  if Nat.odd k then
    foldM (fun pts j => bind (rotext_idx x0_cnt xi_cnt idx i j) (fun k => bind (nth_error cs j) (fun c =>
      put pts k (mk_vec3 (fst c * fst q2) (snd c * fst q2) (snd q2))))) (seq 0 slice_cnt) pts
  else bind (rotext_idx x0_cnt xi_cnt idx i 0) (fun k => put pts k (mk_vec3 0 0 (snd q2))))).

(** csg3.c 1922-1940: the loops over the slices, the paths and the points of a path *)
Definition connect1 (npts : nat) (rev : bool) (j1 : nat) (pa : list nat) (st : list (list nat)) (l : nat) : option (list (list nat)) :=
  let j0 := j1 - 1 in
  bind (nth_error pa l) (fun i0 => bind (nth_error pa (wrap_add1 l (length pa))) (fun i1 =>
  bind (rotext_idx x0_cnt xi_cnt idx i0 j0) (fun a => bind (rotext_idx x0_cnt xi_cnt idx i1 j0) (fun b =>
  bind (rotext_idx x0_cnt xi_cnt idx i1 j1) (fun c => bind (rotext_idx x0_cnt xi_cnt idx i0 j1) (fun d =>
  push_face4 npts st a b c d rev)))))).
Definition connect (npts slice_cnt : nat) (rev : bool) : option (list (list nat)) :=
  foldM (fun st j1 => foldM (fun st pa => foldM (connect1 npts rev j1 pa) (seq 0 (length pa)) st) paths st) (seq 1 (slice_cnt - 1)) [].
(** csg3.c 1942-1971: the ends *)
Definition end_face (npts j : nat) (rev : bool) (st : list (list nat)) (pa : list nat) : option (list (list nat)) :=
  bind (mapM (fun i2 => bind (rotext_idx x0_cnt xi_cnt idx i2 j) (fun i3 => check (i3 <? npts) (Some i3))) pa) (fun f => Some (st ++ [rev_perhaps rev f])).
Definition ends (npts slice_cnt : nat) (rev : bool) (st : list (list nat)) : option (list (list nat)) :=
  foldM (fun st pa => bind (end_face npts 0 (negb rev) st pa) (fun st => end_face npts (slice_cnt - 1) rev st pa)) paths st.

(** csg3.c 1863-1975 *)
Definition rotext_arc (m : mat3w) (cs : list (Q * Q)) (slice_cnt : nat) (neg : bool) : option (list vec3 * list (list nat)) :=
  check (2 <=? slice_cnt) (
  let rev := xorb neg (negb (Qle_bool 0 (det m))) in
  let n := pt_cnt slice_cnt in
  bind (foldM (rot_point cs slice_cnt) (seq 0 (length p2)) (repeat (mk_vec3 0 0 0) n)) (fun pts =>
  let pts := map (xform m) pts in
  bind (connect n slice_cnt rev) (fun st => bind (ends n slice_cnt rev st) (fun st => Some (pts, st))))).
End Arc.

(** csg3.c 2041-2058: the partition of the points.  [zero]: cp_eq(x, 0).  Result: idx, x0_cnt, xi_cnt, have[false], have[true] *)
Fixpoint partition (zero : Q -> bool) (p : list (Q * Q)) (x0 xi : nat) (hf ht : bool) : list nat * nat * nat * bool * bool :=
  match p with
  | [] => ([], x0, xi, hf, ht)
  | q :: p =>
    if zero (fst q) then
      let '(idx, a, b, c, d) := partition zero p (S x0) xi hf ht in (2 * x0 :: idx, a, b, c, d)
    else
      let neg := negb (Qle_bool 0 (fst q)) in
      let '(idx, a, b, c, d) := partition zero p x0 (S xi) (hf || negb neg) (ht || neg) in (2 * xi + 1 :: idx, a, b, c, d)
  end.

Inductive result := Ok (l : list (list vec3 * list (list nat))) | Msg | Fail.
Definition lift (x : option (list vec3 * list (list nat))) (f : list vec3 * list (list nat) -> result) : result := match x with Some y => f y | None => Fail end.
(** csg3.c 2034-2102.  [full]: cp_eq(angle, 360) *)
Definition rotext (zero : Q -> bool) (p2 : list (Q * Q)) (paths : list (list nat)) (m : mat3w) (full : bool) (cs : list (Q * Q)) (seg_cnt : nat) : result :=
  if length paths =? 0 then Ok []
  else
    let '(idx, x0, xi, hf, ht) := partition zero p2 0 0 false false in
    if hf && ht then Msg
    else if xi =? 0 then Fail
    else if full then
      let m1 := seg_cnt / 2 in
      let m2 := (seg_cnt + 1) / 2 in
      lift (rotext_arc p2 paths idx x0 m cs (m1 + 1) ht) (fun a =>
      lift (rotext_arc p2 paths idx x0 m (skipn m1 cs) (m2 + 1) ht) (fun b => Ok [a; b]))
    else lift (rotext_arc p2 paths idx x0 m cs (seg_cnt + 1) (negb ht)) (fun a => Ok [a]).

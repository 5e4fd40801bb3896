(** Model of the STL writer, src/hob3l/csg2-2stl.c, and of the STL reader for the binary format,
    src/hob3l/stl-parse.c.  A double is represented by its bit pattern, a number; floating point
    operations are parameters. *)
From Coq Require Import ZArith Bool List.
Import ListNotations.

(** Outcome: a value, a reported error, a failing assertion, or an access out of bounds *)
Inductive sres (A : Type) : Type := SOk (a : A) | SErr | SFail | Soob.
Arguments SOk {A} a. Arguments SErr {A}. Arguments SFail {A}. Arguments Soob {A}.
Definition sbind {A B} (x : sres A) (f : A -> sres B) : sres B :=
  match x with SOk a => f a | SErr => SErr | SFail => SFail | Soob => Soob end.
Notation "'let%' x ':=' e 'in' f" := (sbind e (fun x => f))
  (at level 200, x pattern, e at level 100, f at level 200, right associativity).
Definition sassert (b : bool) : sres unit := if b then SOk tt else SFail.

Definition point2 : Type := Z * Z.
Definition point3 : Type := Z * Z * Z.
(** a triangle as it is written to the file: normal, 3 corners *)
Record tri3 := mk_tri3 { t_n : point3; t_a : point3; t_b : point3; t_c : point3 }.

(** include/hob3l/csg2_tam.h: cp_csg2_tri_t: 3 indices of points, and which of the edges 01, 12, 20 are outline
    (CP_CSG2_TRI_OUTLINE_01 etc.) *)
Record tri := mk_tri { p0 : nat; p1 : nat; p2 : nat; o01 : bool; o12 : bool; o20 : bool }.

(** csg2_tam.h: cp_csg2_t, as far as used here.  A layer of a stack is None if its root is NULL,
    otherwise 'add', and [zi]. *)
Inductive csg2 :=
  | Null
  | Add (add : list csg2)
  | Xor (xor : list (list csg2))
  | Sub (add sub : list csg2)
  | Cut (cut : list (list csg2))
  | Poly (point : list point2) (tris : list tri)
  | Stack (idx0 : nat) (layers : list (option (list csg2) * nat))
  | Vline2
  | Sweep.

Section Stl.
(** cq_vec3_left_normal3_x (src/hob3lmat): normal of a triangle, None if it is not finite *)
Variable normal : point3 -> point3 -> point3 -> option point3.
(** for each layer: its z0, z1 (csg2-2stl.c 154-155), and whether they are considered equal (160) *)
Variable zs : list (Z * Z * bool).
(** the doubles 0, 1, -1 *)
Variables zero one mone : Z.

(** *** writing *)
Section Put.
(** 61-95 [triangle_put_stl]; the state is in the type C *)
Context {C : Type}.
Variable put : C -> tri3 -> C.

(** 102-144 [poly_put_stl_outline_edge] *)
Definition put_edge (c : C) (point : list point2) (z0 z1 : Z) (ij ik : nat) : sres C :=
  match nth_error point ij, nth_error point ik with
  | Some pj, Some pk =>
      match normal (pk, z0) (pj, z1) (pk, z1) with
      | None => SFail
      | Some n =>
          let c := put c (mk_tri3 n (pk, z0) (pj, z1) (pk, z1)) in
          SOk (put c (mk_tri3 n (pk, z0) (pj, z0) (pj, z1)))
      end
  | _, _ => SFail
  end.

Fixpoint each {A} (f : C -> A -> sres C) (c : C) (l : list A) : sres C :=
  match l with
  | [] => SOk c
  | x :: l => let% c := f c x in each f c l
  end.

(** 162-169, one iteration; cp_v_nth fails if out of bounds *)
Definition put_top (point : list point2) (z1 : Z) (c : C) (t : tri) : sres C :=
  match nth_error point (p1 t), nth_error point (p0 t), nth_error point (p2 t) with
  | Some a, Some b, Some d => SOk (put c (mk_tri3 (zero, zero, one) (a, z1) (b, z1) (d, z1)))
  | _, _, _ => SFail
  end.

(** 173-180, one iteration *)
Definition put_bottom (point : list point2) (z0 : Z) (c : C) (t : tri) : sres C :=
  match nth_error point (p0 t), nth_error point (p1 t), nth_error point (p2 t) with
  | Some a, Some b, Some d => SOk (put c (mk_tri3 (zero, zero, mone) (a, z0) (b, z0) (d, z0)))
  | _, _, _ => SFail
  end.

(** 184-195, one iteration *)
Definition put_sides (point : list point2) (z0 z1 : Z) (c : C) (t : tri) : sres C :=
  let% c := (if o01 t then put_edge c point z0 z1 (p0 t) (p1 t) else SOk c) in
  let% c := (if o12 t then put_edge c point z0 z1 (p1 t) (p2 t) else SOk c) in
  if o20 t then put_edge c point z0 z1 (p2 t) (p0 t) else SOk c.

(** 146-197 [poly_put_stl] *)
Definition put_poly (c : C) (zi : nat) (point : list point2) (tris : list tri) : sres C :=
  match nth_error zs zi with
  | None => SFail
  | Some (z0, z1, flat) =>
      let% c := (if negb flat then each (put_top point z1) c tris else SOk c) in
      let% c := each (put_bottom point z0) c tris in
      if negb flat then each (put_sides point z0 z1) c tris else SOk c
  end.

(** 199-329: all the functions for the types of objects, [csg2_put_stl], [v_csg2_put_stl].
    [layer_put_stl] gets the layer index idx0 + i and compares it with the layer's zi. *)
Fixpoint put_csg2 (c : C) (zi : nat) (r : csg2) {struct r} : sres C :=
  let fix put_v (c : C) (zi : nat) (l : list csg2) {struct l} : sres C :=
    match l with
    | [] => SOk c
    | r :: l => let% c := put_csg2 c zi r in put_v c zi l
    end in
  match r with
  | Null => SOk c
  | Add add => put_v c zi add
  | Xor xor => match xor with [] => SOk c | a :: _ => put_v c zi a end
  | Sub add _ => put_v c zi add
  | Cut cut => match cut with [] => SOk c | a :: _ => put_v c zi a end
  | Poly point tris => put_poly c zi point tris
  | Stack idx0 layers =>
      (fix put_layers (c : C) (i : nat) (l : list (option (list csg2) * nat)) {struct l} : sres C :=
        match l with
        | [] => SOk c
        | (root, lzi) :: l =>
            let% c := match root with
                      | None | Some [] => SOk c
                      | Some add => let% _ := sassert (Nat.eqb i lzi) in put_v c lzi add
                      end in
            put_layers c (S i) l
        end) c idx0 layers
  | Vline2 => SFail
  | Sweep => SFail
  end.
End Put.

Local Open Scope Z_scope.

(** *** the binary file *)

(** conversion of double to float (47-50 [write_f64_32]), and of float to double (stl-parse.c 536-544) *)
Variables (f32 : Z -> Z) (f64 : Z -> Z).

(** 25-37 [write_u32] *)
Definition bytes_u32 (u : Z) : list Z :=
  [Z.land u 255; Z.land (Z.shiftr u 8) 255; Z.land (Z.shiftr u 16) 255; Z.land (Z.shiftr u 24) 255].
(** 52-57 [write_3f64_32] *)
Definition bytes_vec3 (p : point3) : list Z :=
  let '(x, y, z) := p in bytes_u32 (f32 x) ++ bytes_u32 (f32 y) ++ bytes_u32 (f32 z).

(** 12-18 ctxt_t: what has been written to the stream (None if NULL); tri_count.  61-79 [triangle_put_stl], bin *)
Definition ctxt : Type := option (list Z) * Z.
Definition put_bin (c : ctxt) (t : tri3) : ctxt :=
  let n := (snd c + 1) mod 4294967296 in
  match fst c with
  | None => (None, n)
  | Some s => (Some (s ++ bytes_vec3 (t_n t) ++ bytes_vec3 (t_a t) ++ bytes_vec3 (t_b t) ++ bytes_vec3 (t_c t) ++ [0; 0]), n)
  end.

(** 343-374 [cp_csg2_tree_put_stl] with bin = true: the bytes of the file *)
Definition write_bin (root : csg2) : sres (list Z) :=
  let% c := put_csg2 put_bin (None, 0) 0 root in
  let cnt := snd c in
  let s := repeat 0 80 ++ bytes_u32 cnt in
  let% c := put_csg2 put_bin (Some s, 0) 0 root in
  let% _ := sassert (snd c =? cnt) in
  match fst c with Some s => SOk s | None => SFail end.

(** *** reading *)

(** cp_vec3_dict_insert (src/hob3l/vec3-dict.c 24-42): [find points v] is the index of the node found for
    v, if any; points are in order of their index *)
Variable find : list point3 -> point3 -> option nat.

(** 36-52 parse_t: position of lex_string, points, faces (indices; 'loc' is not modelled).
    The file's content is followed by one 0 (src/hob3l/syn.c 1020-1022). *)
Record parse := mk_parse { pos : nat; pts : list point3; faces : list (list nat) }.

Section Read.
Variable content : list Z.

(** 490-499 [bin_skip] *)
Definition bin_skip (p : parse) (n : nat) : sres parse :=
  if Nat.ltb (length content - pos p) n then SErr
  else SOk (mk_parse (pos p + n) (pts p) (faces p)).

(** 501-505 [bin_u8]: the byte is read before the end is checked *)
Definition bin_u8 (p : parse) : sres (Z * parse) :=
  match nth_error (content ++ [0]) (pos p) with
  | None => Soob
  | Some x => let% p := bin_skip p 1 in SOk (x, p)
  end.
(** 507-519 [bin_u16] *)
Definition bin_u16 (p : parse) : sres (Z * parse) :=
  let% (l, p) := bin_u8 p in
  let% (h, p) := bin_u8 p in
  SOk (Z.land (l + Z.shiftl h 8) 65535, p).
(** 521-532 [bin_u32] *)
Definition bin_u32 (p : parse) : sres (Z * parse) :=
  let% (l, p) := bin_u16 p in
  let% (h, p) := bin_u16 p in
  SOk ((l + Z.shiftl h 16) mod 4294967296, p).
(** 534-547 [bin_f32], [bin_f] *)
Definition bin_f (p : parse) : sres (Z * parse) :=
  let% (v, p) := bin_u32 p in SOk (f64 v, p).
(** 549-561 [bin_vec3] *)
Definition bin_vec3 (p : parse) : sres (point3 * parse) :=
  let% (x, p) := bin_f p in
  let% (y, p) := bin_f p in
  let% (z, p) := bin_f p in
  SOk ((x, y, z), p).
(** 563-574 [bin_vertex], the index of the point *)
Definition bin_vertex (p : parse) : sres (nat * parse) :=
  let% (v, p) := bin_vec3 p in
  match find (pts p) v with
  | Some i => SOk (i, p)
  | None => SOk (length (pts p), mk_parse (pos p) (pts p ++ [v]) (faces p))
  end.
(** 576-600 [bin_facet], 368-387 [make_facet]: the order of corners is reversed *)
Definition bin_facet (p : parse) : sres parse :=
  let% (_, p) := bin_vec3 p in
  let% (v0, p) := bin_vertex p in
  let% (v1, p) := bin_vertex p in
  let% (v2, p) := bin_vertex p in
  let% (_, p) := bin_u16 p in
  SOk (mk_parse (pos p) (pts p) (faces p ++ [[v2; v1; v0]])).
Fixpoint bin_facets (n : nat) (p : parse) : sres parse :=
  match n with
  | O => SOk p
  | S n => let% p := bin_facet p in bin_facets n p
  end.

(** 417-437 [make_solid]: faces as lists of points *)
Fixpoint lookup (points : list point3) (l : list nat) : sres (list point3) :=
  match l with
  | [] => SOk []
  | i :: l => match nth_error points i with
              | None => SFail
              | Some q => let% r := lookup points l in SOk (q :: r)
              end
  end.
Fixpoint make_faces (points : list point3) (l : list (list nat)) : sres (list (list point3)) :=
  match l with
  | [] => SOk []
  | f :: l => let% f := lookup points f in let% r := make_faces points l in SOk (f :: r)
  end.

(** 602-621 [parse_bin] *)
Definition parse_bin (p : parse) : sres (list (list point3)) :=
  let% p := bin_skip p 80 in
  let% (n, p) := bin_u32 p in
  let% p := bin_facets (Z.to_nat n) p in
  make_faces (pts p) (faces p).
End Read.

(** how a file is handled *)
Inductive format := Text | Binary | Unknown.

(** 646-659: deciding between the formats in [cp_stl_parse]; size_t has 64 bits *)
Definition solid : list Z := [115; 111; 108; 105; 100].
Definition detect (content : list Z) : format :=
  if Nat.leb 5 (length content) && forallb (fun x => Z.eqb (fst x) (snd x)) (combine (firstn 5 content) solid) then Text
  else if ((Z.of_nat (length content) - 84) mod 18446744073709551616) mod 50 =? 0 then Binary
  else Unknown.

(** 628-663 [cp_stl_parse]; reading text is the parameter [parse_text] *)
Definition stl_parse (parse_text : list Z -> sres (list (list point3))) (content : list Z) : sres (list (list point3)) :=
  match detect content with
  | Text => parse_text content
  | Binary => parse_bin content (mk_parse 0 [] [])
  | Unknown => SErr
  end.
End Stl.

(** Model of the part of hob3l that goes layer by layer: src/hob3l/csg2-tree.c (copying a 3D tree
    into a 2D tree of stacks), src/hob3l/csg2-layer.c (filling one layer of each stack),
    src/hob3l/csg2-bool.c 489-541 and 640-662 (the output stack), and the loop of
    src/hob3l/main.c 63-121 and 294-326.

    Slicing one object, the plane sweep and the triangulation are parameters (they are modelled in
    Ball_model.v, Slice_model.v, Sweep_model.v, Snap_model.v, Poly_model.v); flattening is that of
    Lazy_model.v.  Not modelled: source locations, memory reuse (csg2-bool.c says it may clear layer
    zi of its input; no other layer is reachable from there), output. *)
From Coq Require Import List Arith Bool.
From Verif Require Import Bitmap_model Lazy_model.
Import ListNotations.

Section Layer.

(** leaves of 3D trees: CP_CSG3_SPHERE and CP_CSG3_POLY (include/hob3l/csg3_tam.h) *)
Variable obj : Type.
(** a z coordinate *)
Variable zt : Type.
(** [cp_csg2_vline2_t] *)
Variable region : Type.

(** csg2-layer.c 19-47 and 49-151 [csg2_add_layer_poly], [csg2_add_layer_sphere], and the switch in
    231-242: the object pushed, if any *)
Variable slice : obj -> zt -> option region.

(** 3D trees (include/hob3l/csg_tam.h, csg3_tam.h); operands of SUB, CUT and XOR are ADD nodes,
    given by their list of children *)
Inductive csg3 :=
  | T3Obj (o : obj)
  | T3Add (add : list csg3)
  | T3Sub (add sub : list csg3)
  | T3Cut (cut : list (list csg3))
  | T3Xor (xor : list (list csg3)).

(** [cp_csg2_layer_t] (include/hob3l/csg2_tam.h): field zi, and root: NULL or the children of an ADD *)
Definition layer := (nat * option (list region))%type.

(** 2D trees of stacks, as made by csg2-tree.c: a stack is [csg3], [idx0], [layer] *)
Inductive tree :=
  | TStack (d : obj) (idx0 : nat) (layers : list layer)
  | TAdd (add : list tree)
  | TSub (add sub : list tree)
  | TCut (cut : list (list tree))
  | TXor (xor : list (list tree)).

(** csg2-tree.c 31-145 [csg2_tree_from_csg3] with all it calls; [cnt] is [s->cnt].  The layers are
    zeroed (98-112). *)
Fixpoint from_csg3 (cnt : nat) (d : csg3) : tree :=
  match d with
  | T3Obj o => TStack o 0 (repeat (0, None) cnt)
  | T3Add add => TAdd (map (from_csg3 cnt) add)
  | T3Sub add sub => TSub (map (from_csg3 cnt) add) (map (from_csg3 cnt) sub)
  | T3Cut cut => TCut (map (map (from_csg3 cnt)) cut)
  | T3Xor xor => TXor (map (map (from_csg3 cnt)) xor)
  end.

(** csg2-tree.c 177-203 [cp_csg2_tree_from_csg3]: [None] is [d->root == NULL].  The result is the
    list of children of the root, and the z values (190-193; [zof i] is
    [s->min + s->step * i]). *)
Definition tree_from_csg3 (cnt : nat) (zof : nat -> zt) (root : option (list csg3)) : list tree * list zt :=
  (match root with None => [] | Some add => map (from_csg3 cnt) add end, map zof (seq 0 cnt)).

(** write one element of a vector *)
Fixpoint put {A} (l : list A) (i : nat) (x : A) : list A :=
  match l, i with
  | [], _ => []
  | _ :: l', O => x :: l'
  | y :: l', S i' => y :: put l' i' x
  end.

(** csg2-layer.c 303-315 [cp_csg2_stack_get_layer]: the index into the layers *)
Definition get_layer (idx0 : nat) (layers : list layer) (zi : nat) : option nat :=
  if negb (idx0 <=? zi) then None
  else if negb (zi - idx0 <? length layers) then None
  else Some (zi - idx0).

(** csg2-layer.c 213-249 [csg2_add_layer_stack]; csg2-tree.c 157-167 [cp_csg_add_init_perhaps]:
    an existing root is kept *)
Definition add_stack (z : zt) (zi : nat) (no : bool) (d : obj) (idx0 : nat) (layers : list layer) : bool * tree :=
  match get_layer idx0 layers zi with
  | None => (no, TStack d idx0 layers)
  | Some i =>
      let root := match nth i layers (0, None) with (_, None) => [] | (_, Some l) => l end in
      let root' := match slice d z with None => root | Some r => root ++ [r] end in
      (no || (0 <? length root'), TStack d idx0 (put layers i (zi, Some root')))
  end.

(** a loop over a vector that passes [no] on: csg2-layer.c 162-164, 196-198, 208-210 *)
Definition each {A} (f : A -> bool -> bool * A) : list A -> bool -> bool * list A :=
  fix each l no :=
  match l with
  | [] => (no, [])
  | x :: l' =>
      let (no1, x') := f x no in
      let (no2, l'') := each l' no1 in
      (no2, x' :: l'')
  end.

(** csg2-layer.c 251-284 [csg2_add_layer] with the functions it calls: 155-211 *)
Fixpoint add_layer (z : zt) (zi : nat) (c : tree) (no : bool) : bool * tree :=
  match c with
  | TStack d idx0 layers => add_stack z zi no d idx0 layers
  | TAdd add =>
      let (no', add') := each (add_layer z zi) add no in (no', TAdd add')
  | TXor xor =>
      let (no', xor') := each (each (add_layer z zi)) xor no in (no', TXor xor')
  | TSub add sub =>
      (* 176-186 *)
      let (add_no, add') := each (add_layer z zi) add false in
      if add_no
      then let (no', sub') := each (add_layer z zi) sub true in (no', TSub add' sub')
      else (no, TSub add' sub)
  | TCut cut =>
      let (no', cut') := each (each (add_layer z zi)) cut no in (no', TCut cut')
  end.

(** csg2-layer.c 331-341 [cp_csg2_tree_add_layer]; [None]: failing assertion *)
Definition tree_add_layer (t : list tree * list zt) (zi : nat) : option (list tree * list zt) :=
  match nth_error (snd t) zi with
  | None => None
  | Some z => Some (snd (each (add_layer z zi) (fst t) false), snd t)
  end.

(** The tree as flattening sees it: the leaves in the layers are CP_CSG2_VLINE2 objects. *)
Definition view_layer (l : layer) : nat * option (list (csg region)) :=
  match l with
  | (lzi, None) => (lzi, None)
  | (lzi, Some rs) => (lzi, Some (map (CVline2 region) rs))
  end.

Fixpoint to_csg (t : tree) : csg region :=
  match t with
  | TStack _ idx0 layers => CStack region idx0 (map view_layer layers)
  | TAdd add => CAdd region (map to_csg add)
  | TSub add sub => CSub region (map to_csg add) (map to_csg sub)
  | TCut cut => CCut region (map (map to_csg) cut)
  | TXor xor => CXor region (map (map to_csg) xor)
  end.

(** parameters of Lazy_model.v *)
Variable sweep : Type.
Variable region_void : region -> bool.
Variable run_sweep : list (item region sweep) -> (nat -> bool) -> sweep.
Variable sweep_empty : sweep -> bool.

(** [cp_csg2_poly_t]; src/hob3lop/op-trianglify.c [cq_sweep_trianglify] ([None]: error); the number of
    points *)
Variable poly : Type.
Variable trianglify : sweep -> option poly.
Variable points : poly -> nat.

(** the output tree: layers of its single stack (zi, root), flags (only CP_CSG2_FLAG_NON_EMPTY), z *)
Record out := mk_out {
  o_layer : list (nat * option (list poly));
  o_flag : list bool;
  o_z : list zt }.

(** csg2-bool.c 640-662 [cp_csg2_op_tree_init] *)
Definition op_tree_init (t : list tree * list zt) : out :=
  let cnt := length (snd t) in
  mk_out (repeat (0, None) cnt) (repeat false cnt) (snd t).

(** [Crash]: failing assertion; [Error]: the function returned false; [Done] *)
Inductive res (A : Type) := Crash | Error | Done (x : A).
Arguments Crash {A}. Arguments Error {A}. Arguments Done {A} x.

(** csg2-bool.c 489-541 [cp_csg2_op_flatten_layer] *)
Definition op_flatten_layer (opt : csg_opt) (r : out) (a : list tree) (zi : nat) : res out :=
  if negb (zi <? length (o_layer r)) then Crash else
  match flatten_layer region sweep region_void run_sweep sweep_empty opt zi (to_csg (TAdd a)) with
  | None => Crash
  | Some None => Done r
  | Some (Some s) =>
      match trianglify s with
      | None => Error
      | Some q =>
          if negb (0 <? points q) then Crash else
          let root := match nth zi (o_layer r) (0, None) with (_, None) => [] | (_, Some l) => l end in
          Done (mk_out (put (o_layer r) zi (zi, Some (root ++ [q]))) (put (o_flag r) zi true) (o_z r))
      end
  end.

(** one turn of main.c 92-118 [process_stack_csg] *)
Definition turn (opt : csg_opt) (no_csg : bool) (st : (list tree * list zt) * out) (zi : nat)
  : res ((list tree * list zt) * out) :=
  match tree_add_layer (fst st) zi with
  | None => Crash
  | Some t =>
      if no_csg then Done (t, snd st) else
      match op_flatten_layer opt (snd st) (fst t) zi with
      | Crash => Crash
      | Error => Error
      | Done r => Done (t, r)
      end
  end.

(** main.c 82-121 [process_stack_csg]: the loop, over the indices that [next_i] (63-74) hands out *)
Fixpoint process (opt : csg_opt) (no_csg : bool) (st : (list tree * list zt) * out) (zis : list nat)
  : res ((list tree * list zt) * out) :=
  match zis with
  | [] => Done st
  | zi :: zis' =>
      match turn opt no_csg st zi with
      | Crash => Crash
      | Error => Error
      | Done st' => process opt no_csg st' zis'
      end
  end.

(** main.c 303-326: [zis] is the order in which the layers are processed *)
Definition run_in (opt : csg_opt) (no_csg : bool) (cnt : nat) (zof : nat -> zt) (root : option (list csg3))
  (zis : list nat) : res ((list tree * list zt) * out) :=
  let t := tree_from_csg3 cnt zof root in
  process opt no_csg (t, op_tree_init t) zis.

(** the order of main.c: [next_i] counts up from 0 to [range.cnt] *)
Definition run_layers (opt : csg_opt) (no_csg : bool) (cnt : nat) (zof : nat -> zt) (root : option (list csg3)) :=
  run_in opt no_csg cnt zof root (seq 0 cnt).

End Layer.

Arguments Crash {A}. Arguments Error {A}. Arguments Done {A} x.

(** Model of the lazy flattening of 2D CSG trees (src/hob3l/csg2-bool.c).

    Polygons and sweep structures are opaque here: the section takes the plane sweep
    as a parameter (what it must satisfy is in Lazy_spec.v).  Modelled is everything csg2-bool.c
    does itself: which polygons are collected, how the combination table is built, when
    intermediate results are materialised, and every assertion.  Not modelled: memory reuse,
    source locations, error reporting of triangulation. *)
From Coq Require Import List NArith Arith Bool.
From Verif Require Import Bitmap_model.
Import ListNotations.

Section Lazy.

(** payload of a CP_CSG2_VLINE2 or CP_CSG2_POLY object, and of a CP_CSG2_SWEEP object *)
Variable region : Type.
Variable sweep : Type.

(** [a->q.size == 0] / [a->q.point.size == 0] (csg2-bool.c 154, 166) *)
Variable region_void : region -> bool.

(** csg2-bool.c 37-45: a polygon of a lazy structure *)
Inductive item :=
  | IVline2 (r : region)
  | IPoly (r : region)
  | ISweep (s : sweep).

(** csg2-bool.c 100-133: cq_sweep_new, the cq_sweep_add_* calls with member bit i for item i,
    cq_sweep_intersect, cq_sweep_reduce with the table, which is read at indices below 1 << size;
    and cq_sweep_empty (135) *)
Variable run_sweep : list item -> (nat -> bool) -> sweep.
Variable sweep_empty : sweep -> bool.

(** csg2-bool.c 29-53 [cp_csg2_lazy_t].  [data] has exactly [size] entries here. *)
Record lazy := mk_lazy { data : list item; comb : mem }.

Definition lsize (l : lazy) : nat := length (data l).

(** [{ 0 }] *)
Definition zero_mem : mem := fun _ => 0%N.
Definition lazy0 : lazy := mk_lazy [] zero_mem.

(** include/hob3l/csg2_tam.h: cp_csg2_bool_mode_t *)
Inductive mode := MODE_VLINE2 | MODE_PATH | MODE_TRI.

(** the two fields of cp_csg_opt_t used (include/hob3l/csg_tam.h 87, 109-123) *)
Record csg_opt := mk_opt { max_simultaneous : nat; skip_empty : bool }.

(** csg2-bool.c 81-145 [flatten_eager] *)
Definition flatten_eager (r : lazy) (m : mode) : lazy :=
  let go :=
    let s := run_sweep (data r) (bitmap_get (comb r)) in
    if sweep_empty s
    then mk_lazy [] (comb r)
    else mk_lazy [ISweep s] (upd (comb r) 0 2%N) in
  match data r with
  | [] => r
  | [ISweep _] => r
  | [IVline2 _] => match m with MODE_VLINE2 => r | _ => go end
  | _ => go
  end.

(** csg2-bool.c 149-171 [flatten_lazy_vline2], [flatten_lazy_poly] *)
Definition flatten_lazy_leaf (r : region) (i : item) : lazy :=
  if region_void r then lazy0 else mk_lazy [i] (upd zero_mem 0 2%N).

(** csg2-bool.c 439-465: the part of [flatten_lazy] after the loop; [None]: failing assertion *)
Definition lazy_append (r b : lazy) (op : bool_op) : option lazy :=
  if negb (lsize r + lsize b <=? max_lazy) then None else
  match bitmap_repeat (comb r) (lsize r) (lsize b) with
  | None => None
  | Some rc =>
  match bitmap_spread (comb b) (lsize b) (lsize r) with
  | None => None
  | Some bc =>
    Some (mk_lazy (data r ++ data b) (bitmap_combine rc bc (lsize r + lsize b) op))
  end end.

(** csg2-bool.c 409-437: the loop; [n] = 3 - loop.  [None]: failing assertion *)
Fixpoint lazy_loop (n : nat) (opt : csg_opt) (r b : lazy) (op : bool_op) : option lazy :=
  match n with
  | O => lazy_append r b op
  | S n' =>
    if skip_empty opt && (lsize b =? 0) then
      Some (match op with OP_CUT => lazy0 | _ => r end)
    else if skip_empty opt && (lsize r =? 0) then
      Some (match op with OP_ADD | OP_XOR => b | _ => r end)
    else if lsize r + lsize b <=? Nat.min (max_simultaneous opt) max_lazy then
      lazy_append r b op
    else if negb (3 - n <? 2) then None
    else if lsize b <? lsize r then
      let r' := flatten_eager r MODE_VLINE2 in
      if lsize r' <=? 1 then lazy_loop n' opt r' b op else None
    else
      let b' := flatten_eager b MODE_VLINE2 in
      if lsize b' <=? 1 then lazy_loop n' opt r b' op else None
  end.

(** csg2-bool.c 400-466 [flatten_lazy] *)
Definition flatten_lazy (opt : csg_opt) (r b : lazy) (op : bool_op) : option lazy :=
  if negb (2 <=? max_simultaneous opt) then None else lazy_loop 3 opt r b op.

(** 2D CSG trees as they occur in flattening: include/hob3l/csg_tam.h (ADD, XOR, SUB, CUT) and
    csg2_tam.h (VLINE2, POLY, STACK).  The operands of XOR, SUB, CUT are ADD nodes, given here by
    their list of children.  A stack has its first layer index and its layers, each of
    which has its zi field and a root ADD node or NULL. *)
Inductive csg :=
  | CVline2 (r : region)
  | CPoly (r : region)
  | CStack (idx0 : nat) (layers : list (nat * option (list csg)))
  | CAdd (add : list csg)
  | CXor (xor : list (list csg))
  | CSub (add sub : list csg)
  | CCut (cut : list (list csg)).

(** csg2-bool.c 191-209, 221-239, 241-259: left fold: the first operand initialises o, every other
    one is combined with o *)
Fixpoint fold_lazy (opt : csg_opt) (op : bool_op) (o : lazy) (xs : list (option lazy)) : option lazy :=
  match xs with
  | [] => Some o
  | None :: _ => None
  | Some x :: xs' =>
      match flatten_lazy opt o x op with
      | None => None
      | Some o' => fold_lazy opt op o' xs'
      end
  end.

Definition fold_lazy1 (opt : csg_opt) (op : bool_op) (xs : list (option lazy)) : option lazy :=
  match xs with
  | [] => Some lazy0
  | None :: _ => None
  | Some x :: xs' => fold_lazy opt op x xs'
  end.

(** csg2-bool.c 308-350 [flatten_lazy_rec] with the functions it calls: 191-219, 221-306;
    src/hob3l/csg2-layer.c 303-315 [cp_csg2_stack_get_layer] *)
Fixpoint flatten_rec (opt : csg_opt) (zi : nat) (a : csg) : option lazy :=
  let v_csg2 (l : list csg) := fold_lazy1 opt OP_ADD (map (flatten_rec opt zi) l) in
  match a with
  | CVline2 r => Some (flatten_lazy_leaf r (IVline2 r))
  | CPoly r => Some (flatten_lazy_leaf r (IPoly r))
  | CStack idx0 layers =>
      if negb (idx0 <=? zi) then Some lazy0 else
      match nth_error (map (fun l => match l with
                            | (lzi, None) => (lzi, Some lazy0)
                            | (lzi, Some root) =>
                                (lzi, v_csg2 root)
                            end) layers) (zi - idx0) with
      | None => Some lazy0
      | Some (lzi, x) =>
          if negb (zi =? lzi) then (if lzi =? 0 then Some lazy0 else None) else x
      end
  | CAdd add => v_csg2 add
  | CXor xor => fold_lazy1 opt OP_XOR (map v_csg2 xor)
  | CSub add sub =>
      match v_csg2 add with
      | None => None
      | Some o =>
      match v_csg2 sub with
      | None => None
      | Some os => flatten_lazy opt o os OP_SUB
      end end
  | CCut cut => fold_lazy1 opt OP_CUT (map v_csg2 cut)
  end.

(** csg2-bool.c 489-541 [cp_csg2_op_flatten_layer] until triangulation:
    [None]: failing assertion; [Some None]: empty layer; [Some (Some s)]: sweep result. *)
Definition flatten_result (m : mode) (l : option lazy) : option (option sweep) :=
  match l with
  | None => None
  | Some ol =>
    match data (flatten_eager ol m) with
    | [] => Some None
    | [ISweep s] => Some (Some s)
    | _ => None
    end
  end.

Definition flatten_layer (opt : csg_opt) (zi : nat) (root : csg) : option (option sweep) :=
  flatten_result MODE_TRI (flatten_rec opt zi root).

(** csg2-bool.c 561-628 [cp_csg2_flatten] until path construction; [m] is MODE_PATH or
    MODE_TRI (others assert-fail at 599) *)
Definition csg2_flatten (opt : csg_opt) (root : list csg) (m : mode) : option (option sweep) :=
  match root with
  | [] => Some None
  | _ =>
    match m with
    | MODE_VLINE2 => None
    | _ => flatten_result m (fold_lazy1 opt OP_ADD (map (flatten_rec opt 0) root))
    end
  end.

End Lazy.

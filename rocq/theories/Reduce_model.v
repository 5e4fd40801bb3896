(** Model of the reduction pass of the polygon operations: cq_sweep_reduce of src/hob3lop/op-sweep-reduce.c, with the
    comparison functions of op-sweep.c and the operations on the sweep line of op-sweep-internal.h.

    Edges are identified with numbers; the geometry of an edge and the polygons it belongs to are functions of this number.
    The dictionaries data->result and data->state are the sequences of their elements in order (that the dictionary functions
    keep this sequence is shown for the model of the dictionary, Dict_props.v).  Coordinates are unbounded (that the
    products do not overflow for int coordinates is shown for the model of matq.h, Matq_props.v); size_t is [N] (only
    xor is used).  Tracing is left out. *)
From Coq Require Import ZArith NArith List Bool.
Import ListNotations.
Open Scope Z_scope.

Notation vec2 := (Z * Z)%type.
(** op-sweep-internal.h 164-241 [edge]: left and rigt ends, and member *)
Record edge := mk_edge { left : vec2; rigt : vec2; member : N }.

(** op-sweep-internal.h 570-586 [dim2_cmp], [vec2_cmp] *)
Definition cp_cmp (a b : Z) : Z := if a <? b then -1 else if b <? a then 1 else 0.
Definition vec2_cmp (a b : vec2) : Z :=
  let i := cp_cmp (fst a) (fst b) in
  if negb (i =? 0) then i else cp_cmp (snd a) (snd b).

(** matq.h 313-339 [cq_right_cross3_z], [cq_vec2_right_cross3_z] *)
Definition cross3_z (a o b : vec2) : Z :=
  (fst a - fst o) * (snd b - snd o) - (snd a - snd o) * (fst b - fst o).
Definition sign (x : Z) : Z := cp_cmp x 0.

(** op-sweep-internal.h 845-850 [vec2_edge_cmp_exact] *)
Definition vec2_edge_cmp_exact (v : vec2) (e : edge) : Z := sign (cross3_z v (rigt e) (left e)).

(** vertices: LEFT is 0, RIGT is 1 *)
Notation vertex := (nat * bool)%type.
Definition LEFT : bool := false.
Definition RIGT : bool := true.

Section Reduce.
Variable E : nat -> edge.

Definition coord (v : vertex) : vec2 := if snd v then rigt (E (fst v)) else left (E (fst v)).
(** op-sweep-internal.h 533-538 [other_end] *)
Definition other_end (v : vertex) : vec2 := if snd v then left (E (fst v)) else rigt (E (fst v)).
Definition side (v : vertex) : Z := if snd v then 1 else 0.

(** op-sweep.c 7-36 [cq_sweep_result_vertex_cmp], except for the assertion for equality *)
Definition result_vertex_cmp (a b : vertex) : Z :=
  let i := vec2_cmp (coord a) (coord b) in
  if negb (i =? 0) then i else
  let i := cp_cmp (side b) (side a) in
  if negb (i =? 0) then i else
  sign (cross3_z (other_end b) (coord a) (other_end a)).

(** op-sweep.c 38-80 [cq_sweep_tree_vertex_edge_cmp], for the left vertex of edge [n] *)
Definition tree_vertex_edge_cmp (n : nat) (e : nat) : Z :=
  let v := left (E n) in
  let i := vec2_edge_cmp_exact v (E e) in
  if negb (i =? 0) then i else
  let i := sign (cross3_z (rigt (E e)) v (rigt (E n))) in
  if negb (i =? 0) then i else
  if vec2_cmp v (rigt (E e)) =? 0 then -1 else 0.

(** dict.c cp_dict_insert_by, without duplicates: where the new element goes in the sequence of elements: after those for
    which the comparison is positive; None if there is an equal one *)
Fixpoint insert_by (cmp : nat -> Z) (l : list nat) : option (list nat * list nat) :=
  match l with
  | [] => Some ([], [])
  | x :: l =>
    let i := cmp x in
    if i =? 0 then None else
    if i <? 0 then Some ([], x :: l) else
    match insert_by cmp l with
    | Some (a, b) => Some (x :: a, b)
    | None => None
    end
  end.

(** The data: the sweep line, the fields that the pass writes, and the result *)
Record data := mk_data { state : list nat; mem : nat -> N; below : nat -> N; keep : nat -> bool; result : list vertex }.

Definition upd {A} (f : nat -> A) (i : nat) (x : A) : nat -> A := fun j => if Nat.eqb j i then x else f j.
Definition vertex_eqb (a b : vertex) : bool := Nat.eqb (fst a) (fst b) && Bool.eqb (snd a) (snd b).
(** op-sweep-internal.h 888-895 [result_remove] *)
Definition result_remove (v : vertex) (l : list vertex) : list vertex := filter (fun x => negb (vertex_eqb x v)) l.
(** op-sweep-internal.h 981-992 [state_edge_remove] *)
Definition state_edge_remove (e : nat) (l : list nat) : list nat := filter (fun x => negb (Nat.eqb x e)) l.

(** op-sweep-reduce.c 29-36 [comb_eval]: None is the failing assertion *)
Definition comb_eval (comb : N -> bool) (comb_size i : N) : option bool :=
  if (i <? comb_size)%N then Some (comb i) else None.

(** op-sweep-reduce.c 45-81: the body of the loop.  None: an assertion fails. *)
Definition event (comb : N -> bool) (comb_size : N) (v : vertex) (d : data) : option data :=
  let e := fst v in
  if negb (snd v) then
    match insert_by (tree_vertex_edge_cmp e) (state d) with
    | None => None
    | Some (lo, hi) =>
      let bel := match rev lo with [] => 0%N | p :: _ => N.lxor (below d p) (mem d p) end in
      let above := N.lxor bel (mem d e) in
      match comb_eval comb comb_size bel, comb_eval comb comb_size above with
      | Some x, Some y =>
        let k := xorb x y in
        Some (mk_data (lo ++ e :: hi) (mem d) (upd (below d) e bel) (upd (keep d) e k)
          (if negb k then result_remove (e, LEFT) (result d) else result d))
      | _, _ => None
      end
    end
  else
    if negb (existsb (Nat.eqb e) (state d)) then None else
    Some (mk_data (state_edge_remove e (state d)) (upd (mem d) e 0%N) (upd (below d) e 0%N) (upd (keep d) e false)
      (if negb (keep d e) then result_remove v (result d) else result d)).

Fixpoint events (comb : N -> bool) (comb_size : N) (l : list vertex) (d : data) : option data :=
  match l with
  | [] => Some d
  | v :: l => match event comb comb_size v d with Some d => events comb comb_size l d | None => None end
  end.

(** op-sweep-reduce.c 38-87 [cq_sweep_reduce]: the loop goes over the elements of the dictionary, of which only the current one
    may be removed.  The fields below and keep have any value at the beginning. *)
Definition reduce (comb : N -> bool) (comb_size : N) (below keep0 : nat -> _) (res : list vertex) : option (list vertex) :=
  match events comb comb_size res (mk_data [] (fun e => member (E e)) below keep0 res) with
  | Some d => Some (result d)
  | None => None
  end.
End Reduce.

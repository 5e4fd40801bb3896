(** Model of the construction of paths from edges: src/hob3lop/op-poly.c, with the functions of op-sweep-internal.h that it uses.

    The input is the sequence of the elements of the dictionary data->result (a sequence of ends of edges, see Reduce_model.v), and
    the result r is empty at the beginning, as the comment of cq_sweep_poly requires.  Edges are identified with numbers.  The
    dictionary data->state is the sequence of its elements.  The lists of edges are the rings of List_model.v: the node of an edge
    is its number, next is edge[0], prev is edge[1].  Exported coordinates of points are the integer coordinates (the conversion to
    floating point numbers is left out).  Point numbers are natural numbers below 2^32 - 1; the marks [aux1] and the offset
    [path_idx_offs] are 32 bit numbers with wrap around.  Tracing is left out. *)
From Coq Require Import ZArith List Bool.
From Verif Require Import List_model Reduce_model.
Import ListNotations.
Open Scope Z_scope.

(** [Fails]: an assertion fails, or the fuel for the loop over a ring is not enough; [Hole]: "Found hole in polygon" *)
Inductive outcome (A : Type) := Done (x : A) | Fails | Hole.
Arguments Done {A} x.
Arguments Fails {A}.
Arguments Hole {A}.
Definition bind {A B} (x : outcome A) (f : A -> outcome B) : outcome B :=
  match x with Done a => f a | Fails => Fails | Hole => Hole end.
Definition check {A} (b : bool) (x : outcome A) : outcome A := if b then x else Fails.

Definition u32 (x : Z) : Z := x mod 2 ^ 32.
Fixpoint set_at {A} (n : nat) (x : A) (l : list A) : list A :=
  match l, n with
  | [], _ => []
  | _ :: l, O => x :: l
  | y :: l, S n => y :: set_at n x l
  end.

(** The polygon under construction: gon_tam.h 240-245, coordinates and field aux1 of each point; the point numbers of each path *)
Record gon := mk_gon { points : list vec2; aux : nat -> Z; paths : list (list nat) }.

(** op-poly.c 25-60 [cq_sweep_poly_append] *)
Definition append (vi : nat) (offs : Z) (pi : nat) (r : gon) : outcome gon :=
  match nth_error (paths r) vi with
  | None => Fails
  | Some v =>
    check (pi <? length (points r))%nat
    (let path_idx := u32 (aux r pi - offs) in
     if Z.of_nat (length v) <=? path_idx then
       Done (mk_gon (points r) (upd (aux r) pi (u32 (Z.of_nat (length v) + offs))) (set_at vi (v ++ [pi]) (paths r)))
     else
       let k := Z.to_nat path_idx in
       match nth_error v k with
       | None => Fails
       | Some q =>
         check (q =? pi)%nat
         (let w := skipn k v in
          Done (mk_gon (points r) (fold_left (fun a i => upd a i (u32 (offs - 1))) (tl w) (aux r))
            (set_at vi (firstn (k + 1) v) (paths r) ++ [w])))
       end)
  end.

Definition vec2_eq (a b : vec2) : bool := (fst a =? fst b) && (snd a =? snd b).

(** op-sweep-internal.h 1798-1832 [point_idx_init], [point_idx_get]: the state is the last point and the index of the search, [None]
    for ~0U; the fuel is the number of points *)
Definition pstate := (vec2 * option nat)%type.
Definition point_idx_init : pstate := ((0, 0), Some O).
Fixpoint pt_search (fuel : nat) (pts : list vec2) (t : vec2) (st : pstate) : pstate * option nat :=
  match snd st with
  | None => (st, None)
  | Some i =>
    match nth_error pts i with
    | None => ((fst st, None), None)
    | Some q =>
      if vec2_eq q t then ((q, Some i), Some i)
      else match fuel with O => ((q, None), None) | S fuel => pt_search fuel pts t (q, Some (S i)) end
    end
  end.
Definition point_idx_get (r : gon) (t : vec2) (st : pstate) : outcome (gon * pstate * nat) :=
  match pt_search (length (points r)) (points r) t st with
  | (st, Some i) => Done (r, st, i)
  | ((last, i), None) =>
    let '(r, last) :=
      if (length (points r) =? 0)%nat || negb (vec2_eq last t)
      then (mk_gon (points r ++ [t]) (upd (aux r) (length (points r)) 0) (paths r), t) else (r, last) in
    check (0 <? length (points r))%nat
    (check (Z.of_nat (length (points r)) <? 2 ^ 32 - 1) (Done (r, (last, i), (length (points r) - 1)%nat)))
  end.

(** The sequence data->state: op-sweep-internal.h 919-939 [state_edge_is_member] and tree_edge_next, tree_edge_prev *)
Definition member_of (e : nat) (l : list nat) : bool := existsb (Nat.eqb e) l.
Fixpoint succ_of (e : nat) (l : list nat) : option nat :=
  match l with
  | x :: (y :: _) as r => if (x =? e)%nat then Some y else succ_of e r
  | _ => None
  end.
Fixpoint pred_of (e : nat) (l : list nat) : option nat :=
  match l with
  | x :: (y :: _) as r => if (y =? e)%nat then Some x else pred_of e r
  | _ => None
  end.
Definition opt_is (o : option nat) (e : nat) : bool := match o with Some x => (x =? e)%nat | None => false end.

(** The fields of edges and the data of the loop *)
Record pdata := mk_pdata {
  line : list nat;              (* data->state *)
  back : nat -> bool;           (* edge: back *)
  rings : heap;                 (* edge: list *)
  pidx : nat * bool -> nat;     (* vertex: point_idx *)
  out : gon;                    (* r *)
  offs : Z;                     (* path_idx_offs *)
  pts : pstate                  (* last_pt, idx *)
}.
Definition set_line x d := mk_pdata x (back d) (rings d) (pidx d) (out d) (offs d) (pts d).
Definition set_back x d := mk_pdata (line d) x (rings d) (pidx d) (out d) (offs d) (pts d).
Definition set_rings x d := mk_pdata (line d) (back d) x (pidx d) (out d) (offs d) (pts d).
Definition set_out x o d := mk_pdata (line d) (back d) (rings d) (pidx d) x o (pts d).

Section Poly.
Variable E : nat -> edge.

(** op-sweep-internal.h 921-948 [state_edge_insert_successfully] *)
Definition state_edge_insert (e : nat) (d : pdata) : outcome pdata :=
  check (negb (member_of e (line d)))
  match insert_by (tree_vertex_edge_cmp E e) (line d) with
  | None => Fails
  | Some (lo, hi) => Done (set_line (lo ++ e :: hi) d)
  end.
(** op-sweep-internal.h 965-979 [state_edge_replace] *)
Definition state_edge_replace (a b : nat) (d : pdata) : outcome pdata :=
  check (negb (a =? b)%nat && member_of a (line d) && negb (member_of b (line d)))
  (Done (set_line (map (fun x => if (x =? a)%nat then b else x) (line d)) d)).
(** op-sweep-internal.h 981-992 [state_edge_remove] *)
Definition state_remove (e : nat) (d : pdata) : outcome pdata :=
  check (member_of e (line d)) (Done (set_line (state_edge_remove e (line d)) d)).

(** op-sweep-internal.h 1454-1476 [list_edge_init], [list_edge_init2] *)
Definition list_edge_init (e : nat) (d : pdata) : pdata := set_rings (init (rings d) e) d.
Definition list_edge_init2 (a b : nat) (d : pdata) : outcome pdata :=
  check (xorb (back d a) (back d b) && vec2_eq (left (E a)) (left (E b)))
  (let d := list_edge_init b (list_edge_init a d) in Done (set_rings (chain (rings d) a b) d)).
Definition nontrivial (h : heap) (e : nat) : bool := negb (next h e =? e)%nat && negb (prev h e =? e)%nat.
Definition trivial (h : heap) (e : nat) : bool := (next h e =? e)%nat && (prev h e =? e)%nat.
(** op-sweep-internal.h 1478-1509 [list_edge_insert] *)
Definition list_edge_insert (a b : nat) (d : pdata) : outcome pdata :=
  let h := rings d in
  check (nontrivial h a && trivial h b && negb (xorb (back d a) (back d b)) && vec2_eq (rigt (E a)) (left (E b)))
  (if back d a
   then let h := chain h b a in check (prev h a =? b)%nat (Done (set_rings h d))
   else let h := chain h a b in check (next h a =? b)%nat (Done (set_rings h d))).
(** op-sweep-internal.h 1517-1548 [list_edge_merge] *)
Definition list_edge_merge (a b : nat) (d : pdata) : outcome pdata :=
  let h := rings d in
  check (nontrivial h a && nontrivial h b && xorb (back d a) (back d b) && vec2_eq (rigt (E a)) (rigt (E b)))
  (if back d a
   then let h := chain h b a in check (prev h a =? b)%nat (Done (set_rings h d))
   else let h := chain h a b in check (next h a =? b)%nat (Done (set_rings h d))).
(** e->list.edge[dir] *)
Definition link (h : heap) (dir : bool) (e : nat) : nat := if dir then prev h e else next h e.
(** op-sweep-internal.h 1563-1569 [list_edge_get_end] of the target *)
Definition target (d : pdata) (e : nat) : nat * bool := (e, negb (back d e)).

(** op-poly.c 206-216: the loop over the ring; also counts *)
Fixpoint ring_loop (fuel : nat) (d : pdata) (vi : nat) (offs : Z) (e first n : nat) (cnt : Z) (r : gon) : outcome (gon * Z) :=
  match fuel with
  | O => Fails
  | S fuel =>
    let nn := next (rings d) n in
    let pi := pidx d (target d n) in
    if (nn =? e)%nat then check (pi =? first)%nat (Done (r, cnt)) else
    bind (append vi offs pi r) (fun r => ring_loop fuel d vi offs e first nn (u32 (cnt + 1)) r)
  end.
(** op-poly.c 194-217: output of a path *)
Definition output (fuel : nat) (es et : nat) (d : pdata) : outcome pdata :=
  let o := u32 (offs d + 3) in
  let e := if back d es then es else et in
  check (back d e)
  (let vi := length (paths (out d)) in
   let r := mk_gon (points (out d)) (aux (out d)) (paths (out d) ++ [[]]) in
   let first := pidx d (e, RIGT) in
   bind (append vi o first r) (fun r =>
   bind (append vi o (pidx d (e, LEFT)) r) (fun r =>
   let n := next (rings d) e in
   check (negb (e =? n)%nat)
   (bind (ring_loop fuel d vi o e first n 0 r) (fun x =>
    Done (set_out (fst x) (u32 (o + snd x)) d)))))).

(** op-poly.c 125-229: a pair of ends *)
Definition pair_event (fuel : nat) (s t : nat * bool) (d : pdata) : outcome pdata :=
  if negb (vec2_eq (coord E s) (coord E t)) then Hole else
  let es := fst s in
  let et := fst t in
  check (negb (es =? et)%nat)
  (if xorb (snd s) (snd t) then
     (* BEND *)
     check (snd s && negb (snd t))
     (bind (state_edge_replace es et d) (fun d =>
      list_edge_insert es et (list_edge_init et (set_back (upd (back d) et (back d es)) d))))
   else if negb (snd s) then
     (* START *)
     bind (state_edge_insert es d) (fun d =>
     bind (state_edge_insert et d) (fun d =>
     check (opt_is (succ_of es (line d)) et)
     (let b := match pred_of es (line d) with None => true | Some er => negb (back d er) end in
      list_edge_init2 es et (set_back (upd (upd (back d) es b) et (negb b)) d))))
   else
     (* END *)
     check (xorb (back d es) (back d et) && opt_is (succ_of et (line d)) es)
     (if (link (rings d) (back d et) et =? es)%nat then
        bind (state_remove es d) (fun d =>
        bind (state_remove et d) (fun d =>
        check (link (rings d) (back d es) es =? et)%nat (output fuel es et d)))
      else
        bind (state_remove es d) (fun d =>
        bind (state_remove et d) (fun d =>
        list_edge_merge et es d)))).

(** op-poly.c 113-234: the loop; [s] is the pending end *)
Definition vupd {A} (f : nat * bool -> A) (v : nat * bool) (x : A) : nat * bool -> A := fun w => if vertex_eqb w v then x else f w.
Fixpoint poly_loop (fuel : nat) (l : list (nat * bool)) (s : option (nat * bool)) (d : pdata) : outcome pdata :=
  match l with
  | [] => Done d
  | t :: l =>
    bind (point_idx_get (out d) (coord E t) (pts d)) (fun x =>
    let '(r, st, i) := x in
    let d := mk_pdata (line d) (back d) (rings d) (vupd (pidx d) t i) r (offs d) st in
    match s with
    | None => poly_loop fuel l (Some t) d
    | Some s => bind (pair_event fuel s t d) (fun d => poly_loop fuel l None d)
    end)
  end.
(** op-poly.c 96-251 [cq_sweep_poly].  The fields of edges have any value at the beginning. *)
Definition poly (fuel : nat) (back0 : nat -> bool) (rings0 : heap) (pidx0 : nat * bool -> nat) (res : list (nat * bool)) : outcome gon :=
  bind (poly_loop fuel res None (mk_pdata [] back0 rings0 pidx0 (mk_gon [] (fun _ => 0) []) 0 point_idx_init)) (fun d => Done (out d)).
End Poly.

(** Model of the first phase of the polygon sweep, as far as it changes edges: src/hob3lop/op-sweep.c and op-sweep-internal.h.

    Edges are numbered; a new edge gets a new number (the code reuses the memory of deleted ones).  The agenda is the map from
    vertices to the coordinates at which they were put on the agenda (the code's dictionary compares coordinates of the edges, which
    are the same unless a vertex is not updated after a change).  The sweep line (data->state) is the set of its edges: which edges
    are neighbours is left open, i.e., any two edges on it may be tested for intersection, at any time.  Crossings at non-integer
    coordinates (xing_t) change no edges in this phase and are left out, together with tracing.  None is a failing
    assertion. *)
From Coq Require Import ZArith NArith List Bool Arith.
From Verif Require Import Matq_model Reduce_model.
Import ListNotations.
Open Scope Z_scope.

Record sdata := mk_sdata {
  count : nat;                                (** edges 0..count-1 have been made *)
  edges : nat -> option edge;                 (** None: deleted or not yet made *)
  agenda : nat -> bool -> option vec2;        (** edge, side *)
  on_line : nat -> bool                       (** data->state *)
}.
Definition fupd {A} (f : nat -> A) (i : nat) (x : A) : nat -> A := fun j => if Nat.eqb j i then x else f j.
Definition aupd (f : nat -> bool -> option vec2) (i : nat) (s : bool) (x : option vec2) : nat -> bool -> option vec2 :=
  fun j t => if Nat.eqb j i && Bool.eqb t s then x else f j t.

Definition op := sdata -> option sdata.
Definition seq_op (a b : op) : op := fun d => match a d with Some d => b d | None => None end.
Notation "a ;; b" := (seq_op a b) (at level 60, right associativity).
Definition check_op (c : sdata -> bool) : op := fun d => if c d then Some d else None.
(** Read an edge; a deleted edge fails (op-sweep-internal.h 645-668 [edge_is_deleted_debug]) *)
Definition with_edge (i : nat) (f : edge -> op) : op := fun d => match edges d i with Some e => f e d | None => None end.
Definition set_edge (i : nat) (f : edge -> edge) : op :=
  with_edge i (fun e d => Some (mk_sdata (count d) (fupd (edges d) i (Some (f e))) (agenda d) (on_line d))).

Definition set_left (i : nat) (v : vec2) : op := set_edge i (fun e => mk_edge v (rigt e) (member e)).
Definition set_rigt (i : nat) (v : vec2) : op := set_edge i (fun e => mk_edge (left e) v (member e)).
Definition set_member (i : nat) (m : N) : op := set_edge i (fun e => mk_edge (left e) (rigt e) m).
Definition coord_of (e : edge) (s : bool) : vec2 := if s then rigt e else left e.

(** op-sweep-internal.h 676-682 [agenda_vertex_is_member] *)
Definition is_some {A} (o : option A) : bool := match o with Some _ => true | None => false end.
Definition agenda_is_member (i : nat) (s : bool) (d : sdata) : bool := is_some (agenda d i s).
(** op-sweep-internal.h 1257-1267 [agenda_vertex_insert] *)
Definition agenda_insert (i : nat) (s : bool) : op :=
  check_op (fun d => negb (agenda_is_member i s d)) ;;
  with_edge i (fun e d => Some (mk_sdata (count d) (edges d) (aupd (agenda d) i s (Some (coord_of e s))) (on_line d))).
(** op-sweep-internal.h 1269-1277 [agenda_vertex_remove] *)
Definition agenda_remove (i : nat) (s : bool) : op :=
  check_op (agenda_is_member i s) ;;
  with_edge i (fun e d => Some (mk_sdata (count d) (edges d) (aupd (agenda d) i s None) (on_line d))).
(** op-sweep-internal.h 1284-1294 [agenda_vertex_update] *)
Definition agenda_update (i : nat) (s : bool) : op := agenda_remove i s ;; agenda_insert i s.

(** op-sweep-internal.h 966-978 [state_edge_replace] *)
Definition state_replace (a b : nat) : op :=
  check_op (fun d => on_line d a && negb (on_line d b)) ;;
  (fun d => Some (mk_sdata (count d) (edges d) (agenda d) (fupd (fupd (on_line d) a false) b true))).
(** op-sweep-internal.h 980-992 [state_edge_remove] *)
Definition state_remove (a : nat) : op :=
  check_op (fun d => on_line d a) ;;
  (fun d => Some (mk_sdata (count d) (edges d) (agenda d) (fupd (on_line d) a false))).

(** op-sweep-internal.h 773-790 [edge_delete] *)
Definition edge_delete (i : nat) : op :=
  with_edge i (fun _ => check_op (fun d => negb (on_line d i) && negb (agenda_is_member i false d) && negb (agenda_is_member i true d)) ;;
  (fun d => Some (mk_sdata (count d) (fupd (edges d) i None) (agenda d) (on_line d)))).
(** op-sweep-internal.h 806-840 [edge_new]: the new edge is number [count d] *)
Definition edge_new (l r : vec2) (m : N) : op :=
  check_op (fun _ => vec2_cmp l r <? 0) ;;
  (fun d => Some (mk_sdata (S (count d)) (fupd (edges d) (count d) (Some (mk_edge l r m))) (agenda d) (on_line d))).

(** matq.h [cq_vec2_sqr_dist] *)
Definition sqr_dist (a b : vec2) : Z := (fst a - fst b) * (fst a - fst b) + (snd a - snd b) * (snd a - snd b).
Definition vec2_eq (a b : vec2) : bool := (fst a =? fst b) && (snd a =? snd b).
(** assert(vec2_cmp(&e->left.vec2, &e->rigt.vec2) < 0) *)
Definition check_order (i : nat) : op := with_edge i (fun e => check_op (fun _ => vec2_cmp (left e) (rigt e) <? 0)).

(** op-sweep.c 357-483 [ev_overlap] *)
Definition ev_overlap (e o : nat) : op :=
  check_op (fun d => on_line d o) ;;
  check_op (fun d => negb (agenda_is_member o LEFT d)) ;;
  check_op (agenda_is_member o RIGT) ;;
  check_op (fun d => negb (on_line d e)) ;;
  check_op (fun d => negb (agenda_is_member e LEFT d)) ;;
  check_op (agenda_is_member e RIGT) ;;
  with_edge e (fun ee => with_edge o (fun oo =>
  let i := cp_cmp (sqr_dist (left ee) (rigt ee)) (sqr_dist (left ee) (rigt oo)) in
  let left_eq := vec2_eq (left oo) (left ee) in
  if i =? 0 then
    if left_eq then
      set_member o (N.lxor (member oo) (member ee)) ;;
      agenda_remove e RIGT ;;
      edge_delete e
    else
      set_member e (N.lxor (member ee) (member oo)) ;;
      set_rigt o (left ee) ;;
      check_order o ;;
      state_replace o e ;;
      agenda_remove o RIGT
  else if 0 <? i then
    if left_eq then
      set_member o (N.lxor (member oo) (member ee)) ;;
      set_left e (rigt oo) ;;
      check_order e ;;
      agenda_insert e LEFT
    else
      (fun d => let q := count d in (
      edge_new (rigt oo) (rigt ee) (member ee) ;;
      set_member e (N.lxor (member ee) (member oo)) ;;
      set_rigt e (rigt oo) ;;
      check_order e ;;
      set_rigt o (left ee) ;;
      check_order o ;;
      state_replace o e ;;
      agenda_update e RIGT ;;
      agenda_remove o RIGT ;;
      agenda_insert q LEFT ;;
      agenda_insert q RIGT) d)
  else
    if left_eq then
      set_member o (N.lxor (member oo) (member ee)) ;;
      set_member e (member oo) ;;
      set_left e (rigt ee) ;;
      set_rigt e (rigt oo) ;;
      check_order e ;;
      set_rigt o (rigt ee) ;;
      check_order o ;;
      agenda_update o RIGT ;;
      agenda_insert e LEFT ;;
      agenda_update e RIGT
    else
      (fun d => let q := count d in (
      set_member e (N.lxor (member ee) (member oo)) ;;
      edge_new (rigt ee) (rigt oo) (member oo) ;;
      set_rigt o (rigt ee) ;;
      set_rigt o (left ee) ;;
      check_order o ;;
      state_replace o e ;;
      agenda_remove o RIGT ;;
      agenda_insert q LEFT ;;
      agenda_insert q RIGT) d))).

(** op-sweep.c 485-503 [ev_split] *)
Definition ev_split (v : vec2) (o : nat) : op :=
  with_edge o (fun oo d => let q := count d in (
  edge_new v (rigt oo) (member oo) ;;
  set_rigt o v ;;
  check_order o ;;
  agenda_update o RIGT ;;
  agenda_insert q LEFT ;;
  agenda_insert q RIGT) d).

(** op-sweep.c 505-560 [ev_pair]; [beyond] is the result of cq_vec2if_cmp(&it, cur) > 0 *)
Definition ev_pair (beyond : bool) (prev next : nat) : op :=
  with_edge prev (fun pp => with_edge next (fun nn d =>
  match vec2if_intersect (left pp) (rigt pp) (left nn) (rigt nn) with
  | Ok (ii, it) =>
    if ii =? 3 then ev_split (left pp) next d
    else if ii =? 5 then ev_split (rigt pp) next d
    else if ii =? 9 then ev_split (left nn) prev d
    else if ii =? 17 then ev_split (rigt nn) prev d
    else if ii =? 1 then
      if beyond then
        match it with
        | Some (x, y) =>
          (check_op (fun d => on_line d prev) ;; check_op (fun d => on_line d next) ;;
          if (dif_n x =? 0) && (dif_n y =? 0) then
            ev_split (dif_i x, dif_i y) prev ;; ev_split (dif_i x, dif_i y) next
          else Some) d
        | None => None
        end
      else Some d
    else Some d
  | _ => None
  end)).

(** op-sweep.c 558-594 [ev_left], up to the tests for intersection: [choice] is what cp_dict_insert_by finds: an edge which compares
    equal, or none.  The vertex has been taken off the agenda. *)
Definition ev_left (e : nat) (choice : option nat) : op :=
  check_op (fun d => negb (on_line d e)) ;;
  match choice with
  | None => fun d => Some (mk_sdata (count d) (edges d) (agenda d) (fupd (on_line d) e true))
  | Some o => with_edge e (fun ee => with_edge o (fun oo => check_op (fun _ => negb (vec2_cmp (left ee) (rigt oo) =? 0)) ;; ev_overlap e o))
  end.
(** op-sweep.c 38-80 [cq_sweep_tree_vertex_edge_cmp] is [Reduce_model.tree_vertex_edge_cmp], here for given edges *)
Definition equal_edge (e o : edge) : bool := tree_vertex_edge_cmp (fun i => match i with O => e | _ => o end) 0 1 =? 0.

(** op-sweep-internal.h 1296-1305 [agenda_vertex_extract_min] takes a vertex which is minimal (ties are in no particular order) *)
Definition is_min (d : sdata) (k : vec2) : Prop := forall i s k', agenda d i s = Some k' -> vec2_cmp k k' <= 0.
Definition take (i : nat) (s : bool) (d : sdata) : sdata := mk_sdata (count d) (edges d) (aupd (agenda d) i s None) (on_line d).

(** op-sweep.c 900-940 [sweep_phase1_find_intersections]: what may happen next.  The tests for intersection of op-sweep.c 584-590,
    627, 748-750 are separate steps for any two edges on the sweep line. *)
Inductive sstep : sdata -> option sdata -> Prop :=
| step_left_new : forall d e k, agenda d e LEFT = Some k -> is_min d k -> sstep d (ev_left e None (take e LEFT d))
| step_left_eq : forall d e k o ee oo, agenda d e LEFT = Some k -> is_min d k ->
    on_line d o = true -> edges d e = Some ee -> edges d o = Some oo -> equal_edge ee oo = true ->
    sstep d (ev_left e (Some o) (take e LEFT d))
| step_rigt : forall d e k, agenda d e RIGT = Some k -> is_min d k -> sstep d (state_remove e (take e RIGT d))
| step_pair : forall d beyond a b, on_line d a = true -> on_line d b = true -> a <> b -> sstep d (ev_pair beyond a b d).
Inductive ssteps : sdata -> sdata -> Prop :=
| ssteps_refl : forall d, ssteps d d
| ssteps_step : forall d d' d'', sstep d (Some d') -> ssteps d' d'' -> ssteps d d''.

(** op-sweep.c 783-805 [cq_sweep_new] *)
Definition sweep_new : sdata := mk_sdata 0 (fun _ => None) (fun _ _ => None) (fun _ => false).
(** op-sweep.c 807-833 [cq_sweep_add_edge] *)
Definition add_edge (a b : vec2) (m : N) : op :=
  let i := vec2_cmp a b in
  if i =? 0 then Some else
  let '(a, b) := if 0 <? i then (b, a) else (a, b) in
  fun d => let q := count d in (
  edge_new a b m ;;
  check_op (fun d => negb (agenda_is_member q LEFT d)) ;;
  check_op (fun d => negb (agenda_is_member q RIGT d)) ;;
  agenda_insert q LEFT ;;
  agenda_insert q RIGT) d.
Fixpoint add_edges (l : list (vec2 * vec2)) (m : N) : op :=
  match l with
  | [] => Some
  | (a, b) :: l => add_edge a b m ;; add_edges l m
  end.
(** op-sweep.c 845-878 [cq_sweep_add_poly]: a path is the sequence of its points (imported, i.e., rounded); a triangle is a path of
    three points *)
Fixpoint path_edges (first : vec2) (l : list vec2) : list (vec2 * vec2) :=
  match l with
  | [] => []
  | [a] => [(a, first)]
  | a :: ((b :: _) as l) => (a, b) :: path_edges first l
  end.
Definition add_path (l : list vec2) (m : N) : op := add_edges (match l with [] => [] | a :: _ => path_edges a l end) m.
Fixpoint add_poly (l : list (list vec2)) (m : N) : op :=
  match l with
  | [] => Some
  | p :: l => add_path p m ;; add_poly l m
  end.
(** csg2-bool.c 104-131: all polygons are added, each with its own membership (the results of earlier operations and single lines,
    CP_CSG2_SWEEP and CP_CSG2_VLINE2, are left out here) *)
Fixpoint add_polys (l : list (N * list (list vec2))) : op :=
  match l with
  | [] => Some
  | (m, ps) :: l => add_poly ps m ;; add_polys l
  end.

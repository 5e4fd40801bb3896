(** Model of the triangulation: src/hob3lop/op-trianglify.c, with the functions of op-sweep-internal.h that it uses.

    As in Poly_model.v: the input is the sequence of the elements of the dictionary data->result, the result r is empty at the
    beginning, edges are identified with numbers, the dictionary data->state is the sequence of its elements, and the rings of edges
    are those of List_model.v.  A new edge gets a number that was never used, and accesses through the pointer rigt_most to an edge
    that was deleted fail.  NULL pointers are [None].  Coordinates are integers without overflow.  Tracing and the reversal of the
    (empty) list of paths are left out. *)
From Coq Require Import ZArith List Bool.
From Verif Require Import List_model Reduce_model Poly_model.
Import ListNotations.
Open Scope Z_scope.

(** gon_tam.h 211-236 [cp_csg2_tri_t]: three point numbers, and the flags for the sides 01, 12, 20 *)
Record tri := mk_tri { p0 : nat; p1 : nat; p2 : nat; o01 : bool; o12 : bool; o20 : bool }.

(** A vertex is an edge with a side (LEFT = false, RIGT = true) *)
Record tdata := mk_tdata {
  tline : list nat;                       (* data->state *)
  geo : nat -> edge;                      (* edge: v[0], v[1] *)
  fresh : nat;                            (* number of the next new edge *)
  tback : nat -> bool;                    (* edge: back *)
  inner : nat -> bool;                    (* edge: inner *)
  dis : nat * bool -> bool;               (* edge: v_dis *)
  ring : heap;                            (* edge: list *)
  idx : nat * bool -> option nat;         (* vertex: point_idx, None for CQ_PT_INVAL *)
  rmost : nat -> option (nat * bool);     (* edge: rigt_most *)
  dead : nat -> bool;                     (* edge was deleted *)
  tpts : list vec2;                       (* r->point *)
  tris : list tri                         (* r->tri *)
}.
Definition t_line x d := mk_tdata x (geo d) (fresh d) (tback d) (inner d) (dis d) (ring d) (idx d) (rmost d) (dead d) (tpts d) (tris d).
Definition t_back x d := mk_tdata (tline d) (geo d) (fresh d) x (inner d) (dis d) (ring d) (idx d) (rmost d) (dead d) (tpts d) (tris d).
Definition t_dis x d := mk_tdata (tline d) (geo d) (fresh d) (tback d) (inner d) x (ring d) (idx d) (rmost d) (dead d) (tpts d) (tris d).
Definition t_ring x d := mk_tdata (tline d) (geo d) (fresh d) (tback d) (inner d) (dis d) x (idx d) (rmost d) (dead d) (tpts d) (tris d).
Definition t_idx x d := mk_tdata (tline d) (geo d) (fresh d) (tback d) (inner d) (dis d) (ring d) x (rmost d) (dead d) (tpts d) (tris d).
Definition t_rmost x d := mk_tdata (tline d) (geo d) (fresh d) (tback d) (inner d) (dis d) (ring d) (idx d) x (dead d) (tpts d) (tris d).
Definition t_dead x d := mk_tdata (tline d) (geo d) (fresh d) (tback d) (inner d) (dis d) (ring d) (idx d) (rmost d) x (tpts d) (tris d).
Definition t_pts x d := mk_tdata (tline d) (geo d) (fresh d) (tback d) (inner d) (dis d) (ring d) (idx d) (rmost d) (dead d) x (tris d).
Definition t_tris x d := mk_tdata (tline d) (geo d) (fresh d) (tback d) (inner d) (dis d) (ring d) (idx d) (rmost d) (dead d) (tpts d) x.
Definition eupd {A} (f : nat -> A) (e : nat) (x : A) : nat -> A := fun y => if (y =? e)%nat then x else f y.

(** ** Vertices of a ring *)
Definition xy (d : tdata) (v : nat * bool) : vec2 := coord (geo d) v.
Definition other_end (v : nat * bool) : nat * bool := (fst v, negb (snd v)).
(** op-sweep-internal.h 1571-1585 [list_edge_step]; dir: next = false, prev = true *)
Definition edge_step (d : tdata) (e : nat) (dir : bool) : nat := if dir then prev (ring d) e else next (ring d) e.
(** op-sweep-internal.h 1614-1640 [vertex_buddy] *)
Definition vertex_buddy (d : tdata) (v : nat * bool) : nat * bool :=
  let dir := negb (xorb (snd v) (tback d (fst v))) in
  let e := edge_step d (fst v) dir in
  (e, xorb dir (tback d e)).
(** op-sweep-internal.h 1642-1659 [vertex_eq_buddy] *)
Definition vertex_eq_buddy (d : tdata) (v : nat * bool) : option (nat * bool) :=
  let w := vertex_buddy d v in
  if vec2_eq (xy d v) (xy d w) then Some w else None.
(** op-sweep-internal.h 1661-1711 [vertex_list_step_raw] *)
Definition step_raw (d : tdata) (v : nat * bool) (dir : bool) : nat * bool :=
  if xorb (xorb (snd v) (tback d (fst v))) dir then
    let e := edge_step d (fst v) dir in (e, xorb (tback d e) dir)
  else other_end v.
(** op-sweep-internal.h 1713-1718 [vertex_valid], for a pointer that is not NULL *)
Definition valid (d : tdata) (v : nat * bool) : bool := match idx d v with Some _ => true | None => false end.
(** op-sweep-internal.h 1720-1740 [vertex_list_step]; [n] is the rest of the iterations *)
Fixpoint step_loop (n : nat) (d : tdata) (v : nat * bool) (dir : bool) : outcome (nat * bool) :=
  match n with
  | O => Fails
  | S n =>
    let v := step_raw d v dir in
    if negb (valid d v) then Done v
    else if negb (dis d v) then Done v
    else check (negb (dis d (other_end v))) (step_loop n d v dir)
  end.
Definition list_step (d : tdata) (v : nat * bool) (dir : bool) : outcome (nat * bool) := check (valid d v) (step_loop 3 d v dir).
Definition same_idx (d : tdata) (v w : nat * bool) : bool :=
  match idx d v, idx d w with Some a, Some b => (a =? b)%nat | None, None => true | _, _ => false end.
(** op-sweep-internal.h 1742-1764 [vertex_list_step_neq] *)
Fixpoint neq_loop (n : nat) (d : tdata) (o v : nat * bool) (dir : bool) : outcome (option (nat * bool)) :=
  match n with
  | O => Fails
  | S n =>
    bind (list_step d v dir) (fun w =>
    if vertex_eqb o w then Done None
    else if negb (same_idx d w v) then Done (Some w)
    else neq_loop n d o w dir)
  end.
Definition step_neq (d : tdata) (v : nat * bool) (dir : bool) : outcome (option (nat * bool)) := neq_loop 2 d v v dir.

(** op-trianglify.c 15-31 [vertex_remove].  Exactly the edges that the algorithm adds (inner) are not in the result dictionary. *)
Definition vertex_remove (v : nat * bool) (d : tdata) : outcome tdata :=
  let d := t_dis (vupd (dis d) v true) d in
  if dis d (other_end v) then
    let d := t_ring (remove (ring d) (fst v)) d in
    if inner d (fst v) then check (negb (member_of (fst v) (tline d))) (Done (t_dead (eupd (dead d) (fst v) true) d)) else Done d
  else Done d.
(** op-trianglify.c 33-46 [vertex_remove2] *)
Definition vertex_remove2 (v : nat * bool) (d : tdata) : outcome tdata :=
  let w := vertex_eq_buddy d v in
  bind (vertex_remove v d) (fun d =>
  match w with Some w => vertex_remove w d | None => Done d end).

(** op-trianglify.c 67-95 [edge_is_outline] *)
Definition edge_is_outline (d : tdata) (p q : nat * bool) : bool :=
  let on (e : nat) (v : option (nat * bool)) := match v with Some v => (e =? fst v)%nat | None => false end in
  let w := vertex_eq_buddy d q in
  if on (fst p) (Some q) then negb (inner d (fst p))
  else if on (fst p) w then negb (inner d (fst p))
  else match vertex_eq_buddy d p with
       | Some p => if on (fst p) (Some q) then negb (inner d (fst p))
                   else if on (fst p) w then negb (inner d (fst p)) else false
       | None => false
       end.

(** matq.h 301-341 [cq_vec2_right_cross3_z]: Reduce_model.cross3_z *)
(** op-trianglify.c 150-245 [flush_triangle_]; the loop that the label start_again makes, and the inner loop, starting from q *)
Definition idx_or (d : tdata) (v : nat * bool) : nat := match idx d v with Some i => i | None => O end.
Fixpoint flush (fuel : nat) (p : nat * bool) (q : option (nat * bool)) (bk : bool) (d : tdata) : outcome tdata :=
  match fuel with
  | O => Fails
  | S fuel =>
    match q with
    | None =>
      bind (step_neq d p bk) (fun q =>
      match q with
      | None => Done d
      | Some q => if negb (valid d q) then Done d else flush fuel p (Some q) bk d
      end)
    | Some q =>
      bind (step_neq d q bk) (fun w =>
      match w with
      | None => Done d
      | Some w =>
        if negb (valid d w) then Done d else
        let i := cross3_z (xy d p) (xy d q) (xy d w) in
        let i := if bk then - i else i in
        if i <? 0 then Done d
        else if i =? 0 then
          check (negb (same_idx d p q) && negb (same_idx d w q))
          (if same_idx d p w then
             bind (vertex_remove2 q d) (fun d =>
             bind (list_step d w bk) (fun q =>
             if vertex_eqb q p then Done d else
             bind (vertex_remove2 w d) (fun d => flush fuel p None bk d)))
           else Done d)
        else
          check (negb (same_idx d p q) && negb (same_idx d q w) && negb (same_idx d p w))
          (let t :=
             if bk then mk_tri (idx_or d q) (idx_or d p) (idx_or d w) (edge_is_outline d q p) (edge_is_outline d p w) (edge_is_outline d w q)
             else mk_tri (idx_or d p) (idx_or d q) (idx_or d w) (edge_is_outline d p q) (edge_is_outline d q w) (edge_is_outline d w p) in
           bind (vertex_remove2 q (t_tris (tris d ++ [t]) d)) (fun d => flush fuel p (Some w) bk d))
      end)
    end
  end.
(** op-trianglify.c 247-273 [flush_triangle_fore], [flush_triangle_back], [flush_triangle_both] *)
Definition flush_fore (fuel : nat) (p : nat * bool) (d : tdata) : outcome tdata := flush fuel p None false d.
Definition flush_back (fuel : nat) (p : nat * bool) (d : tdata) : outcome tdata := flush fuel p None true d.
Definition flush_both (fuel : nat) (s t : nat * bool) (d : tdata) : outcome tdata :=
  bind (flush_back fuel s d) (fun d => flush_fore fuel t d).

(** op-trianglify.c 48-65 [tri_edge_new]; op-sweep-internal.h 806-842 [edge_new] *)
Definition tri_edge_new (l r : nat * bool) (bk inn : bool) (d : tdata) : outcome (nat * tdata) :=
  check (vec2_cmp (xy d l) (xy d r) <? 0)
  (let e := fresh d in
   let d := mk_tdata (tline d) (eupd (geo d) e (mk_edge (xy d l) (xy d r) 0)) (S e) (eupd (tback d) e bk) (eupd (inner d) e inn)
     (vupd (vupd (dis d) (e, LEFT) false) (e, RIGT) false) (init (ring d) e) (vupd (vupd (idx d) (e, LEFT) (idx d l)) (e, RIGT) (idx d r))
     (eupd (rmost d) e None) (dead d) (tpts d) (tris d) in
   check (valid d (e, LEFT) && valid d (e, RIGT)) (Done (e, d))).
(** op-sweep-internal.h 1550-1561 [list_edge_chain] *)
Definition edge_chain (a b : nat) (d : tdata) : outcome tdata :=
  let d := t_ring (chain (ring d) a b) d in check (next (ring d) a =? b)%nat (Done d).
Definition set_rmost (e : nat) (v : nat * bool) (d : tdata) : tdata := t_rmost (eupd (rmost d) e (Some v)) d.
Definition is_vertex (o : outcome (nat * bool)) (v : nat * bool) : bool := match o with Done w => vertex_eqb w v | _ => false end.
(** op-sweep-internal.h 921-992 [state_edge_insert_successfully], [state_edge_replace], [state_edge_remove] *)
Definition t_insert (e : nat) (d : tdata) : outcome tdata :=
  check (negb (member_of e (tline d)))
  match insert_by (tree_vertex_edge_cmp (geo d) e) (tline d) with None => Fails | Some (lo, hi) => Done (t_line (lo ++ e :: hi) d) end.
Definition t_replace (a b : nat) (d : tdata) : outcome tdata :=
  check (negb (a =? b)%nat && member_of a (tline d) && negb (member_of b (tline d)))
  (Done (t_line (map (fun x => if (x =? a)%nat then b else x) (tline d)) d)).
Definition t_remove (e : nat) (d : tdata) : outcome tdata := check (member_of e (tline d)) (Done (t_line (state_edge_remove e (tline d)) d)).

(** op-trianglify.c 343-378: BEND *)
Definition bend (fuel : nat) (s t : nat * bool) (d : tdata) : outcome tdata :=
  let es := fst s in
  let et := fst t in
  check (snd s && negb (snd t))
  (let d := t_idx (vupd (idx d) (other_end t) None) d in
   bind (t_replace es et d) (fun d =>
   let d := t_ring (init (ring d) et) (t_back (eupd (tback d) et (tback d es)) d) in
   let d := set_rmost et t d in
   if tback d et then
     bind (edge_chain et es d) (fun d =>
     check (next (ring d) et =? es)%nat
     (flush_fore fuel t (set_rmost (prev (ring d) et) s d)))
   else
     bind (edge_chain es et d) (fun d =>
     check (prev (ring d) et =? es)%nat
     (flush_back fuel t (set_rmost (next (ring d) et) s d))))).

(** op-trianglify.c 416-478: an improper START *)
Definition start_improper (fuel : nat) (s t : nat * bool) (er : option nat) (d : tdata) : outcome tdata :=
  let es := fst s in
  let et := fst t in
  match er with
  | None => Fails
  | Some er =>
  match rmost d er with
  | None => Fails
  | Some lms =>
    check (tback d et && negb (dead d (fst lms)))
    (let elms := fst lms in
     let elmt := next (ring d) elms in
     match vertex_eq_buddy d lms with
     | None => Fails
     | Some lmt =>
       check ((elmt =? fst lmt)%nat && vec2_eq (xy d lmt) (xy d lms))
       (bind (edge_chain et elmt d) (fun d =>
        check (is_vertex (list_step d t false) lmt)
        (bind (edge_chain es er d) (fun d =>
         check (is_vertex (list_step d s true) lms)
         (bind
           (if negb (same_idx d lms s) then
              bind (tri_edge_new lms s true true d) (fun x =>
              let '(ht, d) := x in
              bind (edge_chain et ht d) (fun d =>
              check (is_vertex (list_step d (ht, RIGT) true) t && is_vertex (list_step d (ht, LEFT) false) lmt)
              (bind (tri_edge_new lms s false true d) (fun x =>
               let '(hs, d) := x in
               bind (edge_chain hs es d) (fun d =>
               check (is_vertex (list_step d (hs, RIGT) false) s && is_vertex (list_step d (hs, LEFT) true) lms)
               (Done ((hs, RIGT), (ht, RIGT), d)))))))
            else Done (lms, lmt, d))
           (fun x =>
            let '(sr, tr, d) := x in
            check (tback d er && tback d et)
            (let d := set_rmost es s (set_rmost et t (set_rmost er sr d)) in
             flush_both fuel s t (set_rmost (prev (ring d) et) tr d))))))))
     end)
  end end.
(** op-trianglify.c 380-479: START *)
Definition start (fuel : nat) (s t : nat * bool) (d : tdata) : outcome tdata :=
  let es := fst s in
  let et := fst t in
  let d := t_idx (vupd (vupd (idx d) (other_end s) None) (other_end t) None) d in
  bind (t_insert es d) (fun d =>
  bind (t_insert et d) (fun d =>
  check (opt_is (succ_of es (tline d)) et)
  (let er := pred_of es (tline d) in
   let b := match er with None => true | Some er => negb (tback d er) end in
   let d := t_back (eupd (eupd (tback d) es b) et (negb b)) d in
   check (vec2_eq (left (geo d es)) (left (geo d et)))
   (let d := t_ring (chain (init (init (ring d) es) et) es et) d in
    if b then Done (set_rmost et t (set_rmost es s d))
    else start_improper fuel s t er d)))).

(** op-trianglify.c 480-527: END *)
Definition finish (fuel : nat) (s t : nat * bool) (d : tdata) : outcome tdata :=
  let es := fst s in
  let et := fst t in
  check (xorb (tback d es) (tback d et) && opt_is (succ_of et (tline d)) es)
  (if (edge_step d et (tback d et) =? es)%nat then
     bind (t_remove es d) (fun d =>
     bind (t_remove et d) (fun d =>
     check ((edge_step d es (tback d es) =? et)%nat && same_idx d s t) (flush_both fuel s t d)))
   else
     bind (t_remove es d) (fun d =>
     bind (t_remove et d) (fun d =>
     let d := set_rmost (next (ring d) et) t (set_rmost (prev (ring d) es) s d) in
     check (negb (tback d et) && tback d es)
     (bind (flush_both fuel t s d) (fun d =>
      check (nontrivial (ring d) et && nontrivial (ring d) es && xorb (tback d et) (tback d es) && vec2_eq (rigt (geo d et)) (rigt (geo d es)))
      (if tback d et then edge_chain es et d else edge_chain et es d)))))).

(** op-trianglify.c 326-530: a pair of ends *)
Definition tri_event (fuel : nat) (s t : nat * bool) (d : tdata) : outcome tdata :=
  if negb (vec2_eq (xy d s) (xy d t)) then Hole else
  check (Bool.eqb (negb (snd t)) (negb (member_of (fst t) (tline d))) && Bool.eqb (negb (snd s)) (negb (member_of (fst s) (tline d))))
  (if xorb (snd s) (snd t) then bend fuel s t d
   else if negb (snd s) then start fuel s t d
   else finish fuel s t d).
(** op-trianglify.c 304-540: the loop; [s] is the pending end, [last] is last_pt *)
Fixpoint tri_loop (fuel : nat) (l : list (nat * bool)) (s : option (nat * bool)) (last : vec2) (d : tdata) : outcome tdata :=
  match l with
  | [] => Done d
  | t :: l =>
    let '(d, last) :=
      if (length (tpts d) =? 0)%nat || negb (vec2_eq last (xy d t)) then (t_pts (tpts d ++ [xy d t]) d, xy d t) else (d, last) in
    check ((0 <? length (tpts d))%nat && (Z.of_nat (length (tpts d)) <=? 2 ^ 32 - 1))
    (let d := t_idx (vupd (idx d) t (Some (length (tpts d) - 1)%nat)) d in
     match s with
     | None => tri_loop fuel l (Some t) last d
     | Some s => bind (tri_event fuel s t d) (fun d => tri_loop fuel l None last d)
     end)
  end.
(** op-trianglify.c 291-550 [cq_sweep_trianglify].  The fields of the edges are zero after the reduction pass. *)
Definition trianglify (fuel : nat) (E : nat -> edge) (n : nat) (rings0 : heap) (idx0 : nat * bool -> option nat) (res : list (nat * bool)) : outcome tdata :=
  tri_loop fuel res None (0, 0)
    (mk_tdata [] E n (fun _ => false) (fun _ => false) (fun _ => false) rings0 idx0 (fun _ => None) (fun _ => false) [] []).

(** Model of the check for intersections: src/hob3lop/op-sweep.c 1460-1528 [cq_has_intersect],
    include/hob3lop/matq.h 492-498 [cq_line2if_intersect].  Arithmetic is that of Matq_model.v. *)
From Coq Require Import ZArith Bool List.
From Verif Require Import Matq_model.
Import ListNotations.
Local Open Scope Z_scope.

(** [cq_line2_t]: a, b (gon_tam.h) *)
Definition line := (vec2 * vec2)%type.

(** op-sweep.c 1469-1515: the body of the loops; the point if control reaches [has] *)
Definition pair_test (a b : line) : res (option vec2if) :=
  let! ri := vec2if_intersect (fst a) (snd a) (fst b) (snd b) in
  let '(r, i) := ri in
  if r =? 1 then Ok i else
  if negb (r =? -1) then Ok None else
  let! c := right_cross3_z (fst (snd a)) (snd (snd a)) (fst (fst a)) (snd (fst a)) (fst (snd b)) (snd (snd b)) in
  if negb (c =? 0) then Ok None else
  (* 1484-1495 *)
  let vertical := fst (fst a) =? fst (snd a) in
  let co (v : vec2) := if vertical then snd v else fst v in
  let a1 := co (fst a) in let a2 := co (snd a) in
  let b1 := co (fst b) in let b2 := co (snd b) in
  (* 1496-1499 *)
  let '(a1, a2) := if a2 <? a1 then (a2, a1) else (a1, a2) in
  let '(b1, b2) := if b2 <? b1 then (b2, b1) else (b1, b2) in
  let! _ := check (negb (a1 =? a2)) in
  let! _ := check (negb (b1 =? b2)) in
  (* 1501-1516 *)
  if (b1 <? a1) && (a1 <? b2) then Ok (Some (vec2ifi (fst a))) else
  if (b1 <? a2) && (a2 <? b2) then Ok (Some (vec2ifi (snd a))) else
  if (a1 <? b1) && (b1 <? a2) then Ok (Some (vec2ifi (fst b))) else
  if (a1 <? b2) && (b2 <? a2) then Ok (Some (vec2ifi (snd b))) else
  Ok None.

(** the inner loop, 1467 *)
Fixpoint inner (a : line) (bs : list line) : res (option (vec2if * line * line)) :=
  match bs with
  | [] => Ok None
  | b :: bs =>
      let! t := pair_test a b in
      match t with Some i => Ok (Some (i, a, b)) | None => inner a bs end
  end.

(** the outer loop, 1466 *)
Fixpoint outer (as_ bs : list line) : res (option (vec2if * line * line)) :=
  match as_ with
  | [] => Ok None
  | a :: as_ =>
      let! t := inner a bs in
      match t with Some x => Ok (Some x) | None => outer as_ bs end
  end.

(** [cq_has_intersect]: [None] is the return value 0, [Some] is 1 with *ip, *ap, *bp *)
Definition has_intersect (gon : list line) : res (option (vec2if * line * line)) := outer gon gon.

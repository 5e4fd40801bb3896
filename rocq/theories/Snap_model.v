(** Model of the second phase of the polygon sweep, snap rounding: src/hob3lop/op-sweep.c 947-1123, 1183-1373 with the functions of
    op-sweep-internal.h that it uses.

    Edges are numbered and do not change in this phase; the same for crossings (xing_t).  A bundle is its point and the sequence of
    its edges from bottom to top (a tree in the code: that the functions of dict.c keep the sequence is shown in Dict_props.v).  data->state
    is the sequence of bundles from bottom to top.  Where a search in a tree ends is a parameter ([search]), so that the theorems hold
    for whatever order the trees are in; the field [ok] of the state is not in the code: it is true as long as each bundle that was split
    was in the order that the search needs (first what is below the point, then what goes through it, then what is above), and no edge of a bundle above
    the first one was strictly below the point.  The assertions inside of comparison functions, of the functions for memory, and of
    tree membership for nodes that were just inserted or removed are left out.  sum_member (the xor of the members of a subtree, at the root) is computed from
    the sequence.  Tracing is left out.  Coordinates outside of the ranges for which the arithmetic of matq.c is defined (Matq_props.v)
    are treated in some way. *)
From Coq Require Import ZArith NArith List Bool Arith.
From Verif Require Import Matq_model Reduce_model.
Import ListNotations.
Open Scope Z_scope.

Notation vec2 := (Z * Z)%type.
(** op-sweep-internal.h 255-333 [xing]: the point, and some_edge_tb for north (false) and south (true) *)
Record xing := mk_xing { xat : vec2if; some_tb : bool -> option nat }.
(** op-sweep-internal.h 335-375 [bundle_t] *)
Record bundle := mk_bundle { bv : vec2; be : list nat }.
(** Results of searches in trees.  [w_split p back l]: how many elements go into the lower part; [w_bot]: which bundle is found; [w_bundle]: how
    many bundles are below the new one; [w_edge]: how many edges are below the new one; these two: None if an equal one is found.  An instance is [scan], below *)
Record search := mk_search {
  w_split : vec2 -> bool -> list nat -> nat;
  w_bot : vec2 -> list bundle -> option nat;
  w_bundle : bundle -> list bundle -> option nat;
  w_edge : nat -> list nat -> option nat
}.
(** [Crash]: a failing assertion; [Out]: the fuel of the model is used up *)
Inductive outcome (A : Type) := Done (a : A) | Crash | Out.
Arguments Done {A} a.
Arguments Crash {A}.
Arguments Out {A}.

Section Snap.
Variable E : nat -> edge.
Variable X : nat -> xing.
Variable S : search.
(** phase_south: op-sweep-internal.h 1587-1591 *)
Variable south : bool.

(** op-sweep.c 691-695 *)
Definition edge_south (e : edge) : bool := snd (rigt e) <=? snd (left e).
(** matq.h 385-403 [cq_round] of both coordinates *)
Definition get_ok (r : res Z) : Z := match r with Ok z => z | _ => 0 end.
Definition xpix (x : nat) : vec2 := let c := xat (X x) in (get_ok (round (fst c)), get_ok (round (snd c))).
(** op-sweep-internal.h 854-859 [vec2_edge_cmp_tolerant] *)
Definition cmp_tol (v : vec2) (e : edge) : Z :=
  match cmp_edge_rnd (fst v) (snd v) (fst (rigt e)) (snd (rigt e)) (fst (left e)) (snd (left e)) with Ok r => sign r | _ => 1 end.
Definition if_cmp (a b : dimif) : Z := get_ok (dimif_cmp true a b).

(** op-sweep.c 232-278 [cq_sweep_agenda_vertex_phase2_cmp] *)
Definition turn (i : Z) : Z := if south then - i else i.
Definition vertex2_cmp (a b : nat * bool) : Z :=
  let i := cp_cmp (fst (coord E a)) (fst (coord E b)) in
  if negb (i =? 0) then i else
  let i := cp_cmp (snd (coord E a)) (snd (coord E b)) in
  if negb (i =? 0) then turn i else
  let i := cp_cmp (side b) (side a) in
  if negb (i =? 0) then i else
  cp_cmp (cross3_z (other_end E a) (coord E a) (other_end E b)) 0.
(** op-sweep.c 303-334 [cq_sweep_agenda_xing_phase2_cmp] *)
Definition xing2_cmp (a b : nat) : Z :=
  let i := cp_cmp (fst (xpix a)) (fst (xpix b)) in
  if negb (i =? 0) then i else
  let i := cp_cmp (snd (xpix a)) (snd (xpix b)) in
  if negb (i =? 0) then turn i else
  let i := if_cmp (fst (xat (X a))) (fst (xat (X b))) in
  if negb (i =? 0) then i else
  let i := if_cmp (snd (xat (X a))) (snd (xat (X b))) in
  if negb (i =? 0) then turn i else 0.
(** The minimum of an agenda, and the rest (op-sweep-internal.h 1296-1330); of equal elements the first one of the list *)
Fixpoint extract_min {A} (cmp : A -> A -> Z) (l : list A) : option (A * list A) :=
  match l with
  | [] => None
  | a :: l' =>
    match extract_min cmp l' with
    | None => Some (a, [])
    | Some (b, r) => if cmp a b <=? 0 then Some (a, l') else Some (b, a :: r)
    end
  end.
Definition first_of {A} (o : option (A * list A)) : option A := match o with Some (a, _) => Some a | None => None end.

(** op-sweep.c 947-977 [bundle_new_from_agenda]: the point *)
Definition pixel (agv : list (nat * bool)) (agx : list nat) : vec2 :=
  match first_of (extract_min vertex2_cmp agv), first_of (extract_min xing2_cmp agx) with
  | Some v, None => coord E v
  | None, Some c => xpix c
  | None, None => (0, 0)
  | Some v, Some c =>
    let i := cp_cmp (fst (coord E v)) (fst (xpix c)) in
    let i := if i =? 0 then turn (cp_cmp (snd (coord E v)) (snd (xpix c))) else i in
    if 0 <? i then xpix c else coord E v
  end.
(** op-sweep.c 984-1036 [agenda_next_event_cmp] *)
Definition same_pt (a b : vec2) : bool := (fst a =? fst b) && (snd a =? snd b).
Definition next_event (p : vec2) (agv : list (nat * bool)) (agx : list nat) : Z :=
  let c := match first_of (extract_min xing2_cmp agx) with
    | Some c => if same_pt p (xpix c) then Some c else None
    | None => None end in
  let before := match c with
    | Some c =>
      let ci := dim_dimif_cmp (fst p) (fst (xat (X c))) in
      let ci := if ci =? 0 then turn (dim_dimif_cmp (snd p) (snd (xat (X c)))) else ci in
      0 <? ci
    | None => false end in
  if before then 2 else
  match first_of (extract_min vertex2_cmp agv) with
  | Some v => if same_pt (coord E v) p then 1 else match c with Some _ => 2 | None => 0 end
  | None => match c with Some _ => 2 | None => 0 end
  end.

(** op-sweep-internal.h 1054-1066 [bundle_split]: [back]: strictly below the point, otherwise: below or through the point.  The third result
    is for [ok] *)
Definition lower (p : vec2) (back : bool) (i : nat) : bool := if back then 0 <? cmp_tol p (E i) else 0 <=? cmp_tol p (E i).
Definition bundle_split (p : vec2) (back : bool) (l : list nat) : list nat * list nat * bool :=
  let k := w_split S p back l in
  (firstn k l, skipn k l, forallb (lower p back) (firstn k l) && forallb (fun i => negb (lower p back i)) (skipn k l)).

(** op-sweep-internal.h 869-886 [result_insert], with the comparison op-sweep.c 7-36 including its assertion, and 1086-1094: an equal edge gets
    the xor of the members *)
Fixpoint result_insert (n : edge) (l : list edge) : option (list edge) :=
  match l with
  | [] => Some [n]
  | o :: l =>
    if same_pt (left o) (left n) && (cross3_z (rigt o) (left o) (rigt n) =? 0) then
      if same_pt (rigt o) (rigt n) then Some (mk_edge (left o) (rigt o) (N.lxor (member o) (member n)) :: l) else None
    else if same_pt (rigt o) (rigt n) && (cross3_z (left o) (rigt o) (left n) =? 0) then None
    else match result_insert n l with Some l => Some (o :: l) | None => None end
  end.
(** op-sweep-internal.h 1075-1095 [bundle_edge_new] *)
Definition members (l : list nat) : N := fold_right N.lxor 0%N (map (fun i => member (E i)) l).
Definition bundle_edge_new (a b : vec2) (tmp : list nat) (res : list edge) : option (list edge) :=
  let i := vec2_cmp a b in
  if i =? 0 then None else
  let '(a, b) := if 0 <? i then (b, a) else (a, b) in
  result_insert (mk_edge a b (members tmp)) res.

(** op-sweep.c 1241-1276: from the current bundle upwards.  [equ] is the new bundle *)
Fixpoint cross_up (p : vec2) (equ : list nat) (res : list edge) (ok : bool) (l : list bundle) : option (list bundle * list nat * list edge * bool) :=
  match l with
  | [] => Some ([], equ, res, ok)
  | c :: rest =>
    match be c with
    | [] => None
    | _ :: _ =>
      let '(tmp, up, o) := bundle_split p false (be c) in
      let o := o && forallb (fun i => negb (lower p true i)) (be c) in
      match tmp with
      | [] => Some (mk_bundle (bv c) up :: rest, equ, res, ok && o)
      | _ :: _ =>
        match bundle_edge_new (bv c) p tmp res with
        | None => None
        | Some res =>
          match up with
          | [] => cross_up p (equ ++ tmp) res (ok && o) rest
          | _ :: _ => Some (mk_bundle (bv c) up :: rest, equ ++ tmp, res, ok && o)
          end
        end
      end
    end
  end.
(** op-sweep.c 1219-1299: the bundles that cross the pixel [p].  What is strictly below p in the lowest of them stays at its place *)
Definition bundle_of (v : vec2) (l : list nat) : list bundle := match l with [] => [] | _ :: _ => [mk_bundle v l] end.
Definition cross (p : vec2) (st : list bundle) (res : list edge) (ok : bool) : option (list bundle * list nat * list edge * bool) :=
  match w_bot S p st with
  | None => Some (st, [], res, ok)
  | Some k =>
    match skipn k st with
    | [] => Some (st, [], res, ok)
    | c :: rest =>
      let '(lo, hi, o) := bundle_split p true (be c) in
      match hi with
      | [] => None
      | _ :: _ =>
        match cross_up p [] res (ok && o) (mk_bundle (bv c) hi :: rest) with
        | None => None
        | Some (rest, equ, res, ok) => Some (firstn k st ++ bundle_of (bv c) lo ++ rest, equ, res, ok)
        end
      end
    end
  end.

(** op-sweep.c 1038-1050 [intersection_eq] *)
Definition intersection_eq (it : vec2if) (a b : nat) : bool :=
  match vec2if_intersect (left (E a)) (rigt (E a)) (left (E b)) (rigt (E b)) with
  | Ok (i, Some it2) => (i =? 1) && (if_cmp (fst it) (fst it2) =? 0) && (if_cmp (snd it) (snd it2) =? 0)
  | _ => false
  end.
(** op-sweep.c 1066-1093: how far the edges that meet there extend from [t] into one direction; None: the assertion for the number of steps *)
Fixpoint run_length (n : nat) (it : vec2if) (t : nat) (l : list nat) : option nat :=
  match n with
  | O => None
  | Datatypes.S n =>
    match l with
    | [] => Some 0%nat
    | u :: l => if intersection_eq it t u then option_map Datatypes.S (run_length n it u l) else Some 0%nat
    end
  end.
(** op-sweep-internal.h 1128-1139 [bundle_edge_swap]: exchange the elements at two places *)
Definition set_nth {A} (i : nat) (x : A) (l : list A) : list A := match skipn i l with [] => l | _ :: r => firstn i l ++ x :: r end.
Definition swap {A} (i j : nat) (l : list A) : list A :=
  match nth_error l i, nth_error l j with Some a, Some b => set_nth i b (set_nth j a l) | _, _ => l end.
(** op-sweep.c 1099-1122, and 656-688 for the first phase: [i] is the place of s and [j] that of t; t2 is at j - 1, and s2 at i + 1 *)
Fixpoint reverse_loop {A} (fuel : nat) (i j : nat) (l : list A) : option (list A) :=
  match fuel with
  | O => None
  | Datatypes.S fuel =>
    let l := swap i j l in
    if Nat.eqb (j - 1) i then Some l
    else if Nat.eqb (i + 1) (j - 1) then Some l
    else reverse_loop fuel (i + 1) (j - 1) l
  end.
(** op-sweep.c 1052-1123 [sweep_phase2_edge_reverse] *)
Fixpoint index_of (s : nat) (l : list nat) : option nat :=
  match l with [] => None | a :: l => if Nat.eqb a s then Some 0%nat else option_map Datatypes.S (index_of s l) end.
Definition edge_reverse (l : list nat) (x : nat) : outcome (list nat) :=
  match some_tb (X x) south with
  | None => Done l
  | Some s =>
    match index_of s l with
    | None => Crash
    | Some k =>
      match run_length 100 (xat (X x)) s (skipn (Datatypes.S k) l), run_length 100 (xat (X x)) s (rev (firstn k l)) with
      | Some up, Some dn =>
        if Nat.eqb (k - dn) (k + up) then Done l
        else match reverse_loop (length l) (k - dn) (k + up) l with Some l => Done l | None => Out end
      | _, _ => Crash
      end
    end
  end.

(** op-sweep.c 1301-1327: the events in the pixel *)
Definition remove_id (e : nat) (l : list nat) : list nat := filter (fun i => negb (Nat.eqb i e)) l.
Definition mem (e : nat) (l : list nat) : bool := existsb (Nat.eqb e) l.
Fixpoint sweep_pixel (fuel : nat) (p : vec2) (equ : list nat) (agv : list (nat * bool)) (agx : list nat)
  : outcome (list nat * list (nat * bool) * list nat) :=
  match fuel with
  | O => Out
  | Datatypes.S fuel =>
    let i := next_event p agv agx in
    if i =? 0 then Done (equ, agv, agx)
    else if i =? 1 then
      match extract_min vertex2_cmp agv with
      | None => Crash
      | Some ((e, s), agv) =>
        if Bool.eqb south (edge_south (E e)) then
          if s then if mem e equ then sweep_pixel fuel p (remove_id e equ) agv agx else Crash
          else if mem e equ then Crash
            else match w_edge S e equ with
              | None => Crash
              | Some k => sweep_pixel fuel p (firstn k equ ++ e :: skipn k equ) agv agx
              end
        else sweep_pixel fuel p equ agv agx
      end
    else
      match extract_min xing2_cmp agx with
      | None => Crash
      | Some (x, agx) =>
        match edge_reverse equ x with
        | Done equ => sweep_pixel fuel p equ agv agx
        | Crash => Crash
        | Out => Out
        end
      end
  end.

(** op-sweep.c 1211-1345: the loop of [sweep_phase2_pass] *)
Record pstate := mk_pstate { agv : list (nat * bool); agx : list nat; st : list bundle; res : list edge; ok : bool }.
Definition insert_bundle (b : bundle) (l : list bundle) : option (list bundle) :=
  match be b with
  | [] => Some l
  | _ :: _ => match w_bundle S b l with Some k => Some (firstn k l ++ b :: skipn k l) | None => None end
  end.
Definition pixel_step (s : pstate) : outcome pstate :=
  let p := pixel (agv s) (agx s) in
  match cross p (st s) (res s) (ok s) with
  | None => Crash
  | Some (l, equ, r, o) =>
    match sweep_pixel (Datatypes.S (length (agv s) + length (agx s))) p equ (agv s) (agx s) with
    | Done (equ, v, x) => match insert_bundle (mk_bundle p equ) l with Some l => Done (mk_pstate v x l r o) | None => Crash end
    | Crash => Crash
    | Out => Out
    end
  end.
Definition finished (s : pstate) : bool := match agv s, agx s with [], [] => true | _, _ => false end.
Fixpoint pass_loop (fuel : nat) (s : pstate) : outcome pstate :=
  if finished s then Done s else
  match fuel with
  | O => Out
  | Datatypes.S fuel =>
    match pixel_step s with
    | Done s => pass_loop fuel s
    | Crash => Crash
    | Out => Out
    end
  end.
(** op-sweep.c 1183-1209: the agendas; the newest of equal elements is the first one *)
Definition vertices (ids : list nat) : list (nat * bool) := rev (flat_map (fun e => [(e, LEFT); (e, RIGT)]) ids).
Definition distinct_xings (xs : list nat) : bool :=
  forallb (fun a => forallb (fun b => Nat.eqb a b || negb (xing2_cmp a b =? 0)) xs) xs.
Definition phase2_pass (ids xs : list nat) (res : list edge) (ok : bool) : outcome pstate :=
  if distinct_xings xs then
    pass_loop (Datatypes.S (length (vertices ids) + length xs)) (mk_pstate (vertices ids) (rev xs) [] res ok)
  else Crash.
End Snap.

(** op-sweep.c 1348-1373 [sweep_phase2_snap_round]: north, then south.  [ids] are the edges that are not deleted *)
Definition snap_round (E : nat -> edge) (X : nat -> xing) (S : search) (ids xs : list nat) : outcome (list edge * bool) :=
  match phase2_pass E X S false ids xs [] true with
  | Done s =>
    match phase2_pass E X S true ids xs (res s) (ok s) with
    | Done s => Done (res s, ok s)
    | Crash => Crash
    | Out => Out
    end
  | Crash => Crash
  | Out => Out
  end.

(** Linear searches for ordered sequences *)
Fixpoint count_while {A} (f : A -> bool) (l : list A) : nat := match l with [] => 0%nat | a :: l => if f a then S (count_while f l) else 0%nat end.
Definition top_of (b : bundle) : option nat := match rev (be b) with i :: _ => Some i | [] => None end.
Definition bot_of (b : bundle) : option nat := match be b with i :: _ => Some i | [] => None end.
(** op-sweep.c 135-156 [cq_sweep_state_pixel_bundle_cmp] *)
Definition pixel_bundle_cmp (E : nat -> edge) (p : vec2) (b : bundle) : Z :=
  match top_of b, bot_of b with
  | Some t, Some u =>
    let i := cmp_tol p (E t) in if 0 <=? i then i else
    let i := cmp_tol p (E u) in if i <=? 0 then i else 0
  | _, _ => 1
  end.
(** op-sweep.c 158-188 [cq_sweep_state_bundle_bundle_cmp]; 0 for failing assertions *)
Definition bundle_bundle_cmp (E : nat -> edge) (a b : bundle) : Z :=
  match top_of a, top_of b, bot_of b with
  | Some ta, Some tb, Some bb =>
    if negb (same_pt (bv a) (bv b)) then
      let i := vec2_edge_cmp_exact (bv a) (E tb) in
      if i =? vec2_edge_cmp_exact (bv a) (E bb) then i else 0
    else sign (cross3_z (rigt (E tb)) (bv a) (rigt (E ta)))
  | _, _, _ => 0
  end.
Definition insert_place {A} (cmp : A -> Z) (l : list A) : option nat :=
  let k := count_while (fun a => 0 <? cmp a) l in
  match skipn k l with a :: _ => if cmp a =? 0 then None else Some k | [] => Some k end.
Definition scan (E : nat -> edge) : search := {|
  w_split := fun p back l => count_while (lower E p back) l;
  w_bot := fun p st => let k := count_while (fun b => negb (pixel_bundle_cmp E p b =? 0)) st in if Nat.eqb k (length st) then None else Some k;
  w_bundle := fun b l => insert_place (bundle_bundle_cmp E b) l;
  w_edge := fun e l => insert_place (tree_vertex_edge_cmp E e) l
|}.

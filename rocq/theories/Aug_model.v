(** Model of the augmentation of the balanced trees: the callbacks made by
    src/hob3lbase/dict.c, and the callback of the sweep, which keeps in each
    edge of a bundle the exclusive or of the member masks of the edge's
    subtree (src/hob3lop/op-sweep.c:90-127, op-sweep-internal.h:1054-1163).

    Dict_model.v has the same functions without callbacks.  Here, the fields
    [sum_member] of all edges are a store [sums], a function from node
    identities to masks, that is threaded through the functions; a callback is
    a change of the store.  A mask is an unbounded natural number instead of
    a size_t (exclusive or does not leave the range).  All other
    simplifications are those of Dict_model.v. *)
From Coq Require Import List Bool Arith NArith ZArith.
From Verif Require Import Dict_model.
Import ListNotations.

(** op-sweep-internal.h:213: the field [sum_member] of each edge *)
Definition sums := nat -> BinNums.N.

Definition put (S : sums) (x : nat) (v : BinNums.N) : sums :=
  fun y => if y =? x then v else S y.

Section Member.
(** op-sweep-internal.h: the field [member] of each edge; it does not change
    while the edge is in a bundle *)
Variable M : nat -> BinNums.N.

(** op-sweep-internal.h:1097-1105 [cq_sweep_bundle_get_sum_member] *)
Definition get (S : sums) (t : tree) : BinNums.N :=
  match t with E => 0%N | N _ x _ _ => S x end.

(** op-sweep-internal.h:1107-1117 [cq_sweep_bundle_update_sum_member] *)
Definition upd (S : sums) (t : tree) : sums :=
  match t with
  | E => S
  | N l x _ r => put S x (N.lxor (N.lxor (M x) (get S l)) (get S r))
  end.

(** op-sweep-internal.h:1119-1126 [cq_sweep_bundle_update_sum_member_rec] from
    the parent of [x] upwards; the parent is the first frame *)
Fixpoint up (S : sums) (x : tree) (c : list frame) : sums :=
  match c with
  | [] => S
  | f :: c' => up (upd S (fill f x)) (fill f x) c'
  end.

(** The same from node [x] itself. *)
Definition rec (S : sums) (x : tree) (c : list frame) : sums := up (upd S x) x c.

(** dict.c:408-435 [rb_rotate], with LEFT or RIGHT (dict.c:434 and
    op-sweep.c:99-103): the old parent, now child [dir], is updated, then the
    new one *)
Definition rotate_a (dir : bool) (t : tree) (S : sums) : option (tree * sums) :=
  do t' <- rotate dir t ;;
  Some (t', upd (upd S (child t' dir)) t').

(** dict.c:437-494 [_balance_insert] with the callbacks NOP2 (line 460) and FINI
    (line 493) *)
Fixpoint balance_insert_a (x : tree) (c : list frame) (S : sums) : option (tree * sums) :=
  match c with
  | f1 :: f2 :: c' =>
    if Nat.odd (fst_ f1) then
      assert red x ;;
      let side := fside f2 in
      let y := fsib f2 in
      if red y then
        do p <- st_inc_set_black (fst_ f1) ;;
        do y' <- inc_set_black y ;;
        let pt := fill (mkF (fside f1) (fid f1) p (fsib f1)) x in
        let qt := fill (mkF side (fid f2) (st_set_red (fst_ f2)) y') pt in
        balance_insert_a qt c' (upd (upd S pt) qt)
      else
        do (p, S1) <- (if Bool.eqb (fside f1) (negb side)
                 then rotate_a side (fill f1 x) S else Some (fill f1 x, S)) ;;
        do p' <- inc_set_black p ;;
        do q <- (if Nat.odd (fst_ f2) then Some (fst_ f2) else st_dec_set_red (fst_ f2)) ;;
        do (top, S2) <- rotate_a (negb side) (fill (mkF side (fid f2) q y) p') S1 ;;
        assert (negb (red top)) ;;
        Some (plug top c', up S2 top c')
    else Some (plug x c, up S x c)
  | _ => Some (plug x c, up S x c)
  end.

(** dict.c:631-646, end of [cp_dict_insert_ref_aug], with ADD (line 638) *)
Definition insert_leaf_a (node : nat) (c : list frame) (S : sums) : option (tree * sums) :=
  do (r, S1) <- balance_insert_a (N E node 1 E) c (upd S (N E node 1 E)) ;;
  do r' <- ensure_black r ;;
  assert (very_good_tree r') ;;
  Some (r', S1).

(** dict.c:585-647 [cp_dict_insert_ref_aug]; there is no callback for the
    first node of a tree (lines 611-622) *)
Definition insert_ref_a (node : nat) (p : option zip) (i : bool) (root : tree) (S : sums)
  : option (tree * sums) :=
  let '(p, i) :=
    match p with
    | None => (start root [] (negb i), negb i)
    | Some _ => (p, i)
    end in
  match p with
  | None =>
    assert (very_good_tree (N E node 1 E)) ;; Some (N E node 1 E, S)
  | Some (t, c) =>
    match child t i with
    | E =>
      do f <- frame_of t i ;; insert_leaf_a node (f :: c) S
    | N _ _ _ _ =>
      match step (t, c) (negb i) with
      | None => None
      | Some (t', c') =>
        do f <- frame_of t' (negb i) ;;
        match child t' (negb i) with
        | E => insert_leaf_a node (f :: c') S
        | N _ _ _ _ => None
        end
      end
    end
  end.

(** dict.h:1384-1404 [cp_dict_insert_by_aug_], as used by op-sweep-internal.h:1141-1152
    [bundle_edge_insert] (with dup = 0, and an assertion that no equal edge
    is found); [cmp] compares with the left end of the edge *)
Definition edge_insert (cmp : nat -> Z) (e : nat) (root : tree) (S : sums) : option (tree * sums) :=
  let r := find cmp 0 root in
  match r_node r with
  | Some _ => None
  | None => insert_ref_a e (r_parent r) (r_child r) root S
  end.

(** dict.c:786-850, as [balance_black], with FINI (line 838) and NOP (line 843) *)
Definition balance_black_a (next : tree -> list frame -> sums -> option (tree * sums))
    (i : bool) (x : tree) (f : frame) (c1 : list frame) (S : sums) : option (tree * sums) :=
  match fsib f with
  | E => next (fill f x) c1 (upd S (fill f x))
  | N _ wx0 ws0 _ =>
    let w := fsib f in
    assert (negb (red w)) ;;
    if negb (red (child w (negb i))) && negb (red (child w i)) then
      do w' <- dec_set_red w ;;
      do p <- st_dec (fst_ f) ;;
      let t := fill (mkF i (fid f) p w') x in
      assert (good_tree t false) ;;
      next t c1 (upd S t)
    else
      do (w, S1) <-
        (if negb (red (child w (negb i))) then
           do r <- inc_set_black (child w i) ;;
           do ws' <- st_dec_set_red ws0 ;;
           do (top, S1) <- rotate_a (negb i) (mk i r wx0 ws' (child w (negb i))) S ;;
           assert (good_tree (child top (negb i)) true) ;;
           Some (top, S1)
         else Some (w, S)) ;;
      match w with
      | E => None
      | N wl wx ws wr =>
        do (ws', ps) <-
          (if Nat.odd (fst_ f) then Some (st_set_red ws, st_set_black (fst_ f))
           else (do ps <- st_dec (fst_ f) ;; Some (st_inc ws, ps))) ;;
        do q <- inc_set_black (child w (negb i)) ;;
        do (top, S2) <- rotate_a i (mk i x (fid f) ps (mk i (child w i) wx ws' q)) S1 ;;
        assert (good_tree top true) ;;
        Some (plug top c1, rec S2 top c1)
      end
  end.

(** dict.c:763-863 [balance_remove] with FINI (line 853: nothing is called if
    p is NULL) and the callback of [rb_rotate] (line 783) *)
Fixpoint balance_remove_a (fuel : nat) (x : tree) (c : list frame) (S : sums)
  : option (tree * sums) :=
  match fuel with
  | O => None
  | Datatypes.S fuel' =>
    if red x then
      do x' <- inc_set_black x ;; Some (plug x' c, up S x c)
    else
      match c with
      | [] => Some (x, S)
      | f :: c1 =>
        let i := fside f in
        assert (good_tree x true && good_tree (fsib f) true) ;;
        if red (fsib f) then
          do w <- inc_set_black (fsib f) ;;
          do p <- st_dec_set_red (fst_ f) ;;
          match w with
          | E => None
          | N _ wx ws _ =>
            let fp := mkF i (fid f) p (child w i) in
            let fw := mkF i wx ws (child w (negb i)) in
            balance_black_a (balance_remove_a fuel') i x fp (fw :: c1)
              (upd (upd S (fill fp x)) (fill fw (fill fp x)))
          end
        else balance_black_a (balance_remove_a fuel') i x f c1 S
      end
  end.

(** dict.c:888-949 [cp_dict_remove_aug] with CUT_LEAF (line 909) and FINI (lines
    921, 931); CUT_SWAP (line 671) changes nothing (op-sweep.c:121-122).  The
    callback's main node is the node that took the place of the removed root,
    or the parent of the place where a node vanished. *)
Definition remove_a (z : zip) (S : sums) : option (tree * sums) :=
  let '(t, c) := z in
  do (x, c', isred) <- remove_u t c ;;
  match c' with
  | [] =>
    assert (very_good_tree x) ;; Some (x, upd (upd S x) x)
  | f :: _ =>
    let S1 := upd S (fill f x) in
    do (r, S2) <- (if isred then Some (plug x c', up S1 x c')
             else balance_remove_a (2 * length c' + 2) x c' S1) ;;
    assert (very_good_tree r) ;;
    Some (r, S2)
  end.

(** dict.h:1004-1016 [cp_dict_extract_start_aug] *)
Definition extract_start_a (root : tree) (i : bool) (S : sums) : option (option nat * tree * sums) :=
  match start root [] i with
  | None => Some (None, root, S)
  | Some z => do (r, S1) <- remove_a z S ;; Some (zid (Some z), r, S1)
  end.

(** dict.c:1184-1210: rebalance after the join, with NOP (line 1184) and FINI
    (line 1210) *)
Fixpoint join_balance_a (i : bool) (x : tree) (c : list frame) (S : sums) : option (tree * sums) :=
  match c with
  | [] => None
  | [p] =>
    do t <- inc_set_black_if_needed (fill p x) ;; Some (t, rec S (fill p x) [])
  | p :: p2 :: c' =>
    if Nat.odd (fst_ p) && red x then
      assert (negb (Nat.odd (fst_ p2))) ;;
      do x' <- inc_set_black x ;;
      do (top, S1) <- rotate_a i (fill p2 (fill (mkF (fside p) (fid p) (st_inc (fst_ p)) (fsib p)) x'))
                        (upd S (fill p x)) ;;
      match c' with
      | [] => do t <- inc_set_black_if_needed top ;; Some (t, rec S1 top [])
      | _ :: _ => join_balance_a i top c' S1
      end
    else
      do t <- inc_set_black_if_needed (fill p x) ;; Some (plug t (p2 :: c'), rec S (fill p x) (p2 :: c'))
  end.

(** dict.c:1120-1213 [cp_dict_join3_aug] with JOIN (lines 1151, 1180) *)
Definition join3_a (l0 : tree) (m : nat) (r0 : tree) (S : sums) : option (tree * sums) :=
  let i := height2 l0 <? height2 r0 in
  let l := if i then r0 else l0 in
  let r := if i then l0 else r0 in
  do r <- (if (height2 r <? height2 l) && red r then inc_set_black r else Some r) ;;
  if height2 l =? height2 r then
    do t <- inc_set_black_if_needed (mk i l m (height2 l + 1) r) ;;
    assert (very_good_tree t) ;;
    Some (t, upd S t)
  else
    assert (negb (red r)) ;;
    assert (height2 r <? height2 l) ;;
    match frame_of l (negb i) with
    | None => None
    | Some f =>
      let '(c, path) := join_find i (height2 r) (child l (negb i)) [f] in
      let mt := mk i c m (height2 c + 1) r in
      assert (good_tree mt true) ;;
      do (t, S1) <- join_balance_a i mt path (upd S mt) ;;
      assert (very_good_tree t) ;;
      Some (t, S1)
    end.

(** dict.c:1232-1246 [cp_dict_join2_aug]; op-sweep-internal.h:1068-1073
    [bundle_join] *)
Definition join2_a (l r : tree) (S : sums) : option (tree * sums) :=
  match l, r with
  | E, _ => Some (r, S)
  | _, E => Some (l, S)
  | _, _ =>
    do (m, r', S1) <- extract_start_a r false S ;;
    match m with
    | None => None
    | Some m => join3_a l m r' S1
    end
  end.

(** dict.c:1265-1333 [cp_dict_split_aug_] with SPLIT (line 1290; op-sweep.c:124-126
    sets the sum to the member mask); op-sweep-internal.h:1054-1066 [bundle_split] *)
Fixpoint split_a (cmp : nat -> Z) (back : bool) (n : tree) (S : sums)
  : option (tree * tree * sums) :=
  match n with
  | E => Some (E, E, S)
  | N nl x _ nr =>
    let S0 := put S x (M x) in
    if (Z.b2z back <=? cmp x)%Z then
      do (nm, r, S1) <- split_a cmp back nr S0 ;;
      do (l, S2) <- join3_a nl x nm S1 ;;
      Some (l, r, S2)
    else
      do (l, nm, S1) <- split_a cmp back nl S0 ;;
      do (r, S2) <- join3_a nm x nr S1 ;;
      Some (l, r, S2)
  end.

(** dict.c:989-1025 [cp_dict_swap] of two nodes of the same tree and dict.c:1044-1058
    [cp_dict_swap_update_root]: the two nodes exchange their places; each
    takes over the other's [stat].  The pointer assignments are modelled in
    Ptr_model.v. *)
Definition sw (a b x : nat) : nat := if x =? a then b else if x =? b then a else x.
Fixpoint swap_nodes (a b : nat) (t : tree) : tree :=
  match t with
  | E => E
  | N l x s r => N (swap_nodes a b l) (sw a b x) s (swap_nodes a b r)
  end.

(** The position of a node (a pointer to the node gives its position). *)
Fixpoint locate (a : nat) (t : tree) (c : list frame) : option zip :=
  match t with
  | E => None
  | N l x s r =>
    if x =? a then Some (t, c)
    else match locate a l (mkF false x s r :: c) with
         | Some z => Some z
         | None => locate a r (mkF true x s l :: c)
         end
  end.

(** op-sweep-internal.h:1128-1139 [bundle_edge_swap] *)
Definition edge_swap (a b : nat) (t : tree) (S : sums) : option (tree * sums) :=
  assert (negb (a =? b)) ;;
  let t' := swap_nodes a b t in
  do za <- locate a t' [] ;;
  let S1 := rec S (fst za) (snd za) in
  do zb <- locate b t' [] ;;
  Some (t', rec S1 (fst zb) (snd zb)).

(** op-sweep-internal.h:1154-1163 [bundle_edge_remove] *)
Definition edge_remove (e : nat) (t : tree) (S : sums) : option (tree * sums) :=
  do z <- locate e t [] ;; remove_a z S.

End Member.

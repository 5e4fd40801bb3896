(** Model of the balanced search trees (red-black trees) of hob3l:
    src/hob3lbase/dict.c and include/hob3lbase/dict.h.

    Representation.  A node of the C code is a [struct cp_set] with a parent
    pointer, two child pointers and the word [stat] (dict_tam.h).  Here, a tree
    is an algebraic term; a node carries its identity (a number standing for
    the pointer) and the unchanged word [stat] = 2 * black height | colour.
    The parent pointers are represented by the path from a node to the root
    (a list of frames, innermost first): "n->parent" is the first frame.
    Moving up in C is consuming a frame here.  Simplifications:
    - the tree shape (acyclic, parent pointers matching the child pointers,
      nodes distinct) is built into this representation; the pointer
      assignments of each function are modelled by their effect on the term;
    - the augmentation callbacks are not modelled here (aug = NULL);
    - [stat] is a natural number: no wrap-around of size_t (a tree with black
      height 2^63 does not fit in memory);
    - a failing assertion or a NULL dereference gives [None]. *)

From Coq Require Import List Bool Arith ZArith Lia.
Import ListNotations.

(** dict_tam.h:14-18 [struct cp_set]; E is NULL. *)
Inductive tree : Type :=
| E
| N (l : tree) (x : nat) (s : nat) (r : tree).

(** A frame: a parent node [fid] with its [stat], in which the hole is child
    number [fside] (false = edge[0], true = edge[1]), and the other child. *)
Record frame : Type := mkF {
  fside : bool;
  fid   : nat;
  fst_  : nat;
  fsib  : tree }.

Definition bind {A B} (o : option A) (f : A -> option B) : option B :=
  match o with Some a => f a | None => None end.
Notation "'do' x <- e ;; k" := (bind e (fun x => k))
  (at level 200, x pattern, e at level 100, k at level 200).
(** assert() *)
Definition check {B} (c : bool) (k : option B) : option B :=
  if c then k else None.
Notation "'assert' c ;; k" := (check c k) (at level 200, c at level 100, k at level 200).

(** A node with child [i] = a and child [!i] = b. *)
Definition mk (i : bool) (a : tree) (x s : nat) (b : tree) : tree :=
  if i then N b x s a else N a x s b.

(** dict.h:949-953 [cp_dict_child] *)
Definition child (t : tree) (i : bool) : tree :=
  match t with E => E | N l _ _ r => if i then r else l end.

Definition fill (f : frame) (t : tree) : tree := mk (fside f) t (fid f) (fst_ f) (fsib f).

(** dict.c:371-380 [cp_dict_root], as a term: the whole tree around a position *)
Fixpoint plug (t : tree) (c : list frame) : tree :=
  match c with [] => t | f :: c' => plug (fill f t) c' end.

(** dict.c:66-70 [cp_dict_height2] *)
Definition height2 (t : tree) : nat :=
  match t with E => 0 | N _ _ s _ => 2 * Nat.div2 s end.

(** dict.c:86-90 [cp_dict_red] *)
Definition red (t : tree) : bool :=
  match t with E => false | N _ _ s _ => Nat.odd s end.

(** dict.c:106-111 [cp_dict_set_RED], 113-118 [cp_dict_set_BLACK] on the word *)
Definition st_set_red (s : nat) : nat := if Nat.odd s then s else S s.
Definition st_set_black (s : nat) : nat := if Nat.odd s then pred s else s.

(** dict.c:120-127 [cp_dict_INC_set_BLACK], 139-146 [cp_dict_DEC_set_RED],
    148-153 [cp_dict_INC], 155-161 [cp_dict_DEC] on the word.
    Decrementing a stat of 0 (a black node of height 0, not in any tree)
    would wrap around; it is [None] here. *)
Definition st_inc_set_black (s : nat) : option nat := if Nat.odd s then Some (S s) else None.
Definition st_dec_set_red (s : nat) : option nat :=
  if Nat.odd s then None else match s with O => None | S s' => Some s' end.
Definition st_inc (s : nat) : nat := s + 2.
Definition st_dec (s : nat) : option nat := if 2 <=? s then Some (s - 2) else None.

Definition set_stat (t : tree) (f : nat -> option nat) : option tree :=
  match t with
  | E => None
  | N l x s r => do s' <- f s ;; Some (N l x s' r)
  end.
Definition inc_set_black (t : tree) : option tree := set_stat t st_inc_set_black.
Definition dec_set_red (t : tree) : option tree := set_stat t st_dec_set_red.

(** dict.c:129-137 [cp_dict_ensure_BLACK] *)
Definition ensure_black (t : tree) : option tree :=
  match t with
  | E => None
  | N _ _ _ _ => if red t then inc_set_black t else Some t
  end.

(** dict.c:185-193 [cp_dict_INC_set_BLACK_if_needed] *)
Definition inc_set_black_if_needed (t : tree) : option tree :=
  if red t && (red (child t false) || red (child t true)) then inc_set_black t else Some t.

(** dict.c:232-259 [good_tree]: a local check of one node (used in assertions) *)
Definition good_tree (p : tree) (check_col : bool) : bool :=
  match p with
  | E => true
  | N l _ _ r =>
    if red p then
      negb (check_col && (red l || red r)) &&
      (height2 p =? height2 l) && (height2 p =? height2 r)
    else
      (height2 p =? height2 l + 2) && (height2 p =? height2 r + 2)
  end.

(** dict.c:307-317 [get_black_height] ("-0UL" is 0), 320-324 [very_good_tree] *)
Fixpoint get_black_height (p : tree) : nat :=
  if good_tree p true then
    match p with
    | E => 0
    | N l _ _ _ => get_black_height l + (if red p then 0 else 1)
    end
  else 0.
Definition very_good_tree (p : tree) : bool := get_black_height p =? Nat.div2 (height2 p).

(** Positions: a node (or NULL) and the path above it. *)
Notation zip := (tree * list frame)%type.

(** The frame that is left behind when moving from node [t] to child [i]. *)
Definition frame_of (t : tree) (i : bool) : option frame :=
  match t with
  | E => None
  | N l x s r => Some (mkF i x s (if i then l else r))
  end.

(** dict.c:349-361 [cp_dict_start]: NULL for an empty tree *)
Fixpoint start (t : tree) (c : list frame) (dir : bool) : option zip :=
  match t with
  | E => None
  | N l x s r =>
    if dir then
      match r with E => Some (t, c) | N _ _ _ _ => start r (mkF true x s l :: c) dir end
    else
      match l with E => Some (t, c) | N _ _ _ _ => start l (mkF false x s r :: c) dir end
  end.

(** dict.c:400-405: the loop of [cp_dict_step] that climbs while the node is
    child [!dir] of its parent *)
Fixpoint climb (t : tree) (c : list frame) (dir : bool) : option zip :=
  match c with
  | [] => None
  | f :: c' =>
    if Bool.eqb (fside f) (negb dir) then climb (fill f t) c' dir
    else Some (fill f t, c')
  end.

(** dict.c:391-406 [cp_dict_step] *)
Definition step (z : zip) (dir : bool) : option zip :=
  let '(t, c) := z in
  match frame_of t (negb dir) with
  | None => None
  | Some f =>
    match child t (negb dir) with
    | E => climb t c dir
    | N _ _ _ _ => start (child t (negb dir)) (f :: c) dir
    end
  end.

(** dict.c:408-435 [rb_rotate]: the node [t] = x and its child y = x->edge[!dir];
    NULL for y is a NULL dereference. *)
Definition rotate (dir : bool) (t : tree) : option tree :=
  match t with
  | E => None
  | N l x s r =>
    match (if dir then l else r) with
    | E => None
    | N yl y sy yr =>
      if dir then Some (N yl y sy (N yr x s r))
      else Some (N (N l x s yl) y sy yr)
    end
  end.

(** ** Insertion *)

(** dict.c:437-494 [_balance_insert]; [x] is the node, the first frame is
    x->parent, the second is x->parent->parent. *)
Fixpoint balance_insert (x : tree) (c : list frame) : option tree :=
  match c with
  | f1 :: f2 :: c' =>
    if Nat.odd (fst_ f1) then
      assert red x ;;
      let side := fside f2 in
      let y := fsib f2 in
      if red y then
        do p <- st_inc_set_black (fst_ f1) ;;
        do y' <- inc_set_black y ;;
        balance_insert
          (fill (mkF side (fid f2) (st_set_red (fst_ f2)) y')
             (fill (mkF (fside f1) (fid f1) p (fsib f1)) x)) c'
      else
        do p <- (if Bool.eqb (fside f1) (negb side)
                 then rotate side (fill f1 x) else Some (fill f1 x)) ;;
        do p' <- inc_set_black p ;;
        do q <- (if Nat.odd (fst_ f2) then Some (fst_ f2) else st_dec_set_red (fst_ f2)) ;;
        do top <- rotate (negb side) (fill (mkF side (fid f2) q y) p') ;;
        assert (negb (red top)) ;;
        Some (plug top c')
    else Some (plug x c)
  | _ => Some (plug x c)
  end.

(** dict.c:631-646, end of [cp_dict_insert_ref_aug]: attach the node at a NULL
    edge, whose path is [c], as a red leaf; rebalance; blacken the root. *)
Definition insert_leaf (node : nat) (c : list frame) : option tree :=
  do r <- balance_insert (N E node 1 E) c ;;
  do r' <- ensure_black r ;;
  assert (very_good_tree r') ;;
  Some r'.

(** dict.h:554-590 [cp_dict_ref_t]: parent (NULL or a position), child; the
    path is kept separately. *)

(** dict.c:585-647 [cp_dict_insert_ref_aug].  The preconditions on [node] (not
    in any tree, black) are not modelled.  [root] is the whole tree; a
    position [p] is meant to be a position in it. *)
Definition insert_ref (node : nat) (p : option zip) (i : bool) (root : tree) : option tree :=
  let '(p, i) :=
    match p with
    | None => (start root [] (negb i), negb i)
    | Some _ => (p, i)
    end in
  match p with
  | None => (* initial node *)
    assert (very_good_tree (N E node 1 E)) ;; Some (N E node 1 E)
  | Some (t, c) =>
    match child t i with
    | E =>
      do f <- frame_of t i ;; insert_leaf node (f :: c)
    | N _ _ _ _ => (* inner node *)
      match step (t, c) (negb i) with
      | None => None
      | Some (t', c') =>
        do f <- frame_of t' (negb i) ;;
        match child t' (negb i) with
        | E => insert_leaf node (f :: c')
        | N _ _ _ _ => None
        end
      end
    end
  end.

(** ** Search *)

Record found : Type := mkFound {
  r_node : option zip;     (* the returned node *)
  r_parent : option zip;   (* ref->parent *)
  r_child : bool;          (* ref->child *)
  r_path : nat }.          (* ref->path: 1 left, 2 right, 4 equal *)

Definition dup_e (dup : Z) : bool := (Z.land dup 3 =? 2)%Z.

(** dict.c:505-541 [cp_dict_find_ref_]; [cmp n] stands for cmp(idx, n, user).
    Loop state: the node [n] and its path [c], [p], [i], [pa], [e]. *)
Fixpoint find_ref (cmp : nat -> Z) (dup : Z) (n : tree) (c : list frame)
    (p : option zip) (i : bool) (pa : nat) (e : option zip) : found :=
  match n with
  | E => mkFound (if dup_e dup then e else None) p i pa
  | N l x s r =>
    let d := cmp x in
    let e' := if (d =? 0)%Z then Some (n, c) else e in
    let d' := if (d =? 0)%Z then dup else d in
    if (d' =? 0)%Z then
      mkFound (if dup_e dup then e' else Some (n, c)) p i (Nat.lor pa 4)
    else if (0 <? d')%Z then
      find_ref cmp dup r (mkF true x s l :: c) (Some (n, c)) true (Nat.lor pa 2) e'
    else
      find_ref cmp dup l (mkF false x s r :: c) (Some (n, c)) false (Nat.lor pa 1) e'
  end.

(** The call: i = 1, pa = 0, e = NULL, p = n. *)
Definition find (cmp : nat -> Z) (dup : Z) (root : tree) : found :=
  find_ref cmp dup root []
    (match root with E => None | _ => Some (root, []) end) true 0 None.

(** A node with cached extrema: root, min pointer, max pointer (dict.h:1341-1381). *)
Record cdict : Type := mkC { c_root : tree; c_min : option nat; c_max : option nat }.

Definition zid (z : option zip) : option nat :=
  match z with Some (N _ x _ _, _) => Some x | _ => None end.

(** dict.h:1341-1381 [cp_dict_insert_update_by_aug_].  The result is the
    already existing node (if any) and the new state. *)
Definition insert_update_by (node : nat) (cmp : nat -> Z) (dup : Z) (d : cdict)
  : option (option nat * cdict) :=
  let r := find cmp dup (c_root d) in
  match r_node r with
  | Some z => Some (zid (Some z), d)
  | None =>
    let mx := if Nat.land (r_path r) 5 =? 0 then Some node else c_max d in
    let mn := if Nat.land (r_path r) 6 =? 0 then Some node else c_min d in
    do t <- insert_ref node (r_parent r) (r_child r) (c_root d) ;;
    Some (None, mkC t mn mx)
  end.

Definition oeqb (a b : option nat) : bool :=
  match a, b with
  | None, None => true
  | Some x, Some y => x =? y
  | _, _ => false
  end.

(** dict.h:1413-1446 [cp_dict_insert_update_at_aug]; [pos] is NULL or a position *)
Definition insert_update_at (node : nat) (pos : option zip) (dir : bool) (d : cdict)
  : option cdict :=
  let mx := if oeqb (c_max d) None || (oeqb (c_max d) (zid pos) && dir)
            then Some node else c_max d in
  let mn := if oeqb (c_min d) None || (oeqb (c_min d) (zid pos) && negb dir)
            then Some node else c_min d in
  do t <- insert_ref node pos dir (c_root d) ;;
  Some (mkC t mn mx).

(** ** Removal *)

(** dict.c:328-338 [cp_dict_collapse_edge]: [e] replaces an edge to a node
    whose stat is [s] *)
Definition collapse (s : nat) (e : tree) : tree :=
  match e with
  | E => E
  | N l x s' r => N l x (if Nat.odd s then st_set_red s' else s') r
  end.

(** dict.c:786-850: the body of the loop of [balance_remove] for a black
    sibling w = p->edge[!i]; [f] is p, [c1] the path above it, [next] is the
    continuation of the loop with x = p. *)
Definition balance_black (next : tree -> list frame -> option tree)
    (i : bool) (x : tree) (f : frame) (c1 : list frame) : option tree :=
  match fsib f with
  | E => next (fill f x) c1
  | N _ wx0 ws0 _ =>
    let w := fsib f in
    assert (negb (red w)) ;;
    if negb (red (child w (negb i))) && negb (red (child w i)) then
      do w' <- dec_set_red w ;;
      do p <- st_dec (fst_ f) ;;
      let t := fill (mkF i (fid f) p w') x in
      assert (good_tree t false) ;;
      next t c1
    else
      do w <-
        (if negb (red (child w (negb i))) then
           do r <- inc_set_black (child w i) ;;
           do ws' <- st_dec_set_red ws0 ;;
           do top <- rotate (negb i) (mk i r wx0 ws' (child w (negb i))) ;;
           assert (good_tree (child top (negb i)) true) ;;
           Some top
         else Some w) ;;
      match w with
      | E => None
      | N wl wx ws wr =>
        do (ws', ps) <-
          (if Nat.odd (fst_ f) then Some (st_set_red ws, st_set_black (fst_ f))
           else (do ps <- st_dec (fst_ f) ;; Some (st_inc ws, ps))) ;;
        do q <- inc_set_black (child w (negb i)) ;;
        do top <- rotate i (mk i x (fid f) ps (mk i (child w i) wx ws' q)) ;;
        assert (good_tree top true) ;;
        Some (plug top c1)
      end
  end.

(** dict.c:763-863 [balance_remove]; [x] is p->edge[i], the first frame of [c]
    is p.  [fuel] bounds the number of iterations. *)
Fixpoint balance_remove (fuel : nat) (x : tree) (c : list frame) : option tree :=
  match fuel with
  | O => None
  | S fuel' =>
    if red x then
      do x' <- inc_set_black x ;; Some (plug x' c)
    else
      match c with
      | [] => Some x
      | f :: c1 =>
        let i := fside f in
        assert (good_tree x true && good_tree (fsib f) true) ;;
        if red (fsib f) then
          do w <- inc_set_black (fsib f) ;;
          do p <- st_dec_set_red (fst_ f) ;;
          match w with
          | E => None
          | N _ wx ws _ =>
            (* rb_rotate(i, p): w becomes the parent of p, w's child i becomes
               p's child !i *)
            balance_black (balance_remove fuel') i x (mkF i (fid f) p (child w i))
              (mkF i wx ws (child w (negb i)) :: c1)
          end
        else balance_black (balance_remove fuel') i x f c1
      end
  end.

(** dict.c:657-761 [swap_remove_u] and [remove_u]: unlink the node at the
    position (t, c).  The result is the subtree that took the place of the
    unlinked node, its path, and the colour of the node that vanished from
    its place; an empty path means that the result is the whole tree
    ([*ip] negative). *)
Definition remove_u (t : tree) (c : list frame) : option (tree * list frame * bool) :=
  match t with
  | E => None
  | N (N _ _ _ _ as l) x s (N _ _ _ _ as r) =>
    (* d = cp_dict_next(c) is the first node of the right subtree *)
    match start r [] false with
    | Some (N E d sd e, dc) =>
      Some (collapse s e, dc ++ mkF true d s l :: c, Nat.odd sd)
    | _ => None
    end
  | N l x s r =>
    let b := match l with E => r | _ => l end in
    match c with
    | [] => Some (b, [], Nat.odd s)
    | _ :: _ => Some (collapse s b, c, Nat.odd s)
    end
  end.

(** dict.c:910-948: end of [cp_dict_remove_aug], after unlinking *)
Definition remove_rest (x : tree) (c : list frame) (isred : bool) : option tree :=
  match c with
  | [] => assert (very_good_tree x) ;; Some x
  | _ :: _ =>
    do r <- (if isred then Some (plug x c)
             else balance_remove (2 * length c + 2) x c) ;;
    assert (very_good_tree r) ;;
    Some r
  end.

(** dict.c:888-949 [cp_dict_remove_aug]: remove the node at the position *)
Definition remove (z : zip) : option tree :=
  let '(t, c) := z in
  do (x, c', isred) <- remove_u t c ;;
  remove_rest x c' isred.

(** dict.h:1004-1016 [cp_dict_extract_start_aug] *)
Definition extract_start (root : tree) (i : bool) : option (option nat * tree) :=
  match start root [] i with
  | None => Some (None, root)
  | Some z => do r <- remove z ;; Some (zid (Some z), r)
  end.

(** dict.h:1044-1066 [cp_dict_extract_update_start_aug]; the position of the
    cached extremum is given *)
Definition extract_update_start (ext : option zip) (i : bool) (root : tree)
  : option (option nat * tree * option nat) :=
  match ext with
  | None => Some (None, root, None)
  | Some z =>
    match step z (negb i) with
    | Some _ => None (* assertion *)
    | None =>
      let ext' := zid (step z i) in
      do r <- remove z ;; Some (zid (Some z), r, ext')
    end
  end.

(** ** Join and split *)

(** dict.c:1166-1171: walk down the edge [!i] of the larger tree to a black
    node with height not above [h] *)
Fixpoint join_find (i : bool) (h : nat) (t : tree) (c : list frame) : zip :=
  match t with
  | E => (t, c)
  | N l x s r =>
    if red t || (h <? height2 t) then
      if i then join_find i h l (mkF (negb i) x s r :: c)
      else join_find i h r (mkF (negb i) x s l :: c)
    else (t, c)
  end.

(** dict.c:1184-1206: rebalance after the join; [x] is p->edge[!i], the first
    frame is p. *)
Fixpoint join_balance (i : bool) (x : tree) (c : list frame) : option tree :=
  match c with
  | [] => None
  | [p] =>
    do t <- inc_set_black_if_needed (fill p x) ;; Some t
  | p :: p2 :: c' =>
    if Nat.odd (fst_ p) && red x then
      assert (negb (Nat.odd (fst_ p2))) ;;
      do x' <- inc_set_black x ;;
      do top <- rotate i (fill p2 (fill (mkF (fside p) (fid p) (st_inc (fst_ p)) (fsib p)) x')) ;;
      match c' with
      | [] => inc_set_black_if_needed top
      | _ :: _ => join_balance i top c'
      end
    else
      do t <- inc_set_black_if_needed (fill p x) ;; Some (plug t (p2 :: c'))
  end.

(** dict.c:1120-1213 [cp_dict_join3_aug] *)
Definition join3 (l0 : tree) (m : nat) (r0 : tree) : option tree :=
  let i := height2 l0 <? height2 r0 in
  let l := if i then r0 else l0 in
  let r := if i then l0 else r0 in
  do r <- (if (height2 r <? height2 l) && red r then inc_set_black r else Some r) ;;
  if height2 l =? height2 r then
    do t <- inc_set_black_if_needed (mk i l m (height2 l + 1) r) ;;
    assert (very_good_tree t) ;;
    Some t
  else
    assert (negb (red r)) ;;
    assert (height2 r <? height2 l) ;;
    match frame_of l (negb i) with
    | None => None
    | Some f =>
      let '(c, path) := join_find i (height2 r) (child l (negb i)) [f] in
      let mt := mk i c m (height2 c + 1) r in
      assert (good_tree mt true) ;;
      do t <- join_balance i mt path ;;
      assert (very_good_tree t) ;;
      Some t
    end.

(** dict.c:1232-1246 [cp_dict_join2_aug] *)
Definition join2 (l r : tree) : option tree :=
  match l, r with
  | E, _ => Some r
  | _, E => Some l
  | _, _ =>
    do (m, r') <- extract_start r false ;;
    match m with
    | None => None
    | Some m => join3 l m r'
    end
  end.

(** dict.c:1265-1333 [cp_dict_split_aug_]; [cmp n] is cmp(idx, n, user) *)
Fixpoint split (cmp : nat -> Z) (back : bool) (n : tree) : option (tree * tree) :=
  match n with
  | E => Some (E, E)
  | N nl x _ nr =>
    if (Z.b2z back <=? cmp x)%Z then
      do (nm, r) <- split cmp back nr ;;
      do l <- join3 nl x nm ;;
      Some (l, r)
    else
      do (l, nm) <- split cmp back nl ;;
      do r <- join3 nm x nr ;;
      Some (l, r)
  end.

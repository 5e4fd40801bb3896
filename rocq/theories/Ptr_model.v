(** The pointer level of the balanced trees: the functions of src/hob3lbase/dict.c
    that rewire pointers (rotation, exchange of nodes, unlinking of a node),
    on a heap of nodes.  Dict_model.v has their effects on trees as terms.

    A pointer is a number or NULL ([None]); the heap gives for each pointer the
    content of the node.  An access via NULL and a failing assertion give
    [None].  Nodes are never freed by these functions.  The assertions with
    good_tree, good_children and very_good_tree, which only read, and the
    augmentation callbacks are in Dict_model.v and Aug_model.v and are left out
    here.  Loops have fuel, which bounds the number of iterations. *)
From Coq Require Import List Bool Arith ZArith.
From Verif Require Import Dict_model.
Import ListNotations.

(** dict_tam.h:14-18 [struct cp_set] *)
Record node : Type := mkNode {
  par : option nat;
  e0 : option nat;
  e1 : option nat;
  st : nat }.
Definition heap := nat -> node.

Definition edge (n : node) (i : bool) : option nat := if i then e1 n else e0 n.
Definition with_par (n : node) (p : option nat) : node := mkNode p (e0 n) (e1 n) (st n).
Definition with_edge (n : node) (i : bool) (v : option nat) : node :=
  if i then mkNode (par n) (e0 n) v (st n) else mkNode (par n) v (e1 n) (st n).
Definition with_st (n : node) (s : nat) : node := mkNode (par n) (e0 n) (e1 n) s.

Definition hput (h : heap) (x : nat) (n : node) : heap := fun y => if y =? x then n else h y.
Definition set_par (h : heap) (x : nat) (p : option nat) : heap := hput h x (with_par (h x) p).
(** dict.c:195-202 [cp_dict_set_child] *)
Definition set_edge (h : heap) (x : nat) (i : bool) (v : option nat) : heap :=
  hput h x (with_edge (h x) i v).
(** "if (p != NULL) p->parent = q" *)
Definition set_par_if (h : heap) (p : option nat) (q : option nat) : heap :=
  match p with None => h | Some x => set_par h x q end.

Definition peq (p q : option nat) : bool :=
  match p, q with
  | None, None => true
  | Some x, Some y => x =? y
  | _, _ => false
  end.

(** dict.h:960-965 [cp_dict_idx], dict.c:649-656 [idx] *)
Definition idx (h : heap) (p c : nat) : option bool :=
  assert (peq (e0 (h p)) (Some c) || peq (e1 (h p)) (Some c)) ;;
  Some (peq (e1 (h p)) (Some c)).

(** dict.c:408-435 [rb_rotate]; the result has the new *root *)
Definition rotate_p (dir : bool) (x : nat) (root : option nat) (h : heap)
  : option (heap * option nat) :=
  do y <- edge (h x) (negb dir) ;;
  let h := set_edge h x (negb dir) (edge (h y) dir) in
  let h := set_par_if h (edge (h y) dir) (Some x) in
  let h := set_par h y (par (h x)) in
  do (h, root) <-
    (match par (h x) with
     | None => Some (h, Some y)
     | Some p => do i <- idx h p x ;; Some (set_edge h p i (Some y), root)
     end) ;;
  let h := set_edge h y dir (Some x) in
  let h := set_par h x (Some y) in
  Some (h, root).

(** dict.c:951-960 [swap_update_child] *)
Definition swap_update_child (a b : nat) (h : heap) : option heap :=
  match par (h a) with
  | None => Some h
  | Some p => do i <- idx h p b ;; Some (set_edge h p i (Some a))
  end.

(** dict.c:962-970 [swap_update_parent] *)
Definition swap_update_parent (a : nat) (i : bool) (h : heap) : heap :=
  set_par_if h (edge (h a) i) (Some a).

(** dict.c:988-1028 [cp_dict_swap] *)
Definition swap_p (a b : nat) (h : heap) : option heap :=
  if a =? b then Some h
  else
    let h := hput (hput h a (h b)) b (h a) in
    let p := par (h a) in
    do h <-
      (match p with
       | Some q =>
         if peq p (par (h b)) then
           assert (peq (e0 (h q)) (Some a) || peq (e0 (h q)) (Some b)) ;;
           assert (peq (e1 (h q)) (Some a) || peq (e1 (h q)) (Some b)) ;;
           assert (negb (peq (par (h a)) (Some a))) ;;
           assert (negb (peq (par (h b)) (Some b))) ;;
           Some (hput h q (mkNode (par (h q)) (e1 (h q)) (e0 (h q)) (st (h q))))
         else
           let h := if peq (par (h a)) (Some a) then set_par h a (Some b) else h in
           let h := if peq (par (h b)) (Some b) then set_par h b (Some a) else h in
           do h <- swap_update_child a b h ;; swap_update_child b a h
       | None =>
         let h := if peq (par (h a)) (Some a) then set_par h a (Some b) else h in
         let h := if peq (par (h b)) (Some b) then set_par h b (Some a) else h in
         do h <- swap_update_child a b h ;; swap_update_child b a h
       end) ;;
    let h := swap_update_parent a false h in
    let h := swap_update_parent a true h in
    let h := swap_update_parent b false h in
    let h := swap_update_parent b true h in
    Some h.

(** dict.c:1046-1058 [cp_dict_swap_update_root] *)
Definition swap_root (a b : nat) (r : option nat) : option nat :=
  if peq (Some a) r then Some b else if peq (Some b) r then Some a else r.
Definition swap_update_root (a b : nat) (r : option nat) (h : heap) : option (heap * option nat) :=
  do h <- swap_p a b h ;; Some (h, swap_root a b r).

(** dict.c:1076-1100 [cp_dict_swap_update_root2] with two different pointers
    to roots *)
Definition swap_update_root2 (a b : nat) (r1 r2 : option nat) (h : heap)
  : option (heap * option nat * option nat) :=
  do h <- swap_p a b h ;; Some (h, swap_root a b r1, swap_root a b r2).

(** dict.c:328-338 [cp_dict_collapse_edge] *)
Definition red_p (h : heap) (p : option nat) : bool :=
  match p with None => false | Some x => Nat.odd (st (h x)) end.
Definition collapse_p (h : heap) (r : nat) (i : bool) (e : option nat) : heap :=
  let h := match e with
           | Some x => if red_p h (edge (h r) i) then hput h x (with_st (h x) (st_set_red (st (h x)))) else h
           | None => h
           end in
  set_edge h r i e.

(** dict.c:349-361 [cp_dict_start] for a node that is not NULL *)
Fixpoint start_p (fuel : nat) (h : heap) (n : nat) (dir : bool) : option nat :=
  match fuel with
  | O => None
  | S fuel' =>
    match edge (h n) dir with None => Some n | Some m => start_p fuel' h m dir end
  end.

(** dict.c:371-380 [cp_dict_root] for a node that is not NULL *)
Fixpoint root_p (fuel : nat) (h : heap) (n : nat) : option nat :=
  match fuel with
  | O => None
  | S fuel' => match par (h n) with None => Some n | Some p => root_p fuel' h p end
  end.

(** dict.c:400-405, the loop of [cp_dict_step] *)
Fixpoint climb_p (fuel : nat) (h : heap) (n : nat) (dir : bool) : option (option nat) :=
  match fuel with
  | O => None
  | S fuel' =>
    match par (h n) with
    | None => Some None
    | Some p =>
      if peq (Some n) (edge (h p) (negb dir)) then climb_p fuel' h p dir else Some (Some p)
    end
  end.

(** dict.c:391-406 [cp_dict_step] *)
Definition step_p (fuel : nat) (h : heap) (n : nat) (dir : bool) : option (option nat) :=
  match edge (h n) (negb dir) with
  | Some m => do r <- start_p fuel h m dir ;; Some (Some r)
  | None => climb_p fuel h n dir
  end.

(** dict.c:658-723 [swap_remove_u].  The results are the heap, *root (the parent
    of the edge that collapsed), *ip and the colour of the node that vanished. *)
Definition swap_remove_p (c d : nat) (h : heap) : option (heap * option nat * option bool * bool) :=
  assert (peq (e0 (h d)) None) ;;
  let e := e1 (h d) in
  do father <- par (h d) ;;
  let m := Nat.odd (st (h d)) in
  let h := hput h d (h c) in
  let i := father =? c in
  let father := if i then d else father in
  let h := collapse_p h father i e in
  let h := set_par_if h e (Some father) in
  do h <-
    (match par (h d) with
     | None => Some h
     | Some q =>
       assert (peq (par (h c)) (par (h d))) ;;
       do p <- par (h c) ;;
       do j <- idx h p c ;;
       Some (set_edge h q j (Some d))
     end) ;;
  let h := set_par_if h (e0 (h d)) (Some d) in
  let h := set_par_if h (e1 (h d)) (Some d) in
  Some (h, Some father, Some i, m).

(** dict.c:725-761 [remove_u] *)
Definition remove_p (fuel : nat) (c : nat) (h : heap) : option (heap * option nat * option bool * bool) :=
  match e0 (h c), e1 (h c) with
  | Some _, Some r =>
    do d <- start_p fuel h r false ;; swap_remove_p c d h
  | _, _ =>
    let m := Nat.odd (st (h c)) in
    let b := edge (h c) (match e0 (h c) with None => true | Some _ => false end) in
    let root := par (h c) in
    let h := set_par_if h b (par (h c)) in
    match root with
    | None => Some (h, b, None, m)
    | Some q =>
      do i <- idx h q c ;;
      Some (collapse_p h q i b, root, Some i, m)
    end
  end.

(** The changes of the colour and the height of a node (dict.c:107-190) with
    their assertions, as functions on the stat word in Dict_model.v *)
Definition set_st (h : heap) (x : nat) (s : nat) : heap := hput h x (with_st (h x) s).
Definition upd_st (h : heap) (x : nat) (f : nat -> option nat) : option heap :=
  do s <- f (st (h x)) ;; Some (set_st h x s).

(** dict.c:437-494 [_balance_insert]; the result has the new *root *)
Fixpoint balance_insert_p (fuel : nat) (x : nat) (root : option nat) (h : heap)
  : option (heap * option nat) :=
  match fuel with
  | O => None
  | S fuel' =>
    if peq (Some x) root then Some (h, root)
    else
      do p <- par (h x) ;;
      match par (h p) with
      | None => Some (h, root)
      | Some q =>
        if Nat.odd (st (h p)) then
          assert (Nat.odd (st (h x))) ;;
          do side <- idx h q p ;;
          let y := edge (h q) (negb side) in
          if red_p h y then
            do h <- upd_st h p st_inc_set_black ;;
            do y <- y ;;
            do h <- upd_st h y st_inc_set_black ;;
            let h := set_st h q (st_set_red (st (h q))) in
            balance_insert_p fuel' q root h
          else
            do (h, root, x) <-
              (if peq (Some x) (edge (h p) (negb side)) then
                 do (h, root) <- rotate_p side p root h ;; Some (h, root, p)
               else Some (h, root, x)) ;;
            do p <- par (h x) ;;
            do h <- upd_st h p st_inc_set_black ;;
            do q <- par (h p) ;;
            do h <- (if Nat.odd (st (h q)) then Some h else upd_st h q st_dec_set_red) ;;
            do (h, root) <- rotate_p (negb side) q root h ;;
            do p <- par (h x) ;;
            assert (negb (Nat.odd (st (h p)))) ;;
            Some (h, root)
        else Some (h, root)
      end
  end.

(** dict.c:634-644, end of [cp_dict_insert_ref_aug]: attach the leaf to edge [i]
    of [p], rebalance, make the root black *)
Definition insert_leaf_p (fuel : nat) (x p : nat) (i : bool) (root : option nat) (h : heap)
  : option (heap * option nat) :=
  assert (peq (edge (h p) i) None) ;;
  let h := set_par h x (Some p) in
  let h := set_edge h p i (Some x) in
  let h := set_st h x 1 in
  do (h, root) <- balance_insert_p fuel x root h ;;
  do r <- root ;;
  do h <- (if Nat.odd (st (h r)) then upd_st h r st_inc_set_black else Some h) ;;
  assert (negb (Nat.odd (st (h r)))) ;;
  Some (h, root).

(** dict.h:1290-1300 [cp_dict_is_member] *)
Definition is_member (h : heap) (x : nat) : bool :=
  negb (peq (par (h x)) None && peq (e0 (h x)) None && peq (e1 (h x)) None).

(** dict.c:585-647 [cp_dict_insert_ref_aug] with ref->parent = [p] and ref->child
    = [i] *)
Definition insert_ref_p (fuel : nat) (x : nat) (p : option nat) (i : bool)
    (root : option nat) (h : heap) : option (heap * option nat) :=
  assert (negb (match root with None => false | Some r => (x =? r) || is_member h x end)) ;;
  assert (negb (is_member h x)) ;;
  assert (negb (Nat.odd (st (h x)))) ;;
  do (p, i) <-
    (match p with
     | None =>
       match root with
       | None => Some (None, negb i)
       | Some r => do q <- start_p fuel h r (negb i) ;; Some (Some q, negb i)
       end
     | Some _ => Some (p, i)
     end) ;;
  match p with
  | None => Some (set_st h x 1, Some x)
  | Some p =>
    match edge (h p) i with
    | None => insert_leaf_p fuel x p i root h
    | Some _ =>
      do q <- step_p fuel h p (negb i) ;;
      do q <- q ;;
      insert_leaf_p fuel x q (negb i) root h
    end
  end.

(** dict.c:786-850, the body of the loop of [balance_remove] for a black sibling
    [w] = p->edge[!i]; [next] is the end of the loop *)
Definition balance_black_p (next : option nat -> heap -> option (heap * option nat))
    (p : nat) (i : bool) (w : option nat) (root : option nat) (h : heap)
  : option (heap * option nat) :=
  match w with
  | None => next root h
  | Some w =>
    assert (negb (Nat.odd (st (h w)))) ;;
    if negb (red_p h (edge (h w) (negb i))) && negb (red_p h (edge (h w) i)) then
      do h <- upd_st h w st_dec_set_red ;;
      do h <- upd_st h p st_dec ;;
      next root h
    else
      do (h, root, w) <-
        (if negb (red_p h (edge (h w) (negb i))) then
           do r <- edge (h w) i ;;
           do h <- upd_st h r st_inc_set_black ;;
           do h <- upd_st h w st_dec_set_red ;;
           do (h, root) <- rotate_p (negb i) w root h ;;
           do w <- edge (h p) (negb i) ;;
           Some (h, root, w)
         else Some (h, root, w)) ;;
      do h <-
        (if Nat.odd (st (h p)) then
           let h := set_st h w (st_set_red (st (h w))) in
           Some (set_st h p (st_set_black (st (h p))))
         else
           let h := set_st h w (st_inc (st (h w))) in
           upd_st h p st_dec) ;;
      do q <- edge (h w) (negb i) ;;
      do h <- upd_st h q st_inc_set_black ;;
      rotate_p i p root h
  end.

(** dict.c:763-863 [balance_remove]; [x] is p->edge[i] *)
Fixpoint balance_remove_p (fuel : nat) (x : option nat) (p : nat) (i : bool)
    (root : option nat) (h : heap) : option (heap * option nat) :=
  match fuel with
  | O => None
  | S fuel' =>
    let next root h :=
      match par (h p) with
      | None =>
        do h <- (if Nat.odd (st (h p)) then upd_st h p st_inc_set_black else Some h) ;;
        Some (h, root)
      | Some p2 => do i2 <- idx h p2 p ;; balance_remove_p fuel' (Some p) p2 i2 root h
      end in
    if red_p h x then
      do x <- x ;; do h <- upd_st h x st_inc_set_black ;; Some (h, root)
    else
      let w := edge (h p) (negb i) in
      do (h, root, w) <-
        (if red_p h w then
           do w <- w ;;
           do h <- upd_st h w st_inc_set_black ;;
           do h <- upd_st h p st_dec_set_red ;;
           do (h, root) <- rotate_p i p root h ;;
           Some (h, root, edge (h p) (negb i))
         else Some (h, root, w)) ;;
      balance_black_p next p i w root h
  end.

(** dict.c:888-949 [cp_dict_remove_aug] with a pointer to the root; the result
    has the new *root.  The assertion that *root is the root of [c] is
    in. *)
Definition remove_aug_p (fuel : nat) (c : nat) (root : option nat) (h : heap)
  : option (heap * option nat) :=
  assert (match root with None => false | Some r => (c =? r) || is_member h c end) ;;
  do r0 <- root_p fuel h c ;;
  assert (peq (Some r0) root) ;;
  let z := match par (h c) with
           | None => match e0 (h c) with Some l => Some l | None => e1 (h c) end
           | Some _ => None
           end in
  do (h, p, i, isred) <- remove_p fuel c h ;;
  let h := hput h c (mkNode None None None 0) in
  match i with
  | None =>
    assert (match p with None => true | Some q => peq (par (h q)) None end) ;;
    Some (h, p)
  | Some i =>
    do (h, r) <-
      (if isred then Some (h, None)
       else do q <- p ;; balance_remove_p fuel (edge (h q) i) q i None h) ;;
    match r with
    | Some y => assert (peq (par (h y)) None) ;; Some (h, r)
    | None =>
      match z with
      | Some z =>
        do r <- root_p fuel h z ;;
        assert (peq (par (h r)) None) ;;
        Some (h, Some r)
      | None => Some (h, root)
      end
    end
  end.

(** dict.h:1004-1016 [cp_dict_extract_start_aug] *)
Definition extract_start_p (fuel : nat) (root : option nat) (i : bool) (h : heap)
  : option (option nat * heap * option nat) :=
  match root with
  | None => Some (None, h, root)
  | Some r =>
    do e <- start_p fuel h r i ;;
    do (h, root) <- remove_aug_p fuel e root h ;;
    Some (Some e, h, root)
  end.

(** dict.c:66-70 [cp_dict_height2], dict.c:204-213 [cp_dict_set_child_and_parent],
    dict.c:185-193 [cp_dict_INC_set_BLACK_if_needed] *)
Definition height2_p (h : heap) (p : option nat) : nat :=
  match p with None => 0 | Some x => 2 * Nat.div2 (st (h x)) end.
Definition set_child_par (h : heap) (x : nat) (i : bool) (v : option nat) : heap :=
  set_par_if (set_edge h x i v) v (Some x).
Definition inc_if_needed (h : heap) (x : nat) : option heap :=
  if Nat.odd (st (h x)) && (red_p h (e0 (h x)) || red_p h (e1 (h x)))
  then upd_st h x st_inc_set_black else Some h.

(** dict.c:1158-1166, the loop of [cp_dict_join3_aug] that goes down; [c] is
    p->edge[!i], the limit [hr] is the height of r *)
Fixpoint join_find_p (fuel : nat) (i : bool) (hr : nat) (p : nat) (c : option nat) (h : heap)
  : option (nat * option nat) :=
  match fuel with
  | O => None
  | S fuel' =>
    if red_p h c || (hr <? height2_p h c) then
      do c <- c ;; join_find_p fuel' i hr c (edge (h c) (negb i)) h
    else Some (p, c)
  end.

(** dict.c:1182-1206, the loop of [cp_dict_join3_aug] that goes up; the result is
    the heap, root and p *)
Fixpoint join_balance_p (fuel : nat) (i : bool) (p : nat) (root : option nat) (h : heap)
  : option (heap * option nat * nat) :=
  match fuel with
  | O => None
  | S fuel' =>
    if negb (peq (par (h p)) None) && Nat.odd (st (h p)) && red_p h (edge (h p) (negb i)) then
      let m := p in
      do p <- par (h p) ;;
      assert (negb (Nat.odd (st (h p)))) ;;
      do r <- edge (h m) (negb i) ;;
      do h <- upd_st h r st_inc_set_black ;;
      let h := set_st h m (st_inc (st (h m))) in
      do (h, root) <- rotate_p i p root h ;;
      match par (h m) with
      | None => Some (h, root, m)
      | Some p => join_balance_p fuel' i p root h
      end
    else Some (h, root, p)
  end.

(** dict.c:1120-1213 [cp_dict_join3_aug]; the result is the heap and the root *)
Definition join3_p (fuel : nat) (l : option nat) (m : nat) (r : option nat) (h : heap)
  : option (heap * option nat) :=
  assert (negb (is_member h m)) ;;
  assert (match l with None => true | Some x => peq (par (h x)) None end) ;;
  assert (match r with None => true | Some x => peq (par (h x)) None end) ;;
  let i := height2_p h l <? height2_p h r in
  let '(l, r) := if i then (r, l) else (l, r) in
  do h <- (if (height2_p h r <? height2_p h l) && red_p h r
           then do r <- r ;; upd_st h r st_inc_set_black else Some h) ;;
  if height2_p h l =? height2_p h r then
    let h := set_child_par h m i l in
    let h := set_child_par h m (negb i) r in
    let h := set_st h m (height2_p h l + 1) in
    do h <- inc_if_needed h m ;;
    Some (h, Some m)
  else
    assert (negb (red_p h r)) ;;
    assert (height2_p h r <? height2_p h l) ;;
    do l <- l ;;
    do (p, c) <- join_find_p fuel i (height2_p h r) l (edge (h l) (negb i)) h ;;
    let h := set_child_par h p (negb i) (Some m) in
    let h := set_child_par h m i c in
    let h := set_child_par h m (negb i) r in
    let h := set_st h m (height2_p h c + 1) in
    do (h, root, p) <- join_balance_p fuel i p (Some l) h ;;
    do h <- inc_if_needed h p ;;
    Some (h, root).

(** dict.c:1232-1246 [cp_dict_join2_aug] *)
Definition join2_p (fuel : nat) (l r : option nat) (h : heap) : option (heap * option nat) :=
  match l, r with
  | None, _ => Some (h, r)
  | _, None => Some (h, l)
  | _, _ =>
    do (m, h, r) <- extract_start_p fuel r false h ;;
    do m <- m ;;
    join3_p fuel l m r h
  end.

(** dict.c:1265-1333 [cp_dict_split_aug_]; the results are the heap, *l and *r *)
Fixpoint split_p (fuel : nat) (cmp : nat -> Z) (back : bool) (n : option nat) (h : heap)
  : option (heap * option nat * option nat) :=
  match fuel with
  | O => None
  | S fuel' =>
    match n with
    | None => Some (h, None, None)
    | Some x =>
      assert (peq (par (h x)) None) ;;
      let nl := e0 (h x) in
      let h := set_edge h x false None in
      let h := set_par_if h nl None in
      let nr := e1 (h x) in
      let h := set_edge h x true None in
      let h := set_par_if h nr None in
      assert (negb (is_member h x)) ;;
      if (Z.b2z back <=? cmp x)%Z then
        do (h, nm, r) <- split_p fuel' cmp back nr h ;;
        do (h, l) <- join3_p fuel' nl x nm h ;;
        Some (h, l, r)
      else
        do (h, l, nm) <- split_p fuel' cmp back nl h ;;
        do (h, r) <- join3_p fuel' nm x nr h ;;
        Some (h, l, r)
    end
  end.

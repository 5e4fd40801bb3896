(** Model of the numbering of points: src/hob3l/vec3-dict.c, its use in src/hob3l/stl-parse.c, and the same for paths in
    src/hob3l/svg-parse.c.

    A coordinate (double) is an integer multiple of some unit, and differences are exact.  Points are lists of coordinates.
    The locations of points are left out. *)
From Coq Require Import ZArith List Bool Arith.
From Verif Require Import Dict_model Dict_spec.
Import ListNotations.

(** algo.h 78 [cp_e_eq] with cp_eq_epsilon (algo.h 89 [cp_eq]) *)
Definition cp_eq (e a b : Z) : bool := (Z.abs (a - b) <? e)%Z.
(** algo.c 41-49 [cp_lex_cmp]; mat_gen_inl.h 12-25 [cp_vec2_lex_cmp], [cp_vec3_lex_cmp] *)
Fixpoint lex_cmp (e : Z) (a b : list Z) : Z :=
  match a, b with
  | x :: a, y :: b => if negb (cp_eq e x y) then (if (x <? y)%Z then -1 else 1)%Z else lex_cmp e a b
  | _, _ => 0%Z
  end.

(** vec3-dict.h [cp_vec3_dict_t], [cp_vec3_dict_node_t]: the tree, and what is stored in node idx; nodes are identified by idx *)
Record vdict : Type := mk_vdict { root : tree; vsize : nat; coord : nat -> list Z }.
Definition empty : vdict := mk_vdict E 0 (fun _ => []).
(** vec3-dict.c 24-42 [cp_vec3_dict_insert]; the result is idx of the returned node *)
Definition dict_insert (e : Z) (v : list Z) (d : vdict) : option (nat * vdict) :=
  let r := find (fun n => lex_cmp e v (coord d n)) 0 (root d) in
  match r_node r with
  | Some z => match zid (Some z) with Some n => Some (n, d) | None => None end
  | None =>
    let n := vsize d in
    do t <- insert_ref n (r_parent r) (r_child r) (root d) ;;
    Some (n, mk_vdict t (S (vsize d)) (fun i => if i =? n then v else coord d i))
  end.
(** stl-parse.c 352-366, 565-576 [parse_vertex], [bin_vertex], for all vertices of a file *)
Fixpoint insert_all (e : Z) (vs : list (list Z)) (d : vdict) : option (list nat * vdict) :=
  match vs with
  | [] => Some ([], d)
  | v :: vs =>
    do (n, d) <- dict_insert e v d ;;
    do (l, d) <- insert_all e vs d ;;
    Some (n :: l, d)
  end.

(** cp_v_nth: fails if out of bounds *)
Fixpoint set_nth {A} (l : list A) (i : nat) (x : A) : option (list A) :=
  match l, i with
  | [], _ => None
  | _ :: l, 0 => Some (x :: l)
  | y :: l, S i => do l <- set_nth l i x ;; Some (y :: l)
  end.
(** stl-parse.c 411-421 [make_solid]: the points are copied into an array; cp_dict_each visits the nodes in order *)
Definition make_points (d : vdict) : option (list (list Z)) :=
  fold_left (fun (a : option (list (list Z))) n => do q <- a ;; set_nth q n (coord d n)) (inorder (root d)) (Some (repeat [] (vsize d))).
(** stl-parse.c 422-429 [make_solid]: the references of the faces *)
Fixpoint make_refs (q : list (list Z)) (idx : list nat) : option (list (list Z)) :=
  match idx with
  | [] => Some []
  | n :: idx => do v <- nth_error q n ;; do l <- make_refs q idx ;; Some (v :: l)
  end.
(** A whole file: the points at the vertices of the facets (three at a time) after deduplication *)
Definition dedup (e : Z) (vs : list (list Z)) : option (list (list Z)) :=
  do (idx, d) <- insert_all e vs empty ;;
  do q <- make_points d ;;
  make_refs q idx.

(** svg-parse.c [path_uniquify]: a point with its index in the path (aux1) and the index of the path (aux2) *)
Record spoint : Type := mk_spoint { scoord : list Z; aux1 : nat; aux2 : nat }.
(** The state of the loop svg-parse.c 323-341: the array, k, the index of qp, and the paths (path number, number in path) *)
Record ustate : Type := mk_ustate { arr : list spoint; uk : nat; qp : option nat; path : nat -> nat -> option nat }.
Definition path_set (f : nat -> nat -> option nat) (i j : nat) (r : nat) : nat -> nat -> option nat :=
  fun i' j' => if (i' =? i) && (j' =? j) then Some r else f i' j'.
Definition uniq_step (e : Z) (s : option ustate) (j : nat) : option ustate :=
  do s <- s ;;
  do qj <- nth_error (arr s) j ;;
  do new <- match qp s with
            | None => Some true
            | Some p => do q <- nth_error (arr s) p ;; Some (negb (lex_cmp e (scoord qj) (scoord q) =? 0)%Z)
            end ;;
  if new : bool then
    (* the code reads qj->aux1, aux2 through the pointer, i.e., after this assignment *)
    do a <- set_nth (arr s) (uk s) qj ;;
    do qj <- nth_error a j ;;
    Some (mk_ustate a (S (uk s)) (Some j) (path_set (path s) (aux2 qj) (aux1 qj) (uk s)))
  else
    Some (mk_ustate (arr s) (uk s) (qp s) (path_set (path s) (aux2 qj) (aux1 qj) (uk s - 1))).
(** svg-parse.c 318-343, after sorting: the points and the paths *)
Definition uniquify (e : Z) (sorted : list spoint) : option (list spoint * (nat -> nat -> option nat)) :=
  do s <- fold_left (uniq_step e) (seq 0 (length sorted)) (Some (mk_ustate sorted 0 None (fun _ _ => None))) ;;
  Some (firstn (uk s) (arr s), path s).

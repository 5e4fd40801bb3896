(** Model of the path data of SVG files: src/hob3l/svg-parse.c 261-614 and 755-1302.
    The text is a list of bytes, whose end is the terminating NUL.
    Coordinates are of an abstract type with the operations that the code uses.
    Simplifications: white space outside of ASCII is not modelled (cp_utf8_take yields the byte itself for ASCII,
    which C22 shows); locations and messages are left out; the inner points of Bezier curves (svg-parse.c 474-484,
    545-555) are parameters; arcs ('A', 'a') are not modelled: they are the outcome [Unmodelled]. *)
From Coq Require Import ZArith List Bool.
Import ListNotations.
Local Open Scope Z_scope.

Definition text := list Z.

Definition hd0 (t : text) : Z := hd 0 t.

(** xml-parse.c 150-153 [cp_xml_is_space], ASCII part *)
Definition is_space (c : Z) : bool := (c =? 32) || (c =? 9) || (c =? 13) || (c =? 10) || (c =? 12).
Definition is_digit (c : Z) : bool := (48 <=? c) && (c <=? 57).

(** svg-parse.c 760-776 *)
Fixpoint s_sep (comma : bool) (t : text) : text :=
  match t with
  | [] => []
  | c :: r => if comma && (c =? 44) then s_sep false r else if is_space c then s_sep comma r else t
  end.

(** svg-parse.c 852-862 *)
Definition looking (t : text) : bool :=
  let c := hd0 (s_sep false t) in
  (c =? 44) || (c =? 46) || (c =? 45) || (c =? 43) || is_digit c.

(** svg-parse.c 879: an optional sign *)
Definition skip_sign (t : text) : text :=
  match t with c :: r => if (c =? 45) || (c =? 43) then r else t | [] => [] end.

(** svg-parse.c 886-902: the loop over digits and one dot; have_digit and the rest *)
Fixpoint mant (dot digit : bool) (t : text) : bool * text :=
  match t with
  | [] => (digit, [])
  | c :: r => if is_digit c then mant dot true r else
              if negb dot && (c =? 46) then mant true digit r else (digit, t)
  end.

(** svg-parse.c 919-922: have_exp and the rest *)
Fixpoint exp_digits (h : bool) (t : text) : bool * text :=
  match t with
  | [] => (h, [])
  | c :: r => if is_digit c then exp_digits true r else (h, t)
  end.

(** svg-parse.c 871-933, after [s_sep]: the rest behind the number.  In line 918 the sign is looked for at s, i.e.,
    at the letter e, and not at t. *)
Definition str_float (t : text) : option text :=
  let s := skip_sign t in
  let '(d, s) := mant false false s in
  if negb d then None else
  if (hd0 s =? 101) || (hd0 s =? 69) then
    let s' := skip_sign s in
    let '(h, t') := exp_digits false (tl s) in
    Some (if h then t' else s')
  else Some s.

(** A state of the path reader, 55-68: points with aux1 (number in path) and aux2 (number of path); whether poly
    is not NULL; [bad]: an assertion has failed. *)
Section Path.
Variable D : Type.
Variables (dzero : D) (dadd : D -> D -> D) (dmir : D -> D -> D) (deq : D -> D -> bool).
Definition pt := (D * D)%type.
(** the inner points for a quadratic and for a cubic curve *)
Variable quad_in : pt -> pt -> pt -> list pt.
Variable cub_in : pt -> pt -> pt -> pt -> list pt.
(** strtod: the value and the number of bytes that were read *)
Variable strtod : text -> D * nat.

Inductive prev := P0 | PQ | PC.

Record st := mk_st {
  out : list (pt * nat * nat);
  poly : bool;
  path_idx : nat;
  point_idx : nat;
  init : pt;
  cur : pt;
  ctrl : pt;
  prev_cmd : prev;
  bad : bool
}.

(** 156-166 [path_new] *)
Definition st0 : st := mk_st [] false 0 0 (dzero, dzero) (dzero, dzero) (dzero, dzero) P0 false.

(** 261-276 *)
Definition path_cur (q : st) (p : pt) (k : prev) (c : pt) : st :=
  mk_st (out q) (poly q) (path_idx q) (point_idx q) (init q) p c k (bad q).

(** 278-291, and 293-306 [path_end] *)
Definition path_close (q : st) : st :=
  let q := path_cur q (init q) P0 (dzero, dzero) in
  if negb (poly q) then q else
  if Nat.eqb (point_idx q) 0 then q else
  mk_st (out q) (poly q) (S (path_idx q)) 0 (init q) (cur q) (ctrl q) (prev_cmd q) (bad q).

(** 360-386 *)
Definition path_push (q : st) (p : pt) : st :=
  let b := if poly q then false else negb (Nat.eqb (point_idx q) 0 && Nat.eqb (path_idx q) 0) in
  mk_st (out q ++ [(p, point_idx q, path_idx q)]) true (path_idx q) (S (point_idx q)) (init q) (cur q) (ctrl q) (prev_cmd q) (bad q || b).

(** 388-397 *)
Definition path_start (q : st) : st :=
  if Nat.eqb (point_idx q) 0 then
    path_push (mk_st (out q) (poly q) (path_idx q) (point_idx q) (cur q) (cur q) (ctrl q) (prev_cmd q) (bad q)) (cur q)
  else q.

(** 399-411 *)
Definition path_line_abs (q : st) (p : pt) : st :=
  if deq (fst (cur q)) (fst p) && deq (snd (cur q)) (snd p) then q else
  path_cur (path_push (path_start q) p) p P0 (dzero, dzero).

Definition padd (p q : pt) : pt := (dadd (fst p) (fst q), dadd (snd p) (snd q)).
Definition pmir (c k : pt) : pt := (dmir (fst c) (fst k), dmir (snd c) (snd k)).

(** 413-425 *)
Definition path_line (rel : bool) (p : pt) (q : st) : st :=
  path_line_abs q (if rel then padd p (cur q) else p).
(** 427-437 *)
Definition path_horiz (rel : bool) (x : D) (q : st) : st :=
  path_line_abs q (if rel then dadd x (fst (cur q)) else x, snd (cur q)).
(** 439-449 *)
Definition path_vert (rel : bool) (y : D) (q : st) : st :=
  path_line_abs q (fst (cur q), if rel then dadd y (snd (cur q)) else y).
(** 451-464 *)
Definition path_move (rel : bool) (p : pt) (q : st) : st :=
  let p := if rel then padd p (cur q) else p in
  path_cur (path_close q) p P0 (dzero, dzero).

(** 466-486 *)
Definition path_quad_abs (q : st) (p1 p2 : pt) : st :=
  let q := path_start q in
  let q := fold_left path_push (quad_in (cur q) p1 p2) q in
  path_cur (path_push q p2) p2 PQ p1.
(** 488-504 *)
Definition path_quad (rel : bool) (p1 p2 : pt) (q : st) : st :=
  let ab p := if rel then padd p (cur q) else p in path_quad_abs q (ab p1) (ab p2).
(** 506-533 *)
Definition path_squad (rel : bool) (p2 : pt) (q : st) : st :=
  let p2 := if rel then padd p2 (cur q) else p2 in
  path_quad_abs q (match prev_cmd q with PQ => pmir (cur q) (ctrl q) | _ => cur q end) p2.
(** 535-557 *)
Definition path_cub_abs (q : st) (p1 p2 p3 : pt) : st :=
  let q := path_start q in
  let q := fold_left path_push (cub_in (cur q) p1 p2 p3) q in
  path_cur (path_push q p3) p3 PC p2.
(** 559-579 *)
Definition path_cub (rel : bool) (p1 p2 p3 : pt) (q : st) : st :=
  let ab p := if rel then padd p (cur q) else p in path_cub_abs q (ab p1) (ab p2) (ab p3).
(** 581-614 *)
Definition path_scub (rel : bool) (p2 p3 : pt) (q : st) : st :=
  let ab p := if rel then padd p (cur q) else p in
  path_cub_abs q (match prev_cmd q with PC => pmir (cur q) (ctrl q) | _ => cur q end) (ab p2) (ab p3).

(** 935-947 *)
Definition s_double (comma : bool) (t : text) : option (D * text) :=
  let t := s_sep comma t in
  match str_float t with
  | None => None
  | Some r =>
      let '(v, n) := strtod t in
      if Nat.eqb n (length t - length r) then Some (v, r) else None
  end.

(** 968-999: n numbers *)
Fixpoint s_nums (n : nat) (comma : bool) (t : text) : option (list D * text) :=
  match n with
  | O => Some ([], t)
  | S n =>
      match s_double comma t with
      | None => None
      | Some (v, t) =>
          match s_nums n true t with
          | None => None
          | Some (vs, t) => Some (v :: vs, t)
          end
      end
  end.

Inductive res := Done (q : st) (t : text) | Stop (q : st) | Unmodelled | NoFuel.

(** 1160-1253 [str_path_val1], [str_path_coord1], ..2, ..3: what is behind the first rendering *)
Fixpoint loop (fuel : nat) (n : nat) (other : list D -> st -> st) (t : text) (q : st) : res :=
  match fuel with
  | O => NoFuel
  | S fuel =>
      if looking t then
        match s_nums n true (s_sep false t) with
        | None => Stop q
        | Some (vs, t) => loop fuel n other t (other vs q)
        end
      else Done q (s_sep false t)
  end.

Definition group (n : nat) (first other : list D -> st -> st) (t : text) (q : st) : res :=
  match s_nums n false (s_sep false t) with
  | None => Stop q
  | Some (vs, t) => loop (S (length t)) n other t (first vs q)
  end.

Definition arg1 (f : D -> st -> st) (vs : list D) (q : st) : st := match vs with [x] => f x q | _ => q end.
Definition arg2 (f : pt -> st -> st) (vs : list D) (q : st) : st := match vs with [x; y] => f (x, y) q | _ => q end.
Definition arg4 (f : pt -> pt -> st -> st) (vs : list D) (q : st) : st :=
  match vs with [x1; y1; x2; y2] => f (x1, y1) (x2, y2) q | _ => q end.
Definition arg6 (f : pt -> pt -> pt -> st -> st) (vs : list D) (q : st) : st :=
  match vs with [x1; y1; x2; y2; x3; y3] => f (x1, y1) (x2, y2) (x3, y3) q | _ => q end.

(** the switch, 1286-1299 *)
Definition command (c : Z) (t : text) (q : st) : res :=
  let rel := (97 <=? c) && (c <=? 122) in
  match c with
  | 90 | 122 => Done (path_close q) t
  | 77 | 109 => group 2 (arg2 (path_move rel)) (arg2 (path_line rel)) t q
  | 76 | 108 => group 2 (arg2 (path_line rel)) (arg2 (path_line rel)) t q
  | 72 | 104 => group 1 (arg1 (path_horiz rel)) (arg1 (path_horiz rel)) t q
  | 86 | 118 => group 1 (arg1 (path_vert rel)) (arg1 (path_vert rel)) t q
  | 81 | 113 => group 4 (arg4 (path_quad rel)) (arg4 (path_quad rel)) t q
  | 67 | 99 => group 6 (arg6 (path_cub rel)) (arg6 (path_cub rel)) t q
  | 84 | 116 => group 2 (arg2 (path_squad rel)) (arg2 (path_squad rel)) t q
  | 83 | 115 => group 4 (arg4 (path_scub rel)) (arg4 (path_scub rel)) t q
  | 65 | 97 => Unmodelled
  | _ => Stop q
  end.

(** 1278-1302 *)
Fixpoint str_path (fuel : nat) (t : text) (q : st) : res :=
  match fuel with
  | O => NoFuel
  | S fuel =>
      match s_sep false t with
      | [] => Done q []
      | c :: t =>
          match command c t q with
          | Done q t => str_path fuel t q
          | x => x
          end
      end
  end.

Definition parse_path (t : text) : res := str_path (S (length t)) t st0.

(** 344-347: [path_fini] up to [path_uniquify], whose assertion fails if there is no polygon *)
Definition path_fini (q : st) : option (list (pt * nat * nat)) :=
  let q := path_close q in if poly q && negb (bad q) then Some (out q) else None.

(** 1595-1606 [csg2_from_path]: the points that are handed to [path_uniquify]; whether the text was read
    to its end does not matter *)
Definition from_path (t : text) : option (option (list (pt * nat * nat))) :=
  match parse_path t with
  | Done q _ => Some (path_fini q)
  | Stop q => Some (path_fini q)
  | _ => None
  end.
End Path.

(** Model of the placement of the shapes of an SVG file: src/hob3l/svg-parse.c 748-758, 1015-1056, 1304-1475, 1579-1593,
    1742-1850 and svg-elem.sieve.
    Numbers are exact rationals; only the matrix itself is modelled, its stored inverse only where said so.
    Simplifications: the attribute [transform] is given as list of commands, each the name and its numbers (svg-parse.c
    1333-1351 reads them; for numbers see C61); an element is given by its kind, [id], [transform], and children; for an
    inner or outer [svg] element, what is applied before and after [transform] (1557-1590) is given as two matrices;
    no errors happen in the shapes. *)
From Coq Require Import ZArith QArith Qabs List Bool.
Import ListNotations.
Local Open Scope Q_scope.

Definition name := list Z.

(** cp_mat2w_t: b00 b01 w0, b10 b11 w1 *)
Record mat := mk_mat { m00 : Q; m01 : Q; w0 : Q; m10 : Q; m11 : Q; w1 : Q }.

(** mat_gen_ext.c 1006-1019 *)
Definition mul (a b : mat) : mat :=
  mk_mat (m00 a * m00 b + m01 a * m10 b) (m00 a * m01 b + m01 a * m11 b) (m00 a * w0 b + m01 a * w1 b + w0 a)
         (m10 a * m00 b + m11 a * m10 b) (m10 a * m01 b + m11 a * m11 b) (m10 a * w0 b + m11 a * w1 b + w1 a).

(** mat_gen_inl.h: cp_mat2w_xlat, cp_mat2w_scale, cp_mat2w_rot (2370-2393, mat_gen_ext.c cp_mat2_rot_ij) *)
Definition xlat (x y : Q) : mat := mk_mat 1 0 x 0 1 y.
Definition scale (x y : Q) : mat := mk_mat x 0 0 0 y 0.
Definition rot (s c : Q) : mat := mk_mat c (- s) 0 s c 0.

(** strncmp (cmd, name, cmd_len) = 0 for a cmd of letters: cmd is a prefix of the name *)
Fixpoint prefix (a b : name) : bool :=
  match a, b with
  | [], _ => true
  | x :: a, y :: b => Z.eqb x y && prefix a b
  | _, [] => false
  end.

Definition translate_ : name := [116; 114; 97; 110; 115; 108; 97; 116; 101]%Z.
Definition scale_ : name := [115; 99; 97; 108; 101]%Z.
Definition skewX_ : name := [115; 107; 101; 119; 88]%Z.
Definition skewY_ : name := [115; 107; 101; 119; 89]%Z.
Definition rotate_ : name := [114; 111; 116; 97; 116; 101]%Z.
Definition matrix_ : name := [109; 97; 116; 114; 105; 120]%Z.

Section Doc.
(** cp_tan_deg, and CP_SINCOS_DEG *)
Variables tand sind cosd : Q -> Q.

Definition tcmd := (name * list Q)%type.

(** 1354-1445: the matrices that are multiplied, in order; None if the command is not understood *)
Definition xform_cmd (t : tcmd) : option (list mat) :=
  let '(cmd, val) := t in
  let n := length val in
  let v i := nth i val 0 in
  match cmd with
  | 116%Z :: _ =>
      if prefix cmd translate_ then
        if Nat.ltb 2 n then None else Some [xlat (v 0%nat) (v 1%nat)]
      else None
  | 115%Z :: _ =>
      if prefix cmd scale_ then
        if Nat.ltb 2 n then None else Some [scale (v 0%nat) (if Nat.ltb n 2 then v 0%nat else v 1%nat)]
      else if prefix cmd skewX_ then
        if Nat.ltb 1 n then None else Some [mk_mat 1 (tand (v 0%nat)) 0 0 1 0]
      else if prefix cmd skewY_ then
        if Nat.ltb 1 n then None else Some [mk_mat 1 0 0 (tand (v 0%nat)) 1 0]
      else None
  | 114%Z :: _ =>
      if prefix cmd rotate_ then
        if Nat.ltb 3 n then None else
        if Nat.leb 3 n then
          Some [xlat (v 1%nat) (v 2%nat); rot (sind (v 0%nat)) (cosd (v 0%nat)); xlat (- v 1%nat) (- v 2%nat)]
        else Some [rot (sind (v 0%nat)) (cosd (v 0%nat))]
      else None
  | 109%Z :: _ =>
      if prefix cmd matrix_ then
        if Nat.ltb 6 n then None else
        Some [mk_mat (v 0%nat) (v 2%nat) (v 4%nat) (v 1%nat) (v 3%nat) (v 5%nat)]
      else None
  | _ => None
  end.

(** 1456-1461: the matrix and whether all commands were understood *)
Fixpoint xform_list (cs : list tcmd) (m : mat) : mat * bool :=
  match cs with
  | [] => (m, true)
  | c :: cs =>
      match xform_cmd c with
      | None => (m, false)
      | Some ms => xform_list cs (fold_left mul ms m)
      end
  end.

(** local_t: the matrix, and the layer that is still searched for (NULL: active) *)
Record loc := mk_loc { lmat : mat; layer : option name }.

Definition name_eqb (a b : name) : bool := if list_eq_dec Z.eq_dec a b then true else false.

(** 1447-1475 [process_std_attr] *)
Definition std_attr (id : option name) (tr : option (list tcmd)) (c : loc) : loc :=
  match tr with
  | None => c
  | Some cs =>
      let '(m, ok) := xform_list cs (lmat c) in
      if negb ok then mk_loc m (layer c) else
      match layer c with
      | None => mk_loc m None
      | Some l =>
          match id with
          | Some i => if name_eqb l i then mk_loc m None else mk_loc m (Some l)
          | None => mk_loc m (Some l)
          end
      end
  end.

(** svg-elem.sieve: g and unknown elements; circle, ..., polyline; title, ..., foreignObject, and elements of other
    name spaces; svg *)
Inductive kind := Group | Shape (n : nat) | Skipped | Svg (pre post : mat).
Inductive elem := El (k : kind) (id : option name) (tr : option (list tcmd)) (ch : list elem).

(** 1742-1850: the shapes that are drawn, with their matrix *)
Fixpoint draw (c : loc) (e : elem) : list (nat * mat) :=
  match e with
  | El k id tr ch =>
      match k with
      | Skipped => []
      | Shape n =>
          let c := std_attr id tr c in
          match layer c with Some _ => [] | None => [(n, lmat c)] end
      | Group => let c := std_attr id tr c in flat_map (draw c) ch
      | Svg pre post =>
          let c := std_attr id tr (mk_loc (mul (lmat c) pre) (layer c)) in
          flat_map (draw (mk_loc (mul (lmat c) post) (layer c))) ch
      end
  end.

(** 1853-1911 [cp_svg_parse]: the empty layer is none; the y axis is reversed *)
Definition svg_parse (m : mat) (lay : option name) (es : list elem) : list (nat * mat) :=
  let lay := match lay with Some [] => None | l => l end in
  flat_map (draw (mk_loc (mul m (scale 1 (- (1)))) lay)) es.
End Doc.

(** strstr (hay, needle) != NULL *)
Fixpoint contains (hay needle : name) : bool :=
  prefix needle hay || match hay with [] => false | _ :: h => contains h needle end.

(** 748-758 *)
Definition match_align (hay mn md mx : name) : Q :=
  if contains hay mn then 0 else if contains hay md then 1 # 2 else if contains hay mx then 1 else - (1).

Definition xMin : name := [120; 77; 105; 110]%Z.
Definition xMid : name := [120; 77; 105; 100]%Z.
Definition xMax : name := [120; 77; 97; 120]%Z.
Definition YMin : name := [89; 77; 105; 110]%Z.
Definition YMid : name := [89; 77; 105; 100]%Z.
Definition YMax : name := [89; 77; 97; 120]%Z.
Definition slice_ : name := [115; 108; 105; 99; 101]%Z.

(** algo.h 713-716; cp_eq_epsilon is eps *)
Definition div0 (eps a b : Q) : Q := if negb (Qle_bool eps (Qabs b)) then 0 else a / b.

Definition qlt (a b : Q) : bool := negb (Qle_bool b a).

(** 1015-1056 [svg_xform]: the matrix and its stored inverse *)
Definition svg_xform (eps vx vy vw vh ex ey ew eh : Q) (pas : name) : mat * mat :=
  let ax := match_align pas xMin xMid xMax in
  let ay := match_align pas YMin YMid YMax in
  let do_align := qlt ax 0 && qlt ay 0 in
  let slice := contains pas slice_ in
  let sx := div0 eps ew vw in
  let sy := div0 eps eh vh in
  let '(sx, sy) := if do_align then if xorb (qlt sx sy) slice then (sx, sx) else (sy, sy) else (sx, sy) in
  let tx := ex - vx * sx in
  let ty := ey - vy * sy in
  let '(tx, ty) := if do_align then (tx + (ew - vw * sx) * ax, ty + (eh - vh * sy) * ay) else (tx, ty) in
  (mk_mat sx 0 tx 0 sy ty,
   mk_mat (div0 eps 1 sx) 0 (div0 eps tx sx) 0 (div0 eps 1 sy) (div0 eps ty sy)).

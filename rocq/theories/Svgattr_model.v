(** Model of reading lengths and the attribute [transform] of SVG files: src/hob3l/svg-parse.c 98-116, 778-850, 1067-1157,
    1323-1349, 1447-1464 and 1608-1654.  Texts and numbers are as in Svgpath_model.v (C61); what the commands of [transform]
    do is in Svgdoc_model.v (C62). *)
From Coq Require Import ZArith QArith List Bool.
From Verif Require Import Svgpath_model Svgdoc_model.
Import ListNotations.
Local Open Scope Q_scope.

(** 785-791 [s_expect_raw] *)
Fixpoint expect_raw (w t : text) : option text :=
  match w, t with
  | [], _ => Some t
  | x :: w, y :: t => if Z.eqb x y then expect_raw w t else None
  | _, [] => None
  end.

(** 793-799 [s_expect] *)
Definition expect (w t : text) : option text := expect_raw w (s_sep false t).

(** 778-783 [s_end] *)
Definition at_end (t : text) : bool := match s_sep false t with [] => true | _ => false end.

(** 99-116: the units in px *)
Definition U_IN_MM : Q := 254 # 10.
Definition U_CM_MM : Q := 10.
Definition U_IN_PX : Q := 96.
Definition U_IN_PT : Q := 72.
Definition U_IN_PC : Q := 6.
Definition U_PT_PX : Q := U_IN_PX / U_IN_PT.
Definition U_PC_PX : Q := U_IN_PX / U_IN_PC.
Definition U_MM_PX : Q := U_IN_PX / U_IN_MM.
Definition U_CM_PX : Q := U_CM_MM * U_MM_PX.

Definition try_unit (w : text) (u : Q) (t : text) (els : Q * text) : Q * text :=
  match expect_raw w t with Some r => (u, r) | None => els end.

(** 801-850 [s_unit_dim] *)
Definition unit_dim (perc100 unit1 : Q) (t : text) : Q * text :=
  match t with
  | 37%Z :: r => (perc100 / 100, r)
  | 105%Z :: _ => try_unit [105; 110]%Z U_IN_PX t (unit1, t)
  | 109%Z :: _ => try_unit [109; 109]%Z U_MM_PX t (unit1, t)
  | 99%Z :: _ => try_unit [99; 109]%Z U_CM_PX t (unit1, t)
  | 112%Z :: _ => try_unit [112; 120]%Z 1 t (try_unit [112; 116]%Z U_PT_PX t (try_unit [112; 99]%Z U_PC_PX t (unit1, t)))
  | _ => (unit1, t)
  end.

Section Attr.
Variable strtod : text -> Q * nat.
Notation s_double := (s_double Q strtod).

(** 1067-1084 [s_dim] *)
Definition s_dim (perc100 unit1 : Q) (comma : bool) (t : text) : option (Q * text) :=
  match s_double false (s_sep comma t) with
  | None => None
  | Some (r, t) => let '(u, t) := unit_dim perc100 unit1 t in Some (r * u, t)
  end.

(** 1086-1098 [s_attr_dim], behind [s_attr_str] *)
Definition attr_dim (perc100 unit1 : Q) (t : text) : option Q :=
  match s_dim perc100 unit1 false t with
  | Some (r, t) => if at_end t then Some r else None
  | None => None
  end.

(** syn.c 106-111 [syn_is_alpha] *)
Definition is_alpha (c : Z) : bool := ((65 <=? c) && (c <=? 90) || (97 <=? c) && (c <=? 122))%Z.
Fixpoint alphas (t : text) : name * text :=
  match t with
  | [] => ([], [])
  | c :: r => if is_alpha c then let '(a, r) := alphas r in (c :: a, r) else ([], t)
  end.

(** 1343-1345: up to k more numbers; the separator before a number that is missing is skipped *)
Fixpoint more (k : nat) (t : text) : list Q * text :=
  match k with
  | O => ([], t)
  | S k =>
      match s_double true t with
      | None => ([], s_sep true t)
      | Some (v, t) => let '(vs, t) := more k t in (v :: vs, t)
      end
  end.

(** 1329-1349, the first part of [xform_cmd] *)
Definition xform_text (t : text) : option (tcmd * text) :=
  let '(cmd, t) := alphas t in
  match expect [40%Z] t with
  | None => None
  | Some t =>
      match s_double false t with
      | None => None
      | Some (v, t) =>
          let '(vs, t) := more 7 t in
          match expect [41%Z] t with
          | None => None
          | Some t => Some ((cmd, v :: vs), t)
          end
      end
  end.

(** 1458-1464, the loop in [process_std_attr]: the commands that are read, and whether the text was read to its end *)
Fixpoint transform_loop (fuel : nat) (t : text) : option (list tcmd * bool) :=
  match fuel with
  | O => None
  | S fuel =>
      match t with
      | [] => Some ([], true)
      | _ =>
          match xform_text t with
          | None => Some ([], false)
          | Some (c, t) =>
              match transform_loop fuel (s_sep true t) with
              | None => None
              | Some (cs, ok) => Some (c :: cs, ok)
              end
          end
      end
  end.
Definition transform_text (t : text) : option (list tcmd * bool) :=
  transform_loop (S (length t)) (s_sep false t).

(** 1457-1464: the same loop as it is in the code, each command is applied when it is read; the matrix, and whether
    the loop was left at the end of the text *)
Variables tand sind cosd : Q -> Q.
Fixpoint apply_loop (fuel : nat) (t : text) (m : mat) : option (mat * bool) :=
  match fuel with
  | O => None
  | S fuel =>
      match t with
      | [] => Some (m, true)
      | _ =>
          match xform_text t with
          | None => Some (m, false)
          | Some (c, t) =>
              match xform_cmd tand sind cosd c with
              | None => Some (m, false)
              | Some ms => apply_loop fuel (s_sep true t) (fold_left mul ms m)
              end
          end
      end
  end.
Definition apply_text (t : text) (m : mat) : option (mat * bool) := apply_loop (S (length t)) (s_sep false t) m.

(** 1086-1098 [s_attr_dim] with the attribute: None if there is none *)
Definition attr_opt (perc100 unit1 : Q) (a : option text) : option Q :=
  match a with Some t => attr_dim perc100 unit1 t | None => None end.

(** 1100-1111 [s_attr_coord]: the result, and *xp and *yp; [w], [h]: c->width, c->height *)
Definition attr_coord (w h : Q) (ax ay : option text) : bool * (Q * Q) :=
  match attr_opt w 1 ax with
  | None => (false, (0, 0))
  | Some x =>
      match attr_opt h 1 ay with
      | None => (false, (x, 0))
      | Some y => (true, (x, y))
      end
  end.

Definition auto_ : text := [97; 117; 116; 111]%Z.
Definition not_auto (a : option text) : option text :=
  match a with Some t => if name_eqb t auto_ then None else Some t | None => None end.

(** 1113-1156 [s_attr_size] *)
Definition attr_size (w h : Q) (aw ah : option text) : bool * (Q * Q) :=
  match not_auto aw, not_auto ah with
  | None, None => (true, (0, 0))
  | Some tw, Some th =>
      match attr_dim w 1 tw, attr_dim h 1 th with
      | Some x, Some y => (true, (x, y))
      | _, _ => (false, (0, 0))
      end
  | None, Some th => match attr_dim h 1 th with Some y => (true, (y, y)) | None => (false, (0, 0)) end
  | Some tw, None => match attr_dim w 1 tw with Some x => (true, (x, x)) | None => (false, (0, 0)) end
  end.

(** what 1608-1654 [csg2_from_rect] draws: the position, the lengths of the straight edges, and the radii; None if nothing.
    The drawing itself (a path of four lines and four arcs) is not modelled. *)
Record rect := mk_rect { r_x : Q; r_y : Q; r_ew : Q; r_eh : Q; r_rx : Q; r_ry : Q }.
Definition Qltb (a b : Q) : bool := negb (Qle_bool b a).
Definition from_rect (w h : Q) (ax ay aw ah arx ary : option text) : option rect :=
  let '(px, py) := snd (attr_coord w h ax ay) in
  let '(width, height) := snd (attr_coord w h aw ah) in
  if Qle_bool width 0 || Qle_bool height 0 then None else
  let '(rx, ry) := snd (attr_size w h arx ary) in
  if Qle_bool rx 0 || Qle_bool ry 0 then Some (mk_rect px py width height 0 0) else
  let rx := if Qltb (width / 2) rx then width / 2 else rx in
  let ry := if Qltb (height / 2) ry then height / 2 else ry in
  Some (mk_rect px py (width - 2 * rx) (height - 2 * ry) rx ry).
End Attr.

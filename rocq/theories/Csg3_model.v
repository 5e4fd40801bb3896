(** Model of src/hob3l/csg3.c: the conversion of the SCAD tree into a 3D CSG tree.

    Abstract: matrices (cp_mat3wi_t: [unit], [mul]), the solids that basic shapes make, and the construction of solids from the
    polygons of children ([build]: linear_extrude, rotate_extrude, hull, projection).  Left out: colors and other modifiers than
    ignoring and root, locations, messages.  The settings that decide whether a problem is an error or is ignored are
    part of the nodes. *)
From Coq Require Import List Bool.
Import ListNotations.

Section Csg3.
Variables (mat X op : Type) (unit : mat) (mul : mat -> mat -> mat).

(** The outcome of a basic shape: the solids it makes in a proper context, or a complaint (about emptiness) that is ignored, or an
    error.  csg3.c 746-793, 833-1560. *)
Inductive shape := Solids (xs : list X) | Ignored | Bad.
(** A transformation: a translation of length 0 (274), one with a matrix, or a useless one that is ignored or is an error (297, 335, 356) *)
Inductive xform := Nothing | Use (a : mat) | Useless (err : bool).
(** include/hob3l/scad_tam.h; [ign]: CP_GC_MOD_IGNORE, [root]: this is the node search_root points to.
    [d] of a shape: whether it is for 3D; [out]: whether the wrong context is an error (err_outside_2d, err_outside_3d). *)
Inductive scad := Node (ign root : bool) (k : kind)
with kind :=
| Union (l : list scad)
| Difference (l : list scad)
| Intersection (l : list scad)
| Xform (x : xform) (l : list scad)
| Color (l : list scad)
| Extrude (o : op) (out : bool) (l : list scad)      (* linear_extrude, rotate_extrude *)
| Hull (o : op) (out : bool) (l : list scad)
| Projection (o : op) (out : bool) (l : list scad)
| Shape (d out : bool) (s : shape)
| Import (d out : bool) (s : shape).

(** include/hob3l/csg_tam.h, csg3_tam.h: a basic solid with its matrix, and operations, whose operands are unions *)
Inductive csg := Leaf (x : X) (m : mat) | Sub (add sub : list csg) | Cut (l : list (list csg)) | Xor (l : list (list csg)).
(** Outcome of building solids from the solids of children *)
Inductive built := Push (l : list csg) | Fail.
Variable build : op -> mat -> list csg -> built.

(** *no, the result r, and c->tree->root_xform *)
Record state := mk_state { no : bool; objs : list csg; root_xform : option mat }.
Inductive res := Ok (s : state) | Error | Assert.
Definition bind (x : res) (f : state -> res) : res := match x with Ok s => f s | Error => Error | Assert => Assert end.
(** cp_syn_msg: syn-msg.c 264-277 *)
Definition msg (err : bool) (st : state) : res := if err then Error else Ok st.
Definition set_no (st : state) : state := mk_state true (objs st) (root_xform st).
Definition found (st : state) : bool := match root_xform st with Some _ => true | None => false end.

(** csg3.c 218-231 [csg3_cut_push_add] *)
Definition cut_push_add (cut : list (list csg)) (add : list csg) : list (list csg) := match add with [] => cut | _ => cut ++ [add] end.

Section Children.
Variable conv : scad -> bool -> bool -> mat -> state -> res.
(** csg3.c 97-111 [csg3_from_v_scad] *)
Fixpoint children (l : list scad) (dim srch : bool) (m : mat) (st : state) : res :=
  match l with [] => Ok st | x :: l => bind (conv x dim srch m st) (fun st => children l dim srch m st) end.
(** csg3.c 123-216 [csg3_from_difference]; [f] are the children up to the first one that is not empty (150-157), [st0] is the state before *)
Fixpoint difference (l : list scad) (st0 : state) (m : mat) (dim : bool) (f : state) : res :=
  match l with
  | x :: l' =>
    if no f then
      match objs f with
      | [] => Ok (mk_state true (objs st0) (root_xform f))
      | [Sub a b] =>
        bind (children l dim false m (mk_state true b (root_xform f))) (fun g =>
        Ok (mk_state (no g) (objs st0 ++ [Sub a (objs g)]) (root_xform g)))
      | fs =>
        bind (children l dim false m (mk_state true [] (root_xform f))) (fun g =>
        match objs g with
        | [] => Ok (mk_state (no g) (objs st0 ++ fs) (root_xform g))
        | gs => Ok (mk_state (no g) (objs st0 ++ [Sub fs gs]) (root_xform g))
        end)
      end
    else bind (conv x dim false m f) (fun f => difference l' st0 m dim f)
  | [] => Ok (mk_state (no st0 || no f) (objs st0 ++ objs f) (root_xform f))
  end.
(** csg3.c 233-267 [csg3_from_intersection]; [st] has the current add, [r] is the result before *)
Fixpoint intersection (l : list scad) (m : mat) (dim : bool) (cut : list (list csg)) (r : list csg) (st : state) : res :=
  match l with
  | x :: l =>
    let cut := cut_push_add cut (objs st) in
    bind (conv x dim false m (mk_state (no st) [] (root_xform st))) (fun st => intersection l m dim cut r st)
  | [] =>
    match cut with
    | [] => Ok (mk_state (no st) (r ++ objs st) (root_xform st))
    | _ =>
      match cut_push_add cut (objs st) with
      | [] | [_] => Assert
      | cut => Ok (mk_state (no st) (r ++ [Cut cut]) (root_xform st))
      end
    end
  end.
End Children.

(** csg3.c 2104-2270 [csg3_from_scad], with the functions it calls: 113-121 [csg3_from_rec], 269-407 the transformations, 746-1560 the
    shapes, 1560-1745 [csg3_from_linext], 1748-1808 [csg3_from_hull], 1969-2102 [csg3_from_rotext], 1144-1201 [csg3_from_projection].
    [dim]: c->context is IN3D; [srch]: c->search_root is not NULL; [m]: m->mat. *)
Fixpoint conv (s : scad) (dim srch : bool) (m : mat) (st : state) {struct s} : res :=
  match s with Node ign root k =>
    if srch && found st then Ok st else
    let '(srch, m, st) := if srch && root then (false, unit, mk_state (no st) (objs st) (Some m)) else (srch, m, st) in
    if ign then Ok st else
    let xf (x : xform) (l : list scad) :=
      match x with Nothing => children conv l dim srch m st | Use a => children conv l dim srch (mul m a) st | Useless err => msg err st end in
    let finish (o : op) (m : mat) (rc : state) :=
      match build o m (objs rc) with Fail => Error | Push l => Ok (mk_state (no rc) (objs st ++ l) (root_xform rc)) end in
    if srch then
      match k with
      | Union l | Difference l | Intersection l | Extrude _ _ l | Hull _ _ l | Projection _ _ l => children conv l dim true m st
      | Xform x l => xf x l
      | Color l => children conv l dim true m st
      | Shape _ _ _ | Import _ _ _ => Ok st
      end
    else
      match k with
      | Union l => children conv l dim false m st
      | Difference l => difference conv l st m dim (mk_state false [] (root_xform st))
      | Intersection l => intersection conv l m dim [] (objs st) (mk_state (no st) [] (root_xform st))
      | Xform x l => xf x l
      | Color l => children conv l dim false m st
      | Extrude o out l => if negb dim then msg out st else bind (children conv l false false unit (mk_state (no st) [] (root_xform st))) (finish o m)
      | Hull o out l => if dim then msg out st else bind (children conv l false false unit (mk_state (no st) [] (root_xform st))) (finish o unit)
      | Projection o out l => if dim then msg out st else bind (children conv l true false unit (mk_state (no st) [] (root_xform st))) (finish o unit)
      | Shape d out s =>
        if negb (Bool.eqb d dim) then msg out st else
        match s with Solids xs => Ok (mk_state true (objs st ++ map (fun x => Leaf x m) xs) (root_xform st)) | Ignored => Ok (set_no st) | Bad => Error end
      | Import d out s =>
        let st := set_no st in
        if negb (Bool.eqb d dim) then msg out st else
        match s with Solids xs => Ok (mk_state true (objs st ++ map (fun x => Leaf x m) xs) (root_xform st)) | Ignored => Ok st | Bad => Error end
      end
  end.
Definition conv_v := children conv.

(** csg3.c 2272-2320 [cp_csg3_from_scad], [cp_csg3_from_v_scad], 2475-2500 [cp_csg3_from_scad_tree]; [root]: scad->root, [keep]: opt->keep_ctxt.
    The result: root->add and root_xform. *)
Definition from_scad_tree (keep : bool) (root : option scad) (toplevel : list scad) : res :=
  let st := mk_state false [] None in
  match root with
  | Some r => if keep then conv_v toplevel true true unit st else conv r true false unit st
  | None => conv_v toplevel true false unit st
  end.
End Csg3.

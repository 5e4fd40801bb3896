(** Meaning of 2D CSG trees, and what flattening needs from the plane sweep. *)
From Coq Require Import List Arith Bool.
From Verif Require Import Bitmap_model Bitmap_spec Lazy_model.
Import ListNotations.

Section Spec.

Variables region sweep point : Type.
Variable region_in : region -> point -> bool.
Variable sweep_in : sweep -> point -> bool.

Definition item_in (i : item region sweep) (p : point) : bool :=
  match i with
  | IVline2 _ _ r | IPoly _ _ r => region_in r p
  | ISweep _ _ s => sweep_in s p
  end.

(** What the plane sweep has to deliver: the result contains a point iff the table has
    an entry for the set of polygons the point is in. *)
Definition sweep_correct (run : list (item region sweep) -> (nat -> bool) -> sweep) : Prop :=
  forall items table p,
    sweep_in (run items table) p = table (mask_index (map (fun i => item_in i p) items)).

Definition empty_correct (e : sweep -> bool) : Prop :=
  forall s, e s = true -> forall p, sweep_in s p = false.

Definition void_correct (v : region -> bool) : Prop :=
  forall r, v r = true -> forall p, region_in r p = false.

(** Is point [p] inside of the CSG tree at layer [zi]? *)
Fixpoint csg_in (zi : nat) (p : point) (a : csg region) : bool :=
  match a with
  | CVline2 _ r | CPoly _ r => region_in r p
  | CStack _ idx0 layers =>
      (* layer idx0 + i is the i-th entry; it counts only if it was filled for zi *)
      match nth_error (map (fun l : nat * option (list (csg region)) =>
                match l with
                | (_, None) => false
                | (lzi, Some root) => (lzi =? zi) && existsb (csg_in zi p) root
                end) layers) (zi - idx0) with
      | Some b => (idx0 <=? zi) && b
      | None => false
      end
  | CAdd _ add => existsb (csg_in zi p) add
  | CXor _ xor => fold_right xorb false (map (existsb (csg_in zi p)) xor)
  | CSub _ add sub => existsb (csg_in zi p) add && negb (existsb (csg_in zi p) sub)
  | CCut _ [] => false
  | CCut _ cut => forallb (existsb (csg_in zi p)) cut
  end.

(** Stacks are in the form the layer step leaves them in (csg2-layer.c): a layer that was
    filled carries its own index; a layer that was not carries 0. *)
Fixpoint csg_ok (zi : nat) (a : csg region) : bool :=
  match a with
  | CVline2 _ r | CPoly _ r => true
  | CStack _ idx0 layers =>
      match nth_error (map (fun l : nat * option (list (csg region)) =>
                match l with
                | (lzi, None) => (lzi =? 0) || (lzi =? zi)
                | (lzi, Some root) => ((lzi =? 0) || (lzi =? zi)) && forallb (csg_ok zi) root
                end) layers) (zi - idx0) with
      | Some b => b
      | None => true
      end
  | CAdd _ add => forallb (csg_ok zi) add
  | CXor _ xor => forallb (forallb (csg_ok zi)) xor
  | CSub _ add sub => forallb (csg_ok zi) add && forallb (csg_ok zi) sub
  | CCut _ cut => forallb (forallb (csg_ok zi)) cut
  end.

(** Result of flattening, as set: no structure = empty. *)
Definition result_in (r : option sweep) (p : point) : bool :=
  match r with None => false | Some s => sweep_in s p end.

End Spec.

(** C07: combination tables denote the boolean function that was composed. *)
From Coq Require Import List NArith Arith Bool Lia.
From Verif Require Import Bitmap_model Bitmap_spec Bitmap_proofs.
Import ListNotations.

(** Widening a table over n polygons by m polygons appended behind, another one over m
    polygons by n polygons put in front, and combining them evaluates as the operator applied to
    both tables on their own polygons.  No assertion fails. *)
Theorem C07_combine_tables : forall r b n m op,
  wf r -> wf b -> n + m <= max_lazy ->
  exists r' b',
    bitmap_repeat r n m = Some r' /\
    bitmap_spread b m n = Some b' /\
    wf (bitmap_combine r' b' (n + m) op) /\
    forall x y, length x = n -> length y = m ->
      bitmap_get (bitmap_combine r' b' (n + m) op) (mask_index (x ++ y)) =
      op_bool op (bitmap_get r (mask_index x)) (bitmap_get b (mask_index y)).
Proof. exact combine_tables. Qed.

(** Setting an entry changes exactly this entry. *)
Theorem C07_set_get : forall b i v k,
  wf b -> bitmap_get (bitmap_set b i v) k = if Nat.eqb k i then v else bitmap_get b k.
Proof. exact bitmap_set_get. Qed.

(** Concrete: (p0 ADD p1) SUB (p2 CUT p3) *)
Definition tab_add : mem := fun k => if Nat.eqb k 0 then 14%N else 0%N.
Definition tab_cut : mem := fun k => if Nat.eqb k 0 then 8%N else 0%N.

Example C07_nontrivial :
  wf tab_add /\ wf tab_cut /\ 2 + 2 <= max_lazy /\
  (forall x0 x1, bitmap_get tab_add (mask_index [x0; x1]) = x0 || x1) /\
  (forall x0 x1, bitmap_get tab_cut (mask_index [x0; x1]) = x0 && x1) /\
  match bitmap_repeat tab_add 2 2, bitmap_spread tab_cut 2 2 with
  | Some r, Some b =>
      map (bitmap_get (bitmap_combine r b 4 OP_SUB)) (seq 0 16) =
      [false; true; true; true; false; true; true; true;
       false; true; true; true; false; false; false; false]
  | _, _ => False
  end.
Proof.
  split; [intros [|k]; reflexivity|]. split; [intros [|k]; reflexivity|].
  split; [cbv; lia|].
  split; [intros [] []; reflexivity|]. split; [intros [] []; reflexivity|].
  vm_compute. reflexivity.
Qed.

Print Assumptions C07_combine_tables.
Print Assumptions C07_set_get.

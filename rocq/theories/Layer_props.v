(** C59: each layer of the output is the cut of the 3D tree at the height of that layer. *)
From Coq Require Import List Arith Bool Lia Permutation.
From Verif Require Import Bitmap_model Bitmap_spec Lazy_model Lazy_spec Lazy_proofs Lazy_props.
From Verif Require Import Layer_model Layer_spec Layer_proofs Layer_proofs2.
Import ListNotations.

(** In whatever order the layers are processed (main.c counts up; its comment speaks of threads), no
    assertion fails, an error is one of triangulation, and otherwise the output has [cnt] layers, layer
    [i] has height [zof i], is flagged exactly if it has a polygon, and its polygon is the cut of the 3D tree
    at that height, as given by the cuts of the single objects and the boolean operations of the tree. *)
Theorem C59_layers :
  forall (obj zt region sweep poly point : Type) slice region_void run_sweep sweep_empty trianglify points
         solid_in region_in sweep_in poly_in,
  slice_correct obj zt region point solid_in region_in slice ->
  sweep_correct region sweep point region_in sweep_in run_sweep ->
  empty_correct sweep point sweep_in sweep_empty ->
  void_correct region point region_in region_void ->
  tri_correct sweep poly point sweep_in poly_in sweep_empty trianglify points ->
  forall opt cnt zof root zis,
  2 <= max_simultaneous opt -> skip_empty opt = true -> Permutation zis (seq 0 cnt) ->
  match run_in obj zt region slice sweep region_void run_sweep sweep_empty poly trianglify points
          opt false cnt zof root zis with
  | Crash => False
  | Error => exists s, trianglify s = None
  | Done (_, r) =>
      o_z _ _ r = map zof (seq 0 cnt) /\ length (o_layer _ _ r) = cnt /\ length (o_flag _ _ r) = cnt /\
      forall i, i < cnt ->
        layer_is zt poly point poly_in r i (fun p => root_in obj zt point solid_in (zof i) p root)
  end.
Proof.
  intros obj zt region sweep poly point slice region_void run_sweep sweep_empty trianglify points
    solid_in region_in sweep_in poly_in SL RU EM VO TR opt cnt zof root zis MX SK PE.
  pose proof (run_in_ok obj zt region sweep poly point slice region_void run_sweep sweep_empty trianglify points
    solid_in region_in sweep_in poly_in SL RU EM VO TR opt false cnt zof root MX SK zis) as H.
  assert (ND : NoDup zis).
  { eapply Permutation_NoDup; [apply Permutation_sym; exact PE|apply seq_NoDup]. }
  assert (IN : forall zi, In zi zis <-> zi < cnt).
  { intros zi. split; intros X.
    - eapply Permutation_in in X; [|exact PE]. apply in_seq in X. lia.
    - eapply Permutation_in; [apply Permutation_sym; exact PE|]. apply in_seq. lia. }
  specialize (H ND (fun zi X => proj1 (IN zi) X)).
  destruct (run_in _ _ _ _ _ _ _ _ _ _ _ _ _ _ _ _ _) as [| |[t r]]; [exact H|apply H|].
  destruct H as [_ _ _ Id Io [Il If]]. cbn [fst snd] in *.
  repeat split; auto. intros i Hi. apply Id; [exact Hi| |reflexivity]. apply in_rev. rewrite rev_involutive.
  now apply IN.
Qed.

(** The order of the code. *)
Theorem C59_counting_up :
  forall (obj zt region sweep poly point : Type) slice region_void run_sweep sweep_empty trianglify points
         solid_in region_in sweep_in poly_in,
  slice_correct obj zt region point solid_in region_in slice ->
  sweep_correct region sweep point region_in sweep_in run_sweep ->
  empty_correct sweep point sweep_in sweep_empty ->
  void_correct region point region_in region_void ->
  tri_correct sweep poly point sweep_in poly_in sweep_empty trianglify points ->
  forall opt cnt zof root,
  2 <= max_simultaneous opt -> skip_empty opt = true -> (forall s, trianglify s <> None) ->
  exists t r,
    run_layers obj zt region slice sweep region_void run_sweep sweep_empty poly trianglify points
      opt false cnt zof root = Done (t, r) /\
    forall i, i < cnt ->
      nth_error (o_z _ _ r) i = Some (zof i) /\
      layer_is zt poly point poly_in r i (fun p => root_in obj zt point solid_in (zof i) p root).
Proof.
  intros obj zt region sweep poly point slice region_void run_sweep sweep_empty trianglify points
    solid_in region_in sweep_in poly_in SL RU EM VO TR opt cnt zof root MX SK TT.
  pose proof (C59_layers obj zt region sweep poly point slice region_void run_sweep sweep_empty trianglify points
    solid_in region_in sweep_in poly_in SL RU EM VO TR opt cnt zof root (seq 0 cnt) MX SK (Permutation_refl _)) as H.
  unfold run_layers. destruct (run_in _ _ _ _ _ _ _ _ _ _ _ _ _ _ _ _ _) as [| |[t r]].
  - destruct H.
  - destruct H as [s E]. now apply TT in E.
  - exists t, r. split; [reflexivity|]. destruct H as (Hz & _ & _ & H). intros i Hi. split; [|auto].
    rewrite Hz. now apply nth_z.
Qed.

(** With [--no-csg] (main.c 105) the tree of stacks itself is the output: each layer of it has the
    meaning of the cut of the 3D tree, for each order; this is also the tree that 'projection' hands to the 2D
    part (csg3.c 1186-1198, with one layer).  No assertion fails, and in particular [csg_ok], which the
    theorems of C08 assume, holds. *)
Theorem C59_stacks :
  forall (obj zt region sweep poly point : Type) slice region_void run_sweep sweep_empty trianglify points
         solid_in region_in sweep_in poly_in,
  slice_correct obj zt region point solid_in region_in slice ->
  sweep_correct region sweep point region_in sweep_in run_sweep ->
  empty_correct sweep point sweep_in sweep_empty ->
  void_correct region point region_in region_void ->
  tri_correct sweep poly point sweep_in poly_in sweep_empty trianglify points ->
  forall opt cnt zof root zis,
  2 <= max_simultaneous opt -> skip_empty opt = true -> NoDup zis -> (forall i, In i zis -> i < cnt) ->
  exists t r,
    run_in obj zt region slice sweep region_void run_sweep sweep_empty poly trianglify points
          opt true cnt zof root zis = Done (t, r) /\
    forall i, In i zis ->
      csg_ok region i (to_csg obj region (TAdd _ _ (fst t))) = true /\
      forall p, csg_in region point region_in i p (to_csg obj region (TAdd _ _ (fst t)))
                = root_in obj zt point solid_in (zof i) p root.
Proof.
  intros obj zt region sweep poly point slice region_void run_sweep sweep_empty trianglify points
    solid_in region_in sweep_in poly_in SL RU EM VO TR opt cnt zof root zis MX SK ND IN.
  pose proof (run_in_ok obj zt region sweep poly point slice region_void run_sweep sweep_empty trianglify points
    solid_in region_in sweep_in poly_in SL RU EM VO TR opt true cnt zof root MX SK zis ND IN) as H.
  destruct (run_in _ _ _ _ _ _ _ _ _ _ _ _ _ _ _ _ _) as [| |[t r]]; [destruct H|destruct H; discriminate|].
  exists t, r. split; [reflexivity|]. intros i Hi.
  destruct (i_done _ _ _ _ _ _ _ _ _ _ _ _ _ _ H i (IN i Hi)) as (A & B & _); [|auto].
  apply in_rev. now rewrite rev_involutive.
Qed.

(** *** A concrete run: the plane with four points of Lazy_props.v; an object is a box: its set of
    points, its bottom and its top *)
Definition box : Type := (reg * (nat * nat))%type.
Definition box_in (o : box) (z : nat) (p : pt) : bool :=
  (fst (snd o) <=? z) && (z <? snd (snd o)) && fst o p.
Definition box_slice (o : box) (z : nat) : option reg :=
  if (fst (snd o) <=? z) && (z <? snd (snd o)) then Some (fst o) else None.

Lemma box_slice_ok : slice_correct box nat reg pt box_in reg_in box_slice.
Proof. intros o z p. unfold box_in, box_slice, reg_in. destruct ((fst (snd o) <=? z) && (z <? snd (snd o))); reflexivity. Qed.

Definition tri4 (s : reg) : option reg := Some s.
Lemma tri4_ok : tri_correct reg reg pt reg_in reg_in reg_empty tri4 (fun _ => 3).
Proof. intros s q E. injection E as <-. split; [reflexivity|lia]. Qed.

Definition all4 : reg := fun _ => true.

(** a box from 0 to 8, minus a pin from 2 to 20, plus the common part of two boxes, plus the symmetric difference
    of two; above 8 the subtracted pin is not even sliced *)
Definition tree4 : list (csg3 box) :=
  [ T3Sub _ [T3Obj _ (all4, (0, 8))] [T3Obj _ (only true true, (2, 20))];
    T3Cut _ [[T3Obj _ (all4, (10, 14))]; [T3Obj _ (only true true, (11, 30)); T3Obj _ (only false true, (12, 30))]];
    T3Xor _ [[T3Obj _ (all4, (16, 18))]; [T3Add _ [T3Obj _ (only false false, (17, 20))]]] ].

Definition show (r : res ((list (tree box reg) * list nat) * out nat reg)) :=
  match r with
  | Done (_, r) => map (fun l => match snd l with
                        | Some [q] => map q [(false, false); (false, true); (true, false); (true, true)]
                        | _ => [] end) (o_layer _ _ r)
  | _ => []
  end.

Example C59_nontrivial :
  slice_correct box nat reg pt box_in reg_in box_slice /\
  tri_correct reg reg pt reg_in reg_in reg_empty tri4 (fun _ => 3) /\
  show (run_layers box nat reg box_slice reg reg_empty reg_run reg_empty reg tri4 (fun _ => 3)
          (mk_opt 2 true) false 11 (fun i => 2 * i) (Some tree4)) =
  [ [true; true; true; true];      (* 0 *)
    [true; true; true; false];     (* 2 *)
    [true; true; true; false];     (* 4 *)
    [true; true; true; false];     (* 6 *)
    [];                            (* 8 *)
    [];                            (* 10 *)
    [false; true; false; true];    (* 12 *)
    [];                            (* 14 *)
    [true; true; true; true];      (* 16 *)
    [true; false; false; false];   (* 18 *)
    [] ] /\                        (* 20 *)
  show (run_in box nat reg box_slice reg reg_empty reg_run reg_empty reg tri4 (fun _ => 3)
          (mk_opt 2 true) false 4 (fun i => 2 * i) (Some tree4) [2; 0; 3; 1]) =
  [ [true; true; true; true]; [true; true; true; false]; [true; true; true; false]; [true; true; true; false] ].
Proof.
  split; [exact box_slice_ok|]. split; [exact tri4_ok|]. split; vm_compute; reflexivity.
Qed.

Example C59_permutation : Permutation [2; 0; 3; 1] (seq 0 4).
Proof.
  cbn. apply perm_trans with (0 :: [2; 3; 1]); [constructor|]. constructor.
  apply Permutation_sym. apply (Permutation_cons_app [2; 3] [] 1). apply Permutation_refl.
Qed.

Print Assumptions C59_layers.
Print Assumptions C59_counting_up.
Print Assumptions C59_stacks.

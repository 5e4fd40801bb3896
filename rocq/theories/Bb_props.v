(** C31: the bounding box of a model contains the model *)
From Coq Require Import List Bool ZArith Lia ZifyBool.
From Verif Require Import Bb_model Csg3_spec Csg3_proofs Bb_spec Bb_proofs.
Import ListNotations.

(** For trees without spheres (the full claim includes them: see the refutation). *)
Theorem C31_model_partial : forall gt poly sphere, (forall a b, gt a b = true -> le a b = false) -> solids poly sphere ->
  forall l p, every no_sphere l -> any (fun t => sem poly sphere t p) l -> in_box (tree_minmax gt EMPTY (Some l) false) p.
Proof.
  intros gt poly sphere GT S l p N H. cbn [tree_minmax]. apply (v_covers gt GT (sem poly sphere)); [|exact N|exact H].
  intros x _. exact (sem_covers gt GT poly sphere S x).
Qed.
Theorem C31_parts_partial : forall gt poly sphere, (forall a b, gt a b = true -> le a b = false) -> solids poly sphere ->
  forall l p, every no_sphere l -> any (fun t => parts poly sphere t p) l -> in_box (tree_minmax gt EMPTY (Some l) true) p.
Proof.
  intros gt poly sphere GT S l p N H. cbn [tree_minmax]. apply (v_covers gt GT (parts poly sphere)); [|exact N|exact H].
  intros x _. exact (parts_cover gt GT poly sphere S x).
Qed.
(** The box is not larger than needed for the corners of all polyhedra, and with subtracted parts, it is the smallest box that contains
    all corners *)
Theorem C31_least_partial : forall gt, (forall a b, gt a b = true -> le a b = false) ->
  forall l B, every no_sphere l -> every cuts_ok l ->
  ((forall v, In v (flat_map (corners true) l) -> in_box B v) <-> within (tree_minmax gt EMPTY (Some l) true) B).
Proof.
  intros gt GT l B N C. cbn [tree_minmax]. split.
  - intros H. apply v_small; [intros; apply all_small|exact N|exact C|exact H|apply within_empty].
  - intros W v I. apply (within_in _ _ _ W). apply v_cornered; [exact GT|intros x _; exact (all_cornered gt GT x)|exact N|exact I].
Qed.
Theorem C31_small_partial : forall gt,
  forall l B, every no_sphere l -> every cuts_ok l ->
  (forall v, In v (flat_map (corners false) l) -> in_box B v) -> within (tree_minmax gt EMPTY (Some l) false) B.
Proof.
  intros gt l B N C H. cbn [tree_minmax]. apply v_small; [intros; apply all_small|exact N|exact C|exact H|apply within_empty].
Qed.

(** ** Concrete trees *)
(** cp_gt with epsilon 2: b - a < -2 *)
Definition gt2 (a b : num) : bool :=
  match a, b with Fin a, Fin b => (b - a <? -2)%Z | NInf, _ | _, PInf => false | _, _ => true end.
Lemma gt2_ok : forall a b, gt2 a b = true -> le a b = false.
Proof. intros [|a|] [|b|]; cbn; try discriminate; auto. lia. Qed.
(** A solid is the box around its corners, a sphere is the box with its bounds *)
Definition box_poly (pts : list point) (n : nat) (p : point) : Prop :=
  4 <= length pts /\ 4 <= n /\ forall i, exists v w, In v pts /\ In w pts /\ (v i <= p i <= w i)%Z.
Definition box_sphere (lo hi : vec) (p : point) : Prop := in_box (mk_box lo hi) p.
Lemma box_solids : solids box_poly box_sphere.
Proof. split; [intros pts n p (A & B & _); auto|intros pts n p (_ & _ & C); exact C|intros lo hi p H; exact H]. Qed.
Definition pt (x y z : Z) : point := fun i => match i with AX => x | AY => y | AZ => z end.
Definition cube (a b : Z) : tree := Poly [pt a a a; pt b a a; pt a b a; pt b b a; pt a a b; pt b a b; pt a b b; pt b b b] 6.
(** intersection() { cube 0..10, cube 5..20 }, difference() { cube 30..40, cube 0..50 } *)
Definition ex_l := [Cut [[cube 0 10]; [cube 5 20]]; Sub [cube 30 40] [cube 35 50]].
Definition bounds (b : box) := (map (get (bmin b)) [AX; AY; AZ], map (get (bmax b)) [AX; AY; AZ]).
Lemma box_cube : forall a b p, (forall i, a <= p i <= b)%Z -> box_poly [pt a a a; pt b a a; pt a b a; pt b b a; pt a a b; pt b a b; pt a b b; pt b b b] 6 p.
Proof.
  intros a b p H. unfold box_poly. cbn [length]. repeat split; try lia. intros i. exists (pt a a a), (pt b b b).
  repeat split; [left; reflexivity|do 7 right; left; reflexivity| |]; destruct i; cbn; apply H.
Qed.
Example C31_model_ex : every no_sphere ex_l /\ every cuts_ok ex_l /\ any (fun t => sem box_poly box_sphere t (pt 7 7 7)) ex_l /\
  bounds (tree_minmax gt2 EMPTY (Some ex_l) false) = ([Fin 5; Fin 5; Fin 5], [Fin 40; Fin 40; Fin 40])%Z.
Proof.
  split; [cbn; tauto|]. split; [cbn; repeat split; discriminate|]. split; [|vm_compute; reflexivity]. left. cbn [sem]. split; [discriminate|]. repeat split; left; apply box_cube; intros i; destruct i; cbn; lia.
Qed.
Example C31_parts_ex : any (fun t => parts box_poly box_sphere t (pt 45 45 45)) ex_l /\
  bounds (tree_minmax gt2 EMPTY (Some ex_l) true) = ([Fin 0; Fin 0; Fin 0], [Fin 50; Fin 50; Fin 50])%Z.
Proof.
  split; [|vm_compute; reflexivity]. right. left. cbn [parts]. right. left. apply box_cube. intros i; destruct i; cbn; lia.
Qed.
Example C31_least_ex : within (tree_minmax gt2 EMPTY (Some ex_l) true) (mk_box (tab (fun _ => Fin 0)) (tab (fun _ => Fin 50))).
Proof. apply C31_least_partial; [apply gt2_ok|cbn; tauto|cbn; repeat split; discriminate|]. cbn. intros v H. repeat (destruct H as [<-|H]; [intros []; split; reflexivity|]). destruct H. Qed.
Example C31_small_ex : within (tree_minmax gt2 EMPTY (Some ex_l) false) (mk_box (tab (fun _ => Fin 0)) (tab (fun _ => Fin 40))).
Proof. apply C31_small_partial; [cbn; tauto|cbn; repeat split; discriminate|]. cbn. intros v H. repeat (destruct H as [<-|H]; [intros []; split; reflexivity|]). destruct H. Qed.

(** A large sphere followed by a small one: the box does not contain the large one, because the maximum is compared with the minimum
    (csg3.c 477) *)
Theorem C31_sphere_refuted : exists l p, any (fun t => sem box_poly box_sphere t p) l /\
  ~ in_box (tree_minmax gt2 EMPTY (Some l) false) p /\ ~ in_box (tree_minmax gt2 EMPTY (Some l) true) p.
Proof.
  exists [Sphere (tab (fun _ => Fin (-100))) (tab (fun _ => Fin (100))); Sphere (tab (fun _ => Fin (-1))) (tab (fun _ => Fin (1)))], (pt 50 0 0). split.
  - left. intros []; split; reflexivity.
  - split; intros H; destruct (H AX) as (_ & G); vm_compute in G; discriminate.
Qed.

Print Assumptions C31_model_partial.
Print Assumptions C31_parts_partial.
Print Assumptions C31_least_partial.
Print Assumptions C31_small_partial.
Print Assumptions C31_sphere_refuted.

(** C30: the conversion of the SCAD tree into the CSG tree keeps the meaning *)
From Coq Require Import List Bool ZArith Lia.
From Verif Require Import Csg3_model Csg3_spec Csg3_proofs Csg3_proofs2.
Import ListNotations.

Section Props.
Variables (mat X op P : Type) (inside : X -> P -> Prop) (pre : mat -> P -> P) (opsem : op -> (P -> Prop) -> P -> Prop).
Variables (unit : mat) (mul : mat -> mat -> mat) (build : op -> mat -> list (csg mat X) -> built mat X).
Notation tree := (from_scad_tree mat X op unit mul build).
Notation sem_all := (sem_all mat X P inside pre).
Notation means := (means mat X op P inside pre opsem).
Notation fine := (fine mat X op P inside pre opsem).
Notation tidy := (tidy mat X op).
Notation clean := (clean mat X op).

(** The points of the CSG tree are the points of the SCAD tree.  Not the full claim: restricted to trees that are [fine] (see the
    refutations below), and a failing assertion is excluded only for [tidy] ones. *)
Theorem C30_meaning_partial : laws mat X op P inside pre opsem mul unit build ->
  forall keep toplevel, every (fun s => fine s true true) toplevel ->
  match tree keep None toplevel with
  | Ok _ _ st => forall p, sem_all (objs _ _ st) p <-> any (fun s => means s true p) toplevel
  | Error _ _ => True
  | Assert _ _ => ~ every (fun s => tidy s true) toplevel
  end.
Proof.
  intros L keep top F. unfold from_scad_tree, conv_v.
  pose proof (children_good mat X op P inside pre opsem unit mul build top true true unit (mk_state _ _ false [] None)
    (fun x _ => conv_is_good mat X op P inside pre opsem unit mul build L x) F (fun _ => pre_unit _ _ _ _ _ _ _ _ _ _ L)) as G.
  destruct (children mat X op (conv mat X op unit mul build) top true false unit (mk_state mat X false [] None)) as [st| |]; cbn [good] in G; [|exact I|exact G].
  destruct G as (_ & _ & d & E & M & _). cbn [objs app] in E. rewrite E. intros p. rewrite M. rewrite (pre_unit _ _ _ _ _ _ _ _ _ _ L). reflexivity.
Qed.

(** Trees without errors are converted without an error *)
Theorem C30_accepts : (forall o m rc, build o m rc <> Fail _ _) ->
  forall keep toplevel, every (fun s => clean s true) toplevel -> tree keep None toplevel <> Error _ _.
Proof.
  intros B keep top C. unfold from_scad_tree, conv_v. apply children_err; auto. intros x _. apply conv_err. exact B.
Qed.

(** With a root modifier (!), only the marked node is converted: without its context, or with the matrix of the transformations
    above it in root_xform.  If more than one is marked, the first is used. *)
Theorem C30_root_partial : laws mat X op P inside pre opsem mul unit build ->
  forall r toplevel st, tree true (Some r) toplevel = Ok _ _ st ->
  match flat_map (fun s => find_root mat X op mul unit s) toplevel with
  | [] => objs _ _ st = [] /\ root_xform _ _ st = None
  | (s, m) :: _ => root_xform _ _ st = Some m /\ (fine s true true -> forall p, sem_all (objs _ _ st) p <-> means s true p)
  end.
Proof.
  intros L r top st E. cbn [from_scad_tree] in E. apply search_top in E; [|reflexivity].
  destruct (flat_map (fun s => find_root mat X op mul unit s) top) as [|[s m] l]; cbn [finds] in E; [subst st; split; reflexivity|].
  split; [exact (conv_rx _ _ _ _ _ _ _ _ _ _ _ E)|].
  intros F p. pose proof (conv_is_good mat X op P inside pre opsem unit mul build L s true true unit (mk_state _ _ false [] (Some m)) F (fun _ => pre_unit _ _ _ _ _ _ _ _ _ _ L)) as G.
  cbn [no objs] in E. rewrite E in G. destruct G as (_ & _ & d & E2 & M & _). cbn [objs app] in E2. rewrite E2, M, (pre_unit _ _ _ _ _ _ _ _ _ _ L). reflexivity.
Qed.
Theorem C30_root_alone_partial : laws mat X op P inside pre opsem mul unit build ->
  forall r toplevel, fine r true true ->
  match tree false (Some r) toplevel with
  | Ok _ _ st => root_xform _ _ st = None /\ forall p, sem_all (objs _ _ st) p <-> means r true p
  | Error _ _ => True
  | Assert _ _ => ~ tidy r true
  end.
Proof.
  intros L r top F. cbn [from_scad_tree].
  pose proof (conv_is_good mat X op P inside pre opsem unit mul build L r true true unit (mk_state _ _ false [] None) F (fun _ => pre_unit _ _ _ _ _ _ _ _ _ _ L)) as G.
  destruct (conv mat X op unit mul build r true false unit (mk_state mat X false [] None)) as [st| |]; cbn [good] in G; [|exact I|exact G].
  destruct G as (R & _ & d & E & M & _). cbn [objs app] in E. split; [exact R|]. rewrite E. intros p. rewrite M. rewrite (pre_unit _ _ _ _ _ _ _ _ _ _ L). reflexivity.
Qed.
End Props.

(** ** A small world: points and translations are numbers, solids are sets; linear_extrude and hull keep the set *)
Local Open Scope Z_scope.
Definition set := Z -> Prop.
Definition w_inside (x : set) (p : Z) : Prop := x p.
Definition w_pre (m p : Z) : Z := p - m.
Definition w_opsem (o : Datatypes.unit) (A : set) : set := A.
Definition w_build (o : Datatypes.unit) (m : Z) (rc : list (csg Z set)) : built Z set :=
  match rc with [] => Push _ _ [] | _ => Push _ _ [Leaf _ _ (sem_all Z set Z w_inside w_pre rc) m] end.
Lemma w_laws : laws Z set Datatypes.unit Z w_inside w_pre w_opsem Z.add 0 w_build.
Proof.
  split; unfold w_pre, w_opsem, w_build; intros; try lia.
  - exists (q + m). lia.
  - apply H.
  - destruct rc as [|c rc]; injection H as <-; [reflexivity|]. cbn. unfold w_inside at 1. tauto.
  - injection H as <-. reflexivity.
Qed.
Notation w_tree := (from_scad_tree Z set Datatypes.unit 0 Z.add w_build).
Notation w_sem := (sem_all Z set Z w_inside w_pre).
Notation w_means := (means Z set Datatypes.unit Z w_inside w_pre w_opsem).
Notation w_fine := (fine Z set Datatypes.unit Z w_inside w_pre w_opsem).
Notation w_tidy := (tidy Z set Datatypes.unit).
Notation w_clean := (clean Z set Datatypes.unit).
Definition nd (k : kind Z set Datatypes.unit) : scad Z set Datatypes.unit := Node _ _ _ false false k.
(** From a to b *)
Definition seg (d : bool) (a b : Z) := nd (Shape _ _ _ d true (Solids _ [fun p => a <= p <= b])).
Definition group := nd (Union _ _ _ []).
(** translate(3) difference() { group(){} seg(0,10) linear_extrude() seg2d(2,4) }, and an intersection *)
Definition ex_tree := [
  nd (Xform _ _ _ (Use _ 3) [nd (Difference _ _ _ [group; seg true 0 10; nd (Extrude _ _ _ tt true [seg false 2 4])])]);
  nd (Intersection _ _ _ [group; seg true 20 30; nd (Xform _ _ _ (Use _ 1) [seg true 24 40])])].
Example C30_meaning_ex : every (fun s => w_fine s true true) ex_tree /\ every (fun s => w_tidy s true) ex_tree /\ every (fun s => w_clean s true) ex_tree /\
  (exists st, w_tree false None ex_tree = Ok _ _ st /\ length (objs _ _ st) = 2%nat /\ forall p, w_sem (objs _ _ st) p <-> (3 <= p <= 4 \/ 8 <= p <= 13 \/ 25 <= p <= 30)).
Proof.
  assert (F : every (fun s => w_fine s true true) ex_tree).
  { cbn. unfold w_inside, w_pre, w_opsem. repeat split; try tauto; intros; try discriminate; [exists 25; lia|exists 30; lia]. }
  assert (T : every (fun s => w_tidy s true) ex_tree) by (cbn; tauto).
  assert (C : every (fun s => w_clean s true) ex_tree) by (cbn; repeat split; try tauto; discriminate).
  repeat (split; [assumption|]).
  pose proof (C30_meaning_partial _ _ _ _ _ _ _ _ _ _ w_laws false ex_tree F) as M.
  assert (B : forall o m rc, w_build o m rc <> Fail _ _) by (intros o m [|c rc]; discriminate).
  pose proof (C30_accepts _ _ _ 0 Z.add _ B false ex_tree C) as A.
  assert (Q : match w_tree false None ex_tree with Ok _ _ st => length (objs _ _ st) = 2%nat | _ => True end) by reflexivity.
  destruct (w_tree false None ex_tree) as [st| |]; [|congruence|tauto]. exists st. split; [reflexivity|]. split; [exact Q|].
  intros p. rewrite M. cbn. unfold w_inside, w_pre, w_opsem. split; [intros H|intros H].
  - destruct H as [[H|[]]|[H|[]]]; [|lia]. lia.
  - destruct H as [H|[H|H]]; [left; left; lia|left; left; lia|right; left]. repeat split; try lia; try discriminate; intros; lia.
Qed.

(** The marked node, below a translation: translate(3) { seg(0,1) !translate(2) seg(5,6) } *)
Definition ex_marked := Node _ _ _ false true (Xform _ _ _ (Use _ 2) [seg true 5 6]).
Example C30_root_ex : exists st, w_tree true (Some ex_marked) [group; nd (Xform _ _ _ (Use _ 3) [seg true 0 1; ex_marked])] = Ok _ _ st /\
  root_xform _ _ st = Some 3 /\ forall p, w_sem (objs _ _ st) p <-> 7 <= p <= 8.
Proof.
  eexists. split; [reflexivity|]. split; [reflexivity|]. intros p. cbn. unfold w_inside, w_pre. lia.
Qed.
Example C30_root_alone_ex : w_fine ex_marked true true /\
  exists st, w_tree false (Some ex_marked) [group; nd (Xform _ _ _ (Use _ 3) [seg true 0 1; ex_marked])] = Ok _ _ st /\ forall p, w_sem (objs _ _ st) p <-> 7 <= p <= 8.
Proof.
  split; [cbn; tauto|]. eexists. split; [reflexivity|]. intros p. cbn. unfold w_inside, w_pre. lia.
Qed.

(** ** Refutations *)
(** intersection() { cube(); group(){} }: the assertion that there are two operands fails (csg3.c 260) *)
Theorem C30_assert_refuted : exists toplevel, every (fun s => w_fine s true true) toplevel /\ every (fun s => w_clean s true) toplevel /\
  w_tree false None toplevel = Assert _ _.
Proof.
  exists [nd (Intersection _ _ _ [seg true 0 1; group])]. repeat split; try tauto; try discriminate; intros; try discriminate.
  cbn. unfold w_inside. exists 0. lia.
Qed.
(** intersection() { cube(); an empty shape; }: that is empty, but the empty shape is ignored like an empty group *)
Theorem C30_empty_refuted : exists toplevel st p, every (fun s => w_clean s true) toplevel /\ every (fun s => w_tidy s true) toplevel /\
  w_tree false None toplevel = Ok _ _ st /\ w_sem (objs _ _ st) p /\ ~ any (fun s => w_means s true p) toplevel.
Proof.
  exists [nd (Intersection _ _ _ [nd (Shape _ _ _ true true (Ignored _)); seg true 0 1])]. eexists. exists 0. repeat split; try tauto; try discriminate.
  - cbn. unfold w_inside, w_pre. left. lia.
  - cbn. intros [(_ & H & _)|[]]. exact (H eq_refl).
Qed.
(** linear_extrude() translate([5,0]) hull() square(): the translation is lost *)
Theorem C30_hull_refuted : exists toplevel st p, every (fun s => w_clean s true) toplevel /\ every (fun s => w_tidy s true) toplevel /\
  w_tree false None toplevel = Ok _ _ st /\ w_sem (objs _ _ st) p /\ ~ any (fun s => w_means s true p) toplevel.
Proof.
  exists [nd (Extrude _ _ _ tt true [nd (Xform _ _ _ (Use _ 5) [nd (Hull _ _ _ tt true [seg false 0 1])])])]. eexists. exists 0.
  repeat split; try tauto; try discriminate.
  - cbn. unfold w_inside, w_pre. left. left. left. lia.
  - cbn. unfold w_opsem, w_pre, w_inside. cbn. lia.
Qed.

Print Assumptions C30_meaning_partial.
Print Assumptions C30_accepts.
Print Assumptions C30_root_partial.
Print Assumptions C30_root_alone_partial.
Print Assumptions C30_assert_refuted.
Print Assumptions C30_empty_refuted.
Print Assumptions C30_hull_refuted.

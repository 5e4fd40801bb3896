(** C37: adding, splitting and overlapping edges preserves what the polygons cover *)
From Coq Require Import ZArith NArith List Bool Lia Arith.
From Verif Require Import Matq_spec Reduce_model Reduce_spec Sweep_model Sweep_spec Sweep_proofs Sweep_proofs2 Sweep_proofs3 Sweep_proofs4.
Import ListNotations.
Open Scope Z_scope.

(** An edge is added in its left-to-right form, whichever end comes first, and edges without length are dropped *)
Theorem C37_add_edge : forall d a b m, coherent None d -> vec_int a -> vec_int b ->
  exists d', add_edge a b m d = Some d' /\ coherent None d'
  /\ (forall f, a <> b -> odd_members f (edge_list d') = N.lxor (odd_members f (edge_list d)) (odd_members f [edge_of m (a, b)]))
  /\ (a = b -> d' = d) /\ same_cover (edge_list d') (edge_list d ++ [edge_of m (a, b)]).
Proof. exact add_edge_cover. Qed.

(** Adding a polygon adds what its edges cover *)
Theorem C37_add_poly : forall l d m, coherent None d -> (forall p v, In p l -> In v p -> vec_int v) ->
  exists d', add_poly l m d = Some d' /\ coherent None d' /\ (forall i, on_line d' i = on_line d i)
  /\ same_cover (edge_list d') (edge_list d ++ poly_edges m l).
Proof. exact add_poly_ok. Qed.
(** and a polygon is closed: at each point, an even number of its edges ends *)
Theorem C37_closed : forall x m l, odd_members (ends_at x) (poly_edges m l) = 0%N.
Proof. exact poly_closed. Qed.

(** Two edges on the same line that overlap, where the left end of e has just been taken off the agenda and o is on the sweep line:
    no assertion fails, and the edges cover the same afterwards *)
Theorem C37_overlap : forall d e o ee oo, coherent (Some e) d -> edges d e = Some ee -> edges d o = Some oo -> on_line d o = true ->
  overlaps ee oo ->
  exists d', ev_overlap e o d = Some d' /\ coherent None d' /\ same_cover (edge_list d') (edge_list d).
Proof.
  intros d e o ee oo HC He Ho Hl (C1 & C2 & H1 & H2). pose proof (overlap_ok d e o ee oo HC He Ho Hl C1 C2 H2) as H.
  destruct (ev_overlap e o d) as [d'|]; [|contradiction]. destruct H as (K1 & K2). exists d'. auto using same_tot_cover.
Qed.
(** An edge on the sweep line is split at a point on it *)
Theorem C37_split : forall d o oo v, coherent None d -> edges d o = Some oo -> on_line d o = true -> splits v oo -> vec_int v ->
  exists d', ev_split v o d = Some d' /\ coherent None d' /\ same_cover (edge_list d') (edge_list d)
  /\ edges d' o = Some (mk_edge (left oo) v (member oo)) /\ edges d' (count d) = Some (mk_edge v (rigt oo) (member oo)).
Proof. exact split_cover. Qed.
(** The test for intersection of two edges on the sweep line *)
Theorem C37_pair : forall d d' beyond a b, coherent None d -> on_line d a = true -> on_line d b = true -> a <> b ->
  ev_pair beyond a b d = Some d' -> coherent None d' /\ same_cover (edge_list d') (edge_list d).
Proof. intros d d' beyond a b HC La Lb N H. destruct (pair_ok d beyond a b HC La Lb N d' H) as (K1 & K2). auto using same_tot_cover. Qed.

(** All polygons are added and any number of events is processed (in the order of the agenda, with any tests for intersection):
    the edges cover what the polygons cover; in particular, each point is inside of the same polygons, and the edges are closed, as
    the reduction needs. *)
Theorem C37_phase1 : forall l, (forall m ps p v, In (m, ps) l -> In p ps -> In v p -> vec_int v) ->
  exists d, add_polys l sweep_new = Some d
  /\ forall d', ssteps d d' -> coherent None d' /\ same_cover (edge_list d') (polys_edges l)
    /\ (forall p, 0 < pd p -> inside (edge_at d') (live d') p = odd_members (beneath p) (polys_edges l))
    /\ closed (edge_at d') (live d').
Proof.
  intros l HI. destruct (add_polys_ok l sweep_new coherent_new HI) as (d & R & _). exists d. split; [exact R|]. intros d' S.
  destruct (phase1_ok l d d' R HI S) as (K1 & K2). split; [exact K1|]. split; [exact K2|]. destruct K2 as (_ & B & X). split.
  - intros p D. rewrite inside_odd, live_edges. apply B, D.
  - apply closed_odd. intros x. rewrite live_edges, X. apply polys_closed.
Qed.

(** Two triangles whose lower edges overlap *)
Definition ex_polys : list (N * list (list vec2)) :=
  [(1%N, [[(0, 0); (4, 0); (0, 4)]]); (2%N, [[(2, 0); (6, 0); (6, 4)]])].
Definition ex_d : sdata := match add_polys ex_polys sweep_new with Some d => d | None => sweep_new end.
Example C37_add_ex : edge_list ex_d =
  [mk_edge (0, 0) (4, 0) 1; mk_edge (0, 4) (4, 0) 1; mk_edge (0, 0) (0, 4) 1;
   mk_edge (2, 0) (6, 0) 2; mk_edge (6, 0) (6, 4) 2; mk_edge (2, 0) (6, 4) 2].
Proof. vm_compute. reflexivity. Qed.
Definition state_of (x : option sdata) : sdata := match x with Some d => d | None => sweep_new end.
Definition minimal (d : sdata) (k : option vec2) : bool :=
  match k with
  | Some k => forallb (fun i => forallb (fun s => match agenda d i s with Some k' => vec2_cmp k k' <=? 0 | None => true end) [LEFT; RIGT]) (seq 0 (count d))
  | None => false
  end.
Lemma minimal_ok : forall d k, coherent None d -> minimal d k = true -> exists k', k = Some k' /\ is_min d k'.
Proof.
  intros d [k|] HC H; [|discriminate]. exists k. split; [reflexivity|]. intros i s k' A. unfold minimal in H. rewrite forallb_forall in H.
  assert (I : In i (seq 0 (count d))).
  { apply in_seq. pose proof (HC i) as Q. destruct (edges d i); [lia|]. unfold LEFT, RIGT in Q. destruct s; intuition congruence. }
  specialize (H i I). rewrite forallb_forall in H. specialize (H s). rewrite A in H. apply Z.leb_le, H. destruct s; simpl; auto.
Qed.
Lemma by_step : forall d x d'', sstep d x -> is_some x = true -> ssteps (state_of x) d'' -> ssteps d d''.
Proof. intros d [d'|] d'' S H T; [|discriminate]. eapply ssteps_step; eauto. Qed.
Lemma next_ok : forall d x, coherent None d -> sstep d x -> is_some x = true -> coherent None (state_of x).
Proof. intros d [d'|] HC S H; [|discriminate]. exact (proj1 (step_ok d d' HC S)). Qed.
Definition x1 := ev_left 0 None (take 0 LEFT ex_d).
Definition x2 := ev_left 2 None (take 2 LEFT (state_of x1)).
Definition x3 := state_remove 2 (take 2 RIGT (state_of x2)).
Definition x4 := ev_left 1 None (take 1 LEFT (state_of x3)).
Definition x5 := ev_left 3 (Some 0%nat) (take 3 LEFT (state_of x4)).
Lemma ex_int : forall m ps p v, In (m, ps) ex_polys -> In p ps -> In v p -> vec_int v.
Proof.
  intros m ps p v [H|[H|[]]]; inversion H; subst; clear H; intros [<-|[]] H; simpl in H;
    repeat (destruct H as [<-|H]; [vm_compute; repeat split; congruence|]); destruct H.
Qed.
(** The events up to (2,0), where the second edge is found to overlap *)
Example C37_phase1_ex : (forall m ps p v, In (m, ps) ex_polys -> In p ps -> In v p -> vec_int v)
  /\ exists d', add_polys ex_polys sweep_new = Some ex_d /\ ssteps ex_d d' /\ edge_list d' =
  [mk_edge (0, 0) (2, 0) 1; mk_edge (0, 4) (4, 0) 1; mk_edge (0, 0) (0, 4) 1;
   mk_edge (2, 0) (4, 0) 3; mk_edge (6, 0) (6, 4) 2; mk_edge (2, 0) (6, 4) 2; mk_edge (4, 0) (6, 0) 2].
Proof.
  split.
  - exact ex_int.
  - exists (state_of x5). split;
    [destruct (add_polys_ok ex_polys sweep_new coherent_new ex_int) as (d & R & _); unfold ex_d; rewrite R; reflexivity|]. split; [|vm_compute; reflexivity].
    assert (C0 : coherent None ex_d).
    { destruct (add_polys_ok ex_polys sweep_new coherent_new ex_int) as (d & R & C & _). unfold ex_d. rewrite R. exact C. }
    assert (S1 : sstep ex_d x1) by (destruct (minimal_ok ex_d (agenda ex_d 0 LEFT) C0) as (k & A & M); [vm_compute; reflexivity|]; eapply step_left_new; eauto).
    pose proof (next_ok _ _ C0 S1 ltac:(vm_compute; reflexivity)) as C1.
    assert (S2 : sstep (state_of x1) x2) by (destruct (minimal_ok _ (agenda (state_of x1) 2 LEFT) C1) as (k & A & M); [vm_compute; reflexivity|]; eapply step_left_new; eauto).
    pose proof (next_ok _ _ C1 S2 ltac:(vm_compute; reflexivity)) as C2.
    assert (S3 : sstep (state_of x2) x3) by (destruct (minimal_ok _ (agenda (state_of x2) 2 RIGT) C2) as (k & A & M); [vm_compute; reflexivity|]; eapply step_rigt; eauto).
    pose proof (next_ok _ _ C2 S3 ltac:(vm_compute; reflexivity)) as C3.
    assert (S4 : sstep (state_of x3) x4) by (destruct (minimal_ok _ (agenda (state_of x3) 1 LEFT) C3) as (k & A & M); [vm_compute; reflexivity|]; eapply step_left_new; eauto).
    pose proof (next_ok _ _ C3 S4 ltac:(vm_compute; reflexivity)) as C4.
    assert (S5 : sstep (state_of x4) x5).
    { destruct (minimal_ok _ (agenda (state_of x4) 3 LEFT) C4) as (k & A & M); [vm_compute; reflexivity|].
      eapply (step_left_eq _ 3 k 0 (mk_edge (2, 0) (6, 0) 2) (mk_edge (0, 0) (4, 0) 1)); [exact A|exact M|vm_compute; reflexivity..]. }
    eapply by_step; [exact S1|vm_compute; reflexivity|]. eapply by_step; [exact S2|vm_compute; reflexivity|].
    eapply by_step; [exact S3|vm_compute; reflexivity|]. eapply by_step; [exact S4|vm_compute; reflexivity|].
    eapply by_step; [exact S5|vm_compute; reflexivity|]. apply ssteps_refl.
Qed.
(** A crossing at (2,2) splits both edges *)
Definition y0 := mk_sdata 2 (fun i => match i with 0%nat => Some (mk_edge (0, 0) (4, 4) 1) | 1%nat => Some (mk_edge (0, 4) (4, 0) 2) | _ => None end)
  (fun i s => match i, s with 0%nat, true => Some (4, 4) | 1%nat, true => Some (4, 0) | _, _ => None end) (fun i => (i <? 2)%nat).
Example C37_pair_ex : coherent None y0 /\ is_some (ev_pair true 0 1 y0) = true
  /\ edge_list (state_of (ev_pair true 0 1 y0)) = [mk_edge (0, 0) (2, 2) 1; mk_edge (0, 4) (2, 2) 2; mk_edge (2, 2) (4, 4) 1; mk_edge (2, 2) (4, 0) 2].
Proof.
  split; [|split; [vm_compute; reflexivity|vm_compute; reflexivity]].
  intros i. destruct i as [|[|i]].
  - cbn. split; [lia|]. split; [left; cbn; lia|]. split; [vm_compute; repeat split; congruence|]. right. left. auto.
  - cbn. split; [lia|]. split; [left; cbn; lia|]. split; [vm_compute; repeat split; congruence|]. right. left. auto.
  - cbn. auto.
Qed.
(** An edge that starts on another one and ends beyond it *)
Definition z0 := mk_sdata 2 (fun i => match i with 0%nat => Some (mk_edge (0, 0) (4, 4) 1) | 1%nat => Some (mk_edge (2, 2) (6, 6) 2) | _ => None end)
  (fun i s => match i, s with 0%nat, true => Some (4, 4) | 1%nat, true => Some (6, 6) | _, _ => None end) (fun i => (i <? 1)%nat).
Example C37_overlap_ex : coherent (Some 1%nat) z0 /\ overlaps (mk_edge (2, 2) (6, 6) 2) (mk_edge (0, 0) (4, 4) 1)
  /\ edge_list (state_of (ev_overlap 1 0 z0)) = [mk_edge (0, 0) (2, 2) 1; mk_edge (2, 2) (4, 4) 3; mk_edge (4, 4) (6, 6) 2].
Proof.
  split; [|split; [split; [|split; [|split]]; try reflexivity; left; cbn; lia|vm_compute; reflexivity]].
  intros i. destruct i as [|[|i]].
  - cbn. split; [lia|]. split; [left; cbn; lia|]. split; [vm_compute; repeat split; congruence|]. right. left. auto.
  - cbn. split; [lia|]. split; [left; cbn; lia|]. split; [vm_compute; repeat split; congruence|]. auto.
  - cbn. auto.
Qed.

Print Assumptions C37_add_edge.
Print Assumptions C37_add_poly.
Print Assumptions C37_closed.
Print Assumptions C37_overlap.
Print Assumptions C37_split.
Print Assumptions C37_pair.
Print Assumptions C37_phase1.

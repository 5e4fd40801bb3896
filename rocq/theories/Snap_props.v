(** Theorems about snap rounding (C54), and reversing edges at crossings (C55) *)
From Coq Require Import ZArith QArith NArith List Bool Lia Arith Permutation.
From Verif Require Import Matq_model Matq_spec Reduce_model Reduce_spec Sweep_spec Sweep_proofs4 Snap_model Snap_spec Snap_proofs Snap_proofs2 Snap_proofs3 Snap_proofs4.
Import ListNotations.
Local Open Scope Z_scope.

(** For all edges, crossings, and results of searches in the trees: if the second phase finishes (no assertion fails), then each edge
    has become a polyline of hot pixels from its left end to its right end, strictly increasing in the order of the pass; the result is the edges of all these
    polylines, those at the same place merged by xor of their polygons; and no two edges of the result start or end at the same point with the
    same direction.  If the trees were in the order that the searches need, then each edge touches all pixels that its polyline visits, so
    that it moves by at most half a unit.
    Partial.  In full: the order of the trees is always as needed, each edge visits each hot pixel that it touches, and the edges of the result do not meet except at
    their ends *)
Theorem C54_snap_rounding_partial : forall E X S ids xs, NoDup ids ->
  (forall i, In i ids -> lex_lt (left (E i)) (rigt (E i)) /\ int_edge (E i)) -> (forall p, hot E X ids xs p -> vec_int p) ->
  match snap_round E X S ids xs with
  | Done (r, o) => exists route,
    (forall i, In i ids -> path (fun p => hot E X ids xs p /\ (o = true -> touches (E i) p)) (before (edge_south (E i))) (left (E i)) (rigt (E i)) (route i))
    /\ (forall f, of_place f -> odd_members f r = odd_members f (routed E route ids))
    /\ same_cover r (routed E route ids)
    /\ ForallOrdPairs apart r
    /\ (o = true -> forall i p q x y, In i ids -> In (p, q) (links (route i)) -> on_segment x y p q -> near (E i) x y)
  | Crash => True
  | Out => False
  end.
Proof.
  intros E X S ids xs N HE HI. destruct (snap_ok E X S ids xs N) as (NO & K). destruct (snap_round E X S ids xs) as [[r o]| |]; [|exact I|tauto].
  destruct (K r o eq_refl) as (A & ch & P & F). exists ch.
  assert (P2 : forall i, In i ids -> path (fun p => hot E X ids xs p /\ (o = true -> touches (E i) p)) (before (edge_south (E i))) (left (E i)) (rigt (E i)) (ch i)).
  { intros i II. destruct (HE i II) as (LT & I1 & I2). eapply path_mono; [|apply P, II]. intros p G. split; [apply G|]. intros ->. eapply good_touches; eauto. }
  split; [exact P2|]. split; [exact F|]. split; [apply same_cover_place, F|]. split; [exact A|]. intros O i p q x y II L SG.
  apply links_in in L. destruct L as (L1 & L2). eapply near_link; [| |exact SG]; eapply (path_in _ _ _ _ _ (P2 i II)); auto.
Qed.

(** The number of edges that end at a point does not change, modulo 2, for each polygon; in particular, polygons remain closed, as the next phase needs it *)
Theorem C54_ends : forall E X S ids xs r o, NoDup ids -> snap_round E X S ids xs = Done (r, o) ->
  forall x, odd_members (ends_at x) r = odd_members (ends_at x) (map E ids).
Proof.
  intros E X S ids xs r o N Q x. destruct (snap_ok E X S ids xs N) as (_ & K). destruct (K r o Q) as (_ & ch & P & F).
  rewrite (F _ (place_ends x)). eapply routed_ends. exact P.
Qed.
Theorem C54_closed : forall E X S ids xs r o, NoDup ids -> snap_round E X S ids xs = Done (r, o) ->
  (forall x, odd_members (ends_at x) (map E ids) = 0%N) -> closed (fun i => nth i r (mk_edge (0, 0) (0, 0) 0)) (seq 0 (length r)).
Proof.
  intros E X S ids xs r o N Q H. apply closed_odd. intros x. transitivity (odd_members (ends_at x) r); [|rewrite (C54_ends E X S ids xs r o N Q x); apply H]. f_equal.
  clear. induction r as [|a r IH]; [reflexivity|]. cbn [length seq map nth]. f_equal. rewrite <- seq_shift, map_map. exact IH.
Qed.
(** Three edges that meet at (2.5,1.5), which is rounded to (3,2); and another one *)
Definition ex_E (i : nat) : edge := nth i [mk_edge (0, 0) (5, 3) 1; mk_edge (0, 3) (5, 0) 2; mk_edge (0, 1) (5, 2) 4; mk_edge (-1, 5) (5, 3) 8] (mk_edge (0, 0) (0, 0) 0).
Definition ex_X (i : nat) : xing := mk_xing (mk_dimif 2 1 2, mk_dimif 1 1 2) (fun s => Some (if s then 1 else 0)%nat).
Example C54_ex : snap_round ex_E ex_X (scan ex_E) [0; 1; 2; 3]%nat [0]%nat
  = Done ([mk_edge (0, 0) (3, 2) 1; mk_edge (0, 1) (3, 2) 4; mk_edge (3, 2) (5, 2) 4; mk_edge (3, 2) (5, 3) 1;
    mk_edge (0, 3) (3, 2) 2; mk_edge (-1, 5) (5, 3) 8; mk_edge (3, 2) (5, 0) 2], true)
  /\ NoDup [0; 1; 2; 3]%nat /\ (forall i, In i [0; 1; 2; 3]%nat -> lex_lt (left (ex_E i)) (rigt (ex_E i)) /\ int_edge (ex_E i))
  /\ (forall p, hot ex_E ex_X [0; 1; 2; 3]%nat [0]%nat p -> vec_int p).
Proof.
  split; [vm_compute; reflexivity|]. split; [repeat constructor; cbn; lia|]. split.
  - intros i I. cbn in I. repeat destruct I as [<- | I]; try destruct I; (split; [unfold lex_lt; cbn; lia|unfold int_edge, vec_int, is_int; cbn; lia]).
  - intros p [(i & I & Q) | (x & I & ->)]; [|cbn in I; destruct I as [<- | []]; vm_compute; repeat split; discriminate].
    cbn in I. repeat destruct I as [<- | I]; try destruct I; destruct Q as [-> | ->]; unfold vec_int, is_int; cbn; lia.
Qed.
(** Two edges that become one: the polygons are joined *)
Definition ex2_E (i : nat) : edge := nth i [mk_edge (0, 0) (10, 1) 1; mk_edge (0, 0) (9, 1) 2; mk_edge (6, 1) (7, 4) 4] (mk_edge (0, 0) (0, 0) 0).
Example C54_ex2 : snap_round ex2_E ex_X (scan ex2_E) [0; 1; 2]%nat []
  = Done ([mk_edge (0, 0) (6, 1) 3; mk_edge (6, 1) (7, 4) 4; mk_edge (6, 1) (9, 1) 3; mk_edge (9, 1) (10, 1) 1], true).
Proof. vm_compute. reflexivity. Qed.

(** The loop that reverses the edges between two places (in both phases): it ends, and it reverses exactly these edges *)
Theorem C55_reverse : forall A (l : list A) i j, (i < j)%nat -> (j < length l)%nat ->
  reverse_loop (length l) i j l = Some (firstn i l ++ rev (firstn (j - i + 1) (skipn i l)) ++ skipn (j + 1) l).
Proof. exact reverse_loop_ok. Qed.
Example C55_ex : reverse_loop 7 1 4 [0; 1; 2; 3; 4; 5; 6]%nat = Some [0; 4; 3; 2; 1; 5; 6]%nat.
Proof. reflexivity. Qed.

(** It is not true that each set of edges that meet at a point can be handled: the assertion for the number of steps fails from 101 edges on *)
Definition meeting (E : nat -> edge) (ids : list nat) (v : vec2if) : Prop :=
  forall a b, In a ids -> In b ids -> a <> b -> intersection_eq E v a b = true.
Definition any_number_of_edges : Prop := forall E X l x s, NoDup l -> some_tb (X x) false = Some s -> In s l -> meeting E l (xat (X x)) ->
  edge_reverse E X false l x = Done (rev l).
Definition star (i : nat) : edge := mk_edge (-1, - Z.of_nat (i + 1)) (1, Z.of_nat (i + 1)) 1.
Definition star_X (i : nat) : xing := mk_xing (mk_dimif 0 0 1, mk_dimif 0 0 1) (fun s => if s then None else Some 0%nat).
Theorem C55_many_edges_refuted : ~ any_number_of_edges.
Proof.
  intros H. specialize (H star star_X (seq 0 101) 0%nat 0%nat (seq_NoDup _ _) eq_refl ltac:(apply in_seq; lia)).
  assert (M : meeting star (seq 0 101) (xat (star_X 0))).
  { assert (M : forallb (fun a => forallb (fun b => Nat.eqb a b || intersection_eq star (xat (star_X 0)) a b) (seq 0 101)) (seq 0 101) = true) by (vm_compute; reflexivity).
    intros a b I1 I2 NE. rewrite forallb_forall in M. specialize (M a I1). rewrite forallb_forall in M. specialize (M b I2).
    apply orb_true_iff in M. destruct M as [M|M]; [apply Nat.eqb_eq in M; tauto|exact M]. }
  specialize (H M). revert H. vm_compute. discriminate.
Qed.
(** In a whole run: 101 edges fail, 100 are fine *)
Definition run_star (n : nat) : option (nat * bool) :=
  match snap_round star star_X (scan star) (seq 0 n) [0]%nat with Done (r, o) => Some (length r, o) | _ => None end.
Example C55_star : run_star 101 = None /\ run_star 100 = Some (298%nat, true).
Proof. split; vm_compute; reflexivity. Qed.

Print Assumptions C54_snap_rounding_partial.
Print Assumptions C54_ends.
Print Assumptions C54_closed.
Print Assumptions C55_reverse.
Print Assumptions C55_many_edges_refuted.

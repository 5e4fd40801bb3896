(** Proofs about snap rounding: the events in a pixel, and the passes *)
From Coq Require Import ZArith NArith List Bool Lia Arith ZifyBool Permutation.
From Verif Require Import Matq_model Matq_spec Reduce_model Reduce_spec Reduce_proofs Sweep_spec Sweep_proofs Sweep_proofs4 Snap_model Snap_spec Snap_proofs Snap_proofs2.
Import ListNotations.
Local Open Scope Z_scope.
Local Notation edge_of := Sweep_spec.edge_of.

Section Snap.
Variables (E : nat -> edge) (X : nat -> xing) (S : search) (south : bool) (ids xs : list nat) (r0 : list edge).
Hypothesis Hnd : NoDup ids.
Local Notation inv := (inv E X south ids xs r0).
Local Notation hot := (hot E X ids xs).

Lemma ag_in : forall (av av' : list (nat * bool)) a, Permutation av (a :: av') -> forall v, In v av <-> v = a \/ In v av'.
Proof. intros av av' a P v. split; [intros I; apply (Permutation_in _ P) in I; destruct I; auto|intros I; apply (Permutation_in _ (Permutation_sym P)); destruct I; subst; cbn; auto]. Qed.
Lemma start : forall av av' T r o ch e, inv av T r o ch -> Permutation av ((e, LEFT) :: av') -> edge_south (E e) = south -> hot (left (E e)) ->
  inv av' ((left (E e), e) :: T) r o (update e [left (E e)] ch).
Proof.
  intros av av' T r o ch e [H1 H2 H3 H4 H5 H6 H7 H8 H9] P SO HO. pose proof (ag_in _ _ _ P) as AI.
  pose proof (Permutation_NoDup P (proj1 H7)) as ND. inversion ND as [|? ? N1 N2]; subst.
  assert (IL : In (e, LEFT) av) by (apply AI; auto). destruct (H3 e eq_refl IL) as (A1 & A2).
  assert (NE : forall v, ~ In (v, e) T) by (intros v I; apply H2 in I; tauto).
  constructor.
  - cbn [map snd]. constructor; [|exact H1]. intros I. apply in_map_iff in I. destruct I as ([v i] & Q & I). cbn in Q. subst i. exact (NE v I).
  - intros v i [Q|I].
    + injection Q as <- <-. split; [apply (proj2 H7 _ IL)|]. split; [reflexivity|]. split; [exact N1|]. split; [apply AI in A1; destruct A1 as [A1|A1]; [discriminate|exact A1]|].
      unfold update. rewrite Nat.eqb_refl. constructor. split; [exact HO|auto].
    + destruct (H2 v i I) as (B1 & B2 & B3 & B4 & B5). assert (i <> e) by (intros ->; exact (NE v I)). rewrite AI in B3, B4. split; [exact B1|]. split; [exact B2|].
      split; [tauto|]. split; [destruct B4 as [B4|B4]; [discriminate|exact B4]|]. unfold update. destruct (Nat.eqb_spec i e); [tauto|exact B5].
  - intros i I1 I2. assert (i <> e) by (intros ->; tauto). destruct (H3 i I1) as (B1 & B2); [apply AI; auto|].
    rewrite AI in B1. split; [destruct B1 as [B1|B1]; [discriminate|exact B1]|]. unfold update. destruct (Nat.eqb_spec i e); [tauto|exact B2].
  - intros i I1 I2 I3 I4. destruct (Nat.eq_dec i e) as [-> | NI]; [exists (left (E e)); left; reflexivity|].
    destruct (H4 i I1 I2) as (v & V); [rewrite AI; intros [Q|Q]; [injection Q as ->; tauto|tauto]|apply AI; auto|exists v; right; exact V].
  - intros i I1 I2 I3. unfold update. destruct (Nat.eqb_spec i e) as [-> | NI].
    + exfalso. apply I3. apply AI in A1. destruct A1 as [A1|A1]; [discriminate|exact A1].
    + apply H5; auto. rewrite AI. intros [Q|Q]; [discriminate|tauto].
  - intros i I. unfold update. destruct (Nat.eqb_spec i e) as [-> | NI]; [tauto|auto].
  - split; [exact N2|]. intros v I. apply (proj2 H7). apply AI. auto.
  - intros f HF. rewrite update_sum by exact A2. apply H8, HF.
  - exact H9.
Qed.
Lemma finish : forall av av' T r o ch e, inv av ((rigt (E e), e) :: T) r o ch -> Permutation av ((e, RIGT) :: av') -> inv av' T r o ch.
Proof.
  intros av av' T r o ch e [H1 H2 H3 H4 H5 H6 H7 H8 H9] P. pose proof (ag_in _ _ _ P) as AI.
  pose proof (Permutation_NoDup P (proj1 H7)) as ND. inversion ND as [|? ? N1 N2]; subst.
  destruct (H2 (rigt (E e)) e) as (C1 & C2 & C3 & C4 & C5); [left; reflexivity|].
  cbn [map snd] in H1. inversion H1 as [|? ? M1 M2]; subst.
  assert (NE : forall v, ~ In (v, e) T) by (intros v I; apply M1; apply in_map_iff; exists (v, e); auto).
  constructor; auto.
  - intros v i I. destruct (H2 v i (or_intror I)) as (B1 & B2 & B3 & B4 & B5). assert (i <> e) by (intros ->; exact (NE v I)). rewrite AI in B3, B4.
    split; [exact B1|]. split; [exact B2|]. split; [tauto|]. split; [destruct B4 as [B4|B4]; [congruence|exact B4]|exact B5].
  - intros i I1 I2. assert (IL : In (i, LEFT) av) by (apply AI; auto). destruct (H3 i I1 IL) as (B1 & B2). split; [|exact B2].
    rewrite AI in B1. destruct B1 as [B1|B1]; [|exact B1]. injection B1 as ->. tauto.
  - intros i I1 I2 I3 I4. destruct (H4 i I1 I2) as (v & [V|V]).
    + rewrite AI. intros [Q|Q]; [discriminate|tauto].
    + apply AI. auto.
    + injection V as <- <-. tauto.
    + exists v. exact V.
  - intros i I1 I2 I3. destruct (Nat.eq_dec i e) as [-> | NI]; [exact C5|]. apply H5; auto. rewrite AI. intros [Q|Q]; [congruence|tauto].
  - split; [exact N2|]. intros v I. apply (proj2 H7). apply AI. auto.
Qed.
Lemma skip : forall av av' T r o ch e s, inv av T r o ch -> Permutation av ((e, s) :: av') -> edge_south (E e) <> south -> inv av' T r o ch.
Proof.
  intros av av' T r o ch e s [H1 H2 H3 H4 H5 H6 H7 H8 H9] P SO. pose proof (ag_in _ _ _ P) as AI.
  pose proof (Permutation_NoDup P (proj1 H7)) as ND. inversion ND as [|? ? N1 N2]; subst.
  assert (K : forall i t, edge_south (E i) = south -> (In (i, t) av <-> In (i, t) av')) by (intros i t I; rewrite AI; split; [intros [Q|Q]; [injection Q as -> ->; tauto|exact Q]|auto]).
  constructor; auto.
  - intros v i I. destruct (H2 v i I) as (B1 & B2 & B3 & B4 & B5). rewrite K in B3, B4 by exact B2. auto.
  - intros i I1 I2. rewrite <- K in I2 |- * by exact I1. auto.
  - intros i I1 I2 I3 I4. rewrite <- K in I3, I4 by exact I2. auto.
  - intros i I1 I2 I3. rewrite <- K in I3 by exact I2. auto.
  - split; [exact N2|]. intros v I. apply (proj2 H7). apply AI. auto.
Qed.

Lemma at_perm : forall p l l', Permutation l l' -> Permutation (at_pt p l) (at_pt p l').
Proof. intros. apply Permutation_map. assumption. Qed.
Lemma remove_perm : forall e l, NoDup l -> In e l -> Permutation l (e :: remove_id e l).
Proof.
  intros e. unfold remove_id. induction l as [|a l IH]; intros N I; [destruct I|]. inversion N; subst. cbn [filter]. destruct (Nat.eqb_spec a e) as [-> | NE]; cbn [negb].
  - apply perm_skip. replace (filter (fun i => negb (Nat.eqb i e)) l) with l; [auto|]. clear -H1. induction l as [|b l IH]; [reflexivity|]. cbn [filter].
    destruct (Nat.eqb_spec b e) as [-> | NB]; cbn [negb]; [destruct H1; left; reflexivity|]. f_equal. apply IH. intros I. apply H1. right. exact I.
  - destruct I as [I|I]; [tauto|]. eapply Permutation_trans; [apply perm_skip, IH; auto|apply perm_swap].
Qed.
Lemma insert_perm : forall A k (l : list A) e, Permutation (firstn k l ++ e :: skipn k l) (e :: l).
Proof. intros A k l e. rewrite <- (firstn_skipn k l) at 3. symmetry. apply Permutation_middle. Qed.

Lemma sweep_inv : forall fuel p, hot p -> forall equ av ax R r o ch equ' av' ax', inv av (at_pt p equ ++ R) r o ch ->
  sweep_pixel E X S south fuel p equ av ax = Done (equ', av', ax') ->
  (exists ch', inv av' (at_pt p equ' ++ R) r o ch') /\ incl av' av /\ incl ax' ax /\ next_event E X south p av' ax' = 0
  /\ (length av' + length ax' <= length av + length ax)%nat /\ (next_event E X south p av ax <> 0 -> (length av' + length ax' < length av + length ax)%nat).
Proof.
  intros fuel p HP. induction fuel as [|fuel IH]; intros equ av ax R r o ch equ' av' ax' I H; cbn [sweep_pixel] in H; [discriminate|].
  destruct (Z.eqb_spec (next_event E X south p av ax) 0) as [Q0|Q0].
  { injection H as <- <- <-. split; [eauto|]. split; [apply incl_refl|]. split; [apply incl_refl|]. split; [exact Q0|]. split; [lia|tauto]. }
  destruct (Z.eqb_spec (next_event E X south p av ax) 1) as [Q1|Q1].
  - destruct (event_1 _ _ _ _ _ _ Q1) as ([e s] & av2 & V & CO). rewrite V in H. pose proof (extract_perm _ _ _ _ _ V) as P.
    assert (KI : incl av2 av) by (intros v W; apply (ag_in _ _ _ P); auto). assert (KL : length av = Datatypes.S (length av2)) by (apply Permutation_length in P; exact P).
    assert (WR : forall equ2 ch2, inv av2 (at_pt p equ2 ++ R) r o ch2 -> sweep_pixel E X S south fuel p equ2 av2 ax = Done (equ', av', ax') ->
      (exists ch', inv av' (at_pt p equ' ++ R) r o ch') /\ incl av' av /\ incl ax' ax /\ next_event E X south p av' ax' = 0
      /\ (length av' + length ax' <= length av + length ax)%nat /\ (next_event E X south p av ax <> 0 -> (length av' + length ax' < length av + length ax)%nat)).
    { intros equ2 ch2 I2 H2. destruct (IH _ _ _ _ _ _ _ _ _ _ I2 H2) as (K1 & K2 & K3 & K4 & K5 & _). split; [exact K1|]. split; [eapply incl_tran; eauto|]. split; [exact K3|].
      split; [exact K4|]. split; [lia|intros _; lia]. }
    destruct (Bool.eqb south (edge_south (E e))) eqn:SO.
    + apply Bool.eqb_prop in SO. destruct s.
      * destruct (mem e equ) eqn:M; [|discriminate]. apply mem_iff in M. eapply WR; [|exact H]. 
        assert (NQ : NoDup equ) by (pose proof (i_nd _ _ _ _ _ _ _ _ _ _ _ I) as N; rewrite map_app, snd_at in N; eapply nodup_left; eauto).
        eapply finish; [|exact P]. eapply inv_perm; [|exact I]. unfold coord in CO. cbn [fst snd] in CO. subst p.
        rewrite (at_perm _ _ _ (remove_perm e equ NQ M)). reflexivity.
      * destruct (mem e equ) eqn:M; [discriminate|]. destruct (w_edge S e equ) as [k|]; [|discriminate]. unfold coord in CO. cbn [fst snd] in CO. subst p.
        pose proof (start _ _ _ _ _ _ _ I P (eq_sym SO) HP) as I2. eapply WR; [|exact H]. eapply inv_perm; [|exact I2].
        rewrite (at_perm _ _ _ (insert_perm _ k equ e)). reflexivity.
    + eapply WR; [|exact H]. eapply skip; [exact I|exact P|]. intros Q. rewrite Q, Bool.eqb_reflx in SO. discriminate.
  - destruct (event_2 _ _ _ _ _ _ Q0 Q1) as (x & ax2 & V & CO). rewrite V in H. pose proof (extract_perm _ _ _ _ _ V) as P.
    assert (KI : incl ax2 ax) by (intros v W; apply (Permutation_in _ (Permutation_sym P)); right; exact W). assert (KL : length ax = Datatypes.S (length ax2)) by (apply Permutation_length in P; exact P).
    destruct (edge_reverse E X south equ x) as [equ2| |] eqn:R2; try discriminate. apply (proj2 (edge_reverse_ok E X south equ x)) in R2.
    destruct (IH _ _ _ _ _ _ _ _ _ _ (inv_perm _ _ _ _ _ _ _ _ _ _ _ _ (Permutation_app_tail R (at_perm p _ _ R2)) I) H) as (K1 & K2 & K3 & K4 & K5 & _).
    split; [exact K1|]. split; [exact K2|]. split; [eapply incl_tran; eauto|]. split; [exact K4|]. split; [lia|intros _; lia].
Qed.
Lemma sweep_fuel : forall fuel p equ av ax, (length av + length ax < fuel)%nat -> sweep_pixel E X S south fuel p equ av ax <> Out.
Proof.
  induction fuel as [|fuel IH]; intros p equ av ax L; [lia|]. cbn [sweep_pixel].
  destruct (next_event E X south p av ax =? 0); [discriminate|]. destruct (next_event E X south p av ax =? 1).
  - destruct (extract_min (vertex2_cmp E south) av) as [[[e s] av2]|] eqn:V; [|discriminate]. apply extract_perm, Permutation_length in V. cbn [length] in V.
    destruct (Bool.eqb _ _); [|apply IH; lia]. destruct s; destruct (mem e equ); try discriminate; [apply IH; lia|]. destruct (w_edge S e equ); [apply IH; lia|discriminate].
  - destruct (extract_min (xing2_cmp X south) ax) as [[x ax2]|] eqn:V; [|discriminate]. apply extract_perm, Permutation_length in V. cbn [length] in V.
    destruct (edge_reverse E X south equ x) as [equ2| |] eqn:R2; [apply IH; lia|discriminate|]. destruct (edge_reverse_ok E X south equ x) as [K _]. congruence.
Qed.

(** The state between two pixels *)
Definition pinv (s : pstate) : Prop :=
  (exists ch, inv (agv s) (items (st s)) (res s) (ok s) ch)
  /\ incl (agx s) xs
  /\ (forall b, In b (st s) -> (forall v, In v (agv s) -> before south (bv b) (coord E v)) /\ (forall x, In x (agx s) -> before south (bv b) (xpix X x))).
Lemma finished_iff : forall s, finished s = true <-> agv s = [] /\ agx s = [].
Proof. intros s. unfold finished. destruct (agv s), (agx s); split; try discriminate; try tauto; intros [? ?]; try discriminate; auto. Qed.
Lemma step_inv : forall s, finished s = false -> pinv s -> pixel_step E X S south s <> Out /\ forall s', pixel_step E X S south s = Done s' ->
  pinv s' /\ (length (agv s') + length (agx s') < length (agv s) + length (agx s))%nat /\ (ok s' = true -> ok s = true).
Proof.
  intros s NF ((ch & I) & IX & HB). assert (NE : agv s <> [] \/ agx s <> []).
  { destruct (agv s) eqn:Q1; [|left; discriminate]. destruct (agx s) eqn:Q2; [|right; discriminate]. rewrite (proj2 (finished_iff s) (conj Q1 Q2)) in NF. discriminate. }
  unfold pixel_step. set (p := pixel E X south (agv s) (agx s)). destruct (pixel_min south E X _ _ NE) as (P1 & P2 & P3 & P4). fold p in P1, P2, P3, P4.
  assert (HP : hot p).
  { destruct P3 as [((i & sd) & V & ->) | (x & V & ->)].
    - left. exists i. split; [apply (proj2 (i_ag _ _ _ _ _ _ _ _ _ _ _ I) _ V)|]. unfold coord. cbn [fst snd]. destruct sd; auto.
    - right. exists x. split; [apply IX, V|reflexivity]. }
  assert (PB : forall b, In b (st s) -> before south (bv b) p).
  { intros b B. destruct (HB b B) as (B1 & B2). destruct P3 as [(v & V & ->) | (x & V & ->)]; auto. }
  clearbody p. destruct (cross E S p (st s) (res s) (ok s)) as [[[[l equ] r] o]|] eqn:C; [|split; discriminate].
  destruct (cross_inv E X S south ids xs r0 Hnd _ _ _ _ _ _ _ _ _ _ HP I PB C) as ((ch2 & I2) & K2 & K3).
  pose proof (sweep_fuel (Datatypes.S (length (agv s) + length (agx s))) p equ (agv s) (agx s) ltac:(lia)) as NO.
  destruct (sweep_pixel E X S south (Datatypes.S (length (agv s) + length (agx s))) p equ (agv s) (agx s)) as [[[equ' av'] ax']| |] eqn:SW; [|split; discriminate|tauto].
  destruct (insert_bundle S (mk_bundle p equ') l) as [l2|] eqn:IB; [|split; discriminate].
  assert (LP : Permutation (items l2) (items l ++ at_pt p equ') /\ forall b, In b l2 -> In b l \/ bv b = p).
  { unfold insert_bundle in IB. cbn [be] in IB. destruct equ' as [|e0 el]; [injection IB as <-; cbn [at_pt map]; rewrite app_nil_r; auto|].
    destruct (w_bundle S _ l) as [k|]; [|discriminate]. injection IB as <-. split.
    - rewrite items_app. change (items (mk_bundle p (e0 :: el) :: skipn k l)) with (at_pt p (e0 :: el) ++ items (skipn k l)).
      rewrite <- (firstn_skipn k l) at 3. rewrite items_app. perm.
    - intros b B. apply (Permutation_in _ (insert_perm _ _ _ _)) in B. destruct B as [<- | B]; auto. }
  destruct LP as (LP & LB).
  split; [discriminate|]. intros s' Q. injection Q as <-. cbn [agv agx st res ok].
  eapply inv_perm in I2; [|apply Permutation_app_comm]. destruct (sweep_inv _ _ HP _ _ _ _ _ _ _ _ _ _ I2 SW) as ((ch3 & I3) & J1 & J2 & J3 & _ & J4).
  destruct (event_0 _ _ _ _ _ _ J3) as (Z1 & Z2); [intros v V; apply P1, J1, V|intros x V; apply P2, J2, V|].
  split; [|split; [auto|exact K3]]. unfold pinv. cbn [agv agx st res ok]. split; [|split].
  - exists ch3. eapply inv_perm; [|exact I3]. rewrite LP. apply Permutation_app_comm.
  - eapply incl_tran; eauto.
  - intros b B. destruct (LB b B) as [B2 | ->]; [|auto]. destruct (K2 b B2) as (a & A1 & <-). destruct (HB a A1) as (B3 & B4).
    split; [intros v V; apply B3, J1, V|intros x V; apply B4, J2, V].
Qed.
Lemma loop_inv : forall fuel s, (length (agv s) + length (agx s) < fuel)%nat -> pinv s ->
  pass_loop E X S south fuel s <> Out /\ forall s', pass_loop E X S south fuel s = Done s' -> pinv s' /\ agv s' = [] /\ agx s' = [] /\ (ok s' = true -> ok s = true).
Proof.
  induction fuel as [|fuel IH]; intros s L I; [lia|]. cbn [pass_loop]. destruct (finished s) eqn:F.
  - split; [discriminate|]. intros s' Q. injection Q as <-. apply finished_iff in F. tauto.
  - destruct (step_inv s F I) as (NO & K). destruct (pixel_step E X S south s) as [s2| |]; [|split; discriminate|tauto].
    destruct (K s2 eq_refl) as (K1 & K2 & K3). destruct (IH s2 ltac:(lia) K1) as (J1 & J2). split; [exact J1|]. intros s' Q. destruct (J2 s' Q) as (J3 & J4 & J5 & J6). split; [exact J3|]. split; [exact J4|]. split; [exact J5|]. intros O. apply K3, J6, O.
Qed.

Lemma vertices_in : forall l i s, In (i, s) (vertices l) <-> In i l.
Proof.
  intros l i s. unfold vertices. rewrite <- in_rev, in_flat_map. split.
  - intros (x & I & [Q|[Q|[]]]); injection Q as <- <-; exact I.
  - intros I. exists i. split; [exact I|]. destruct s; cbn; auto.
Qed.
Lemma vertices_nodup : forall l, NoDup l -> NoDup (vertices l).
Proof.
  intros l N. unfold vertices. apply NoDup_rev. induction N as [|i l NI N IH]; [constructor|]. cbn [flat_map app].
  assert (NV : forall s, ~ In (i, s) (flat_map (fun e => [(e, LEFT); (e, RIGT)]) l)).
  { intros s I. apply in_rev in I. change (In (i, s) (vertices l)) in I. apply vertices_in in I. tauto. }
  constructor; [intros [Q|Q]; [discriminate|apply (NV _ Q)]|]. constructor; [apply NV|exact IH].
Qed.
Lemma routed_nil : forall l, routed E (fun _ => []) l = [].
Proof. unfold routed. induction l as [|a l IH]; [reflexivity|exact IH]. Qed.
Lemma pass_ok : forall o, ForallOrdPairs apart r0 ->
  phase2_pass E X S south ids xs r0 o <> Out /\ forall s, phase2_pass E X S south ids xs r0 o = Done s ->
  ForallOrdPairs apart (res s) /\ (ok s = true -> o = true) /\ (forall b, In b (st s) -> be b = [])
  /\ exists ch, (forall i, In i ids -> edge_south (E i) = south -> path (good E X ids xs (ok s) i) (before south) (left (E i)) (rigt (E i)) (ch i))
    /\ (forall i, edge_south (E i) <> south -> ch i = [])
    /\ (forall f, of_place f -> odd_members f (res s) = N.lxor (odd_members f r0) (odd_members f (routed E ch ids))).
Proof.
  intros o HA. unfold phase2_pass. destruct (distinct_xings X south xs); [|split; discriminate].
  set (s0 := mk_pstate (vertices ids) (rev xs) [] r0 o).
  assert (I0 : pinv s0).
  { unfold pinv, s0. cbn [agv agx st res ok]. split; [|split].
    - exists (fun _ => []). constructor.
      + constructor.
      + intros v i [].
      + intros i _ I. split; [|reflexivity]. apply vertices_in in I. apply vertices_in, I.
      + intros i I1 _ I2 _. destruct I2. apply vertices_in, I1.
      + intros i I1 _ I2. destruct I2. apply vertices_in, I1.
      + reflexivity.
      + split; [apply vertices_nodup, Hnd|]. intros [i s] I. apply vertices_in in I. exact I.
      + intros f _. rewrite routed_nil. symmetry. apply N.lxor_0_r.
      + exact HA.
    - intros x I. apply in_rev in I. exact I.
    - intros b []. }
  destruct (loop_inv (Datatypes.S (length (vertices ids) + length xs)) s0) with (2 := I0) as (NO & K); [unfold s0; cbn [agv agx]; rewrite rev_length; lia|].
  split; [exact NO|]. intros s Q. destruct (K s Q) as (((ch & I) & _ & _) & V & _ & O). rewrite V in I. destruct I as [H1 H2 H3 H4 H5 H6 H7 H8 H9].
  split; [exact H9|]. split; [exact O|]. split.
  - intros b B. destruct (be b) as [|i l] eqn:BE; [reflexivity|]. exfalso. destruct (H2 (bv b) i) as (_ & _ & _ & [] & _).
    unfold items. apply in_flat_map. exists b. split; [exact B|]. apply in_at. rewrite BE. cbn; auto.
  - exists ch. split; [intros i I1 I2; apply H5; auto|]. split; [exact H6|exact H8].
Qed.
End Snap.

(** Both passes *)
Lemma snap_ok : forall E X S ids xs, NoDup ids -> snap_round E X S ids xs <> Out /\ forall r o, snap_round E X S ids xs = Done (r, o) ->
  ForallOrdPairs apart r /\ exists ch, (forall i, In i ids -> path (good E X ids xs o i) (before (edge_south (E i))) (left (E i)) (rigt (E i)) (ch i))
  /\ (forall f, of_place f -> odd_members f r = odd_members f (routed E ch ids)).
Proof.
  intros E X S ids xs N. unfold snap_round. destruct (pass_ok E X S false ids xs [] N true) as (NO1 & K1); [constructor|].
  destruct (phase2_pass E X S false ids xs [] true) as [s1| |]; [|split; discriminate|tauto]. destruct (K1 s1 eq_refl) as (A1 & _ & _ & ch1 & P1 & Z1 & S1).
  destruct (pass_ok E X S true ids xs (res s1) N (ok s1) A1) as (NO2 & K2).
  destruct (phase2_pass E X S true ids xs (res s1) (ok s1)) as [s2| |]; [|split; discriminate|tauto]. destruct (K2 s2 eq_refl) as (A2 & O2 & _ & ch2 & P2 & Z2 & S2).
  split; [discriminate|]. intros r o Q. injection Q as <- <-. split; [exact A2|]. exists (fun i => if edge_south (E i) then ch2 i else ch1 i). split.
  - intros i I. destruct (edge_south (E i)) eqn:SO; [apply P2; auto|]. eapply path_mono; [|apply P1; auto]. intros p (G1 & G2). split; [exact G1|]. intros G3. apply G2, O2, G3.
  - intros f HF. rewrite S2, S1 by exact HF. change (odd_members f []) with 0%N. rewrite N.lxor_0_l, !routed_sum, <- xor_map2. f_equal. apply map_ext. intros i.
    destruct (edge_south (E i)) eqn:SO; [rewrite (Z1 i) by congruence; apply N.lxor_0_l|rewrite (Z2 i) by congruence; apply N.lxor_0_r].
Qed.

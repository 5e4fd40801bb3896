(** Proofs about the first phase of the sweep: splits, tests for intersection, and whole runs *)
From Coq Require Import ZArith QArith NArith List Bool Lia Arith ZifyBool.
From Verif Require Import Matq_model Matq_spec Matq_props Reduce_model Reduce_spec Sweep_model Sweep_spec Sweep_proofs Sweep_proofs2.
Import ListNotations.
Open Scope Z_scope.

Ltac go d := unfold ev_split, set_member, set_rigt, set_left, set_edge, check_order, agenda_update, agenda_insert, agenda_remove, state_replace,
    state_remove, edge_delete, edge_new, seq_op, check_op, with_edge, agenda_is_member, LEFT, RIGT;
  repeat first [ progress cbn [count edges agenda on_line left rigt member coord_of is_some negb andb]
    | progress lk
    | match goal with H : edges d ?i = _ |- context [edges d ?i] => rewrite H end
    | match goal with H : agenda d ?i ?s = _ |- context [agenda d ?i ?s] => rewrite H end
    | match goal with H : on_line d ?i = _ |- context [on_line d ?i] => rewrite H end
    | match goal with H : ?c = _ |- context [if ?c then _ else _] => rewrite H end ].

Lemma active_facts : forall d o oo, coherent None d -> edges d o = Some oo -> on_line d o = true ->
  (o < count d)%nat /\ lex_lt (left oo) (rigt oo) /\ int_edge oo /\ agenda d o false = None /\ agenda d o true = Some (rigt oo).
Proof.
  intros d o oo HC Ho Hl. pose proof (HC o) as H. rewrite Ho in H. cbv beta iota in H. unfold edge_state, LEFT, RIGT in H. rewrite Hl in H. intuition congruence.
Qed.
Lemma new_none : forall t d, coherent t d -> edges d (count d) = None /\ agenda d (count d) false = None /\ agenda d (count d) true = None /\ on_line d (count d) = false.
Proof.
  intros t d HC. pose proof (HC (count d)) as H. destruct (edges d (count d)) as [x|] eqn:Q; [destruct H as (H & _); lia|]. unfold LEFT, RIGT in H. tauto.
Qed.

Lemma split_ok : forall d o oo v, coherent None d -> edges d o = Some oo -> on_line d o = true -> splits v oo -> vec_int v ->
  exists d', ev_split v o d = Some d' /\ coherent None d' /\ same_tot d d'
  /\ (forall i, i <> o -> (i < count d)%nat -> edges d' i = edges d i) /\ (forall i, on_line d' i = on_line d i).
Proof.
  intros d o oo v HC Ho Hl (SC & S1 & S2) IV. destruct (active_facts d o oo HC Ho Hl) as (Oe & Lo & Io & B1 & B2).
  destruct (new_none None d HC) as (N1 & N2 & N3 & N4). assert (NO : o <> count d) by lia.
  pose proof (lex_cmp_true _ _ S1) as V1. pose proof (lex_cmp_true _ _ S2) as V2.
  go d. eexists. split; [reflexivity|]. split; [|split; [|split]].
  - intros i. cbn [count edges agenda on_line]. destruct (Nat.eq_dec i o) as [->|NQ]; [|destruct (Nat.eq_dec i (count d)) as [->|NQ2]]; lk.
    + unfold edge_state, LEFT, RIGT. cbn [count edges agenda on_line left rigt]. lk. rewrite B1, Hl. unfold int_edge in *. cbn [left rigt]. intuition lia.
    + unfold edge_state, LEFT, RIGT. cbn [count edges agenda on_line left rigt]. lk. rewrite N4. unfold int_edge in *. cbn [left rigt]. intuition lia.
    + pose proof (HC i) as H. cbv beta iota in H. unfold edge_state, LEFT, RIGT in *. revert H. destruct (edges d i); cbn [count edges agenda on_line]; lk; intros H; [intuition lia|exact H].
  - intros g G. cbn [count edges]. repeat first [rewrite tot_new | rewrite tot_upd by lia]. lk. rewrite Ho. unfold term, by_ends. cbn [left rigt member].
    rewrite (G _ _ _ SC S1 S2). destruct (g (left oo) v), (g v (rigt oo)); cbn [xorb]; xor_solve.
  - intros i I1 I2. cbn [edges]. lk. reflexivity.
  - intros i. reflexivity.
Qed.

(** ** A point that is on a segment, but not an end of it *)
Lemma on_segment_splits : forall v a b m, on_segment (inject_Z (fst v)) (inject_Z (snd v)) a b -> lex_lt a b -> v <> a -> v <> b -> splits v (mk_edge a b m).
Proof.
  intros [x y] [a1 a2] [b1 b2] m ((n & dd) & (T0 & T1) & X & Y) L NA NB. cbn [fst snd] in *.
  unfold Qle in T0, T1. unfold Qeq in X, Y. cbn in T0, T1, X, Y.
  assert (X' : (x - a1) * Zpos dd = n * (b1 - a1)) by (clear - X; lia).
  assert (Y' : (y - a2) * Zpos dd = n * (b2 - a2)) by (clear - Y; lia). clear X Y.
  set (D := Zpos dd) in *. assert (HD : 0 < D) by (unfold D; lia). assert (T0' : 0 <= n) by lia. assert (T1' : n <= D) by (unfold D; lia). clearbody D. clear T0 T1 dd.
  unfold splits, cross3_z, lex_lt in *. cbn [left rigt fst snd] in *.
  assert (N0 : n <> 0) by (intros ->; apply NA; f_equal; nia).
  assert (ND : n <> D) by (intros ->; apply NB; f_equal; nia).
  split; [|split].
  - assert (D * ((x - b1) * (a2 - b2) - (y - b2) * (a1 - b1)) = 0); [|nia].
    replace (D * ((x - b1) * (a2 - b2) - (y - b2) * (a1 - b1)))
      with (((x - a1) * D - D * (b1 - a1)) * (a2 - b2) - ((y - a2) * D - D * (b2 - a2)) * (a1 - b1)) by ring.
    rewrite X', Y'. ring.
  - destruct L as [L|(-> & L)]; [left|right]; nia.
  - destruct L as [L|(-> & L)]; [left|right]; nia.
Qed.
Lemma splits_dec : forall v e, {splits v e} + {~ splits v e}.
Proof.
  intros v e. destruct ((cross3_z v (rigt e) (left e) =? 0) && lex_ltb (left e) v && lex_ltb v (rigt e)) eqn:Q.
  - left. rewrite !andb_true_iff, Z.eqb_eq, !ltb_iff in Q. unfold splits. tauto.
  - right. intros (A & B & C). rewrite <- ltb_iff in B, C. rewrite A, B, C in Q. discriminate.
Qed.
Lemma point_eq : forall v x y, point_is v x y -> forall a b, on_segment x y a b -> on_segment (inject_Z (fst v)) (inject_Z (snd v)) a b.
Proof.
  intros v x y (A & B) a b (t & T & X & Y). exists t. split; [exact T|]. rewrite <- A, <- B. auto.
Qed.
Lemma point_neq : forall v w x y, point_is v x y -> ~ point_is w x y -> v <> w.
Proof. intros v w x y A B ->. contradiction. Qed.
Lemma not_parallel_dec : forall a b c d, {parallel a b c d} + {~ parallel a b c d}.
Proof. intros. unfold parallel. apply Z.eq_dec. Qed.

(** What the return values mean for the edges *)
Section Pair.
Variables (pp nn : edge) (ii : Z) (it : option vec2if).
Hypothesis HI : intersect_spec (left pp) (rigt pp) (left nn) (rigt nn) ii it.
Hypothesis Lp : lex_lt (left pp) (rigt pp).
Hypothesis Ln : lex_lt (left nn) (rigt nn).
Hypothesis Hpos : 0 < ii.

Lemma stable : forall P : Prop, (P \/ ~ P) -> (forall x y, on_segment x y (left pp) (rigt pp) -> on_segment x y (left nn) (rigt nn) -> P) -> P.
Proof.
  intros P [H|H] K; [exact H|exfalso].
  destruct HI as (I1 & I2 & I3). destruct (not_parallel_dec (left pp) (rigt pp) (left nn) (rigt nn)) as [Q|Q].
  - destruct (I1 Q). lia.
  - destruct (I2 Q); [|lia]. intros x y A B. apply H. eapply K; eauto.
Qed.
Lemma common : forall x y, on_segment x y (left pp) (rigt pp) -> on_segment x y (left nn) (rigt nn) ->
  exists vx vy, it = Some (vx, vy) /\ valid vx /\ valid vy /\ (value vx == x)%Q /\ (value vy == y)%Q /\
     (Z.testbit ii 1 = true <-> point_is (left pp) x y) /\ (Z.testbit ii 2 = true <-> point_is (rigt pp) x y) /\
     (Z.testbit ii 3 = true <-> point_is (left nn) x y) /\ (Z.testbit ii 4 = true <-> point_is (rigt nn) x y).
Proof.
  intros x y A B. destruct HI as (I1 & I2 & I3). destruct (not_parallel_dec (left pp) (rigt pp) (left nn) (rigt nn)) as [Q|Q].
  - destruct (I1 Q). lia.
  - destruct (I3 Q x y A B) as (vx & vy & R). exists vx, vy. tauto.
Qed.
Ltac dec_splits v e := let H := fresh in destruct (splits_dec v e) as [H|H]; [left; exact H|right; exact H].
Lemma pair3 : ii = 3 -> splits (left pp) nn.
Proof.
  intros E. apply stable; [dec_splits (left pp) nn|]. intros x y A B. destruct (common x y A B) as (vx & vy & _ & _ & _ & _ & _ & B1 & B2 & B3 & B4).
  rewrite E in *. cbn in B1, B2, B3, B4. destruct nn as [nl nr nm]. cbn [left rigt] in *.
  apply on_segment_splits; [eapply point_eq; [apply B1; reflexivity|exact B]|exact Ln|eapply point_neq; [apply B1; reflexivity|]|eapply point_neq; [apply B1; reflexivity|]];
    intros X; [apply B3 in X|apply B4 in X]; discriminate.
Qed.
Lemma pair5 : ii = 5 -> splits (rigt pp) nn.
Proof.
  intros E. apply stable; [dec_splits (rigt pp) nn|]. intros x y A B. destruct (common x y A B) as (vx & vy & _ & _ & _ & _ & _ & B1 & B2 & B3 & B4).
  rewrite E in *. cbn in B1, B2, B3, B4. destruct nn as [nl nr nm]. cbn [left rigt] in *.
  apply on_segment_splits; [eapply point_eq; [apply B2; reflexivity|exact B]|exact Ln|eapply point_neq; [apply B2; reflexivity|]|eapply point_neq; [apply B2; reflexivity|]];
    intros X; [apply B3 in X|apply B4 in X]; discriminate.
Qed.
Lemma pair9 : ii = 9 -> splits (left nn) pp.
Proof.
  intros E. apply stable; [dec_splits (left nn) pp|]. intros x y A B. destruct (common x y A B) as (vx & vy & _ & _ & _ & _ & _ & B1 & B2 & B3 & B4).
  rewrite E in *. cbn in B1, B2, B3, B4. destruct pp as [nl nr nm]. cbn [left rigt] in *.
  apply on_segment_splits; [eapply point_eq; [apply B3; reflexivity|exact A]|exact Lp|eapply point_neq; [apply B3; reflexivity|]|eapply point_neq; [apply B3; reflexivity|]];
    intros X; [apply B1 in X|apply B2 in X]; discriminate.
Qed.
Lemma pair17 : ii = 17 -> splits (rigt nn) pp.
Proof.
  intros E. apply stable; [dec_splits (rigt nn) pp|]. intros x y A B. destruct (common x y A B) as (vx & vy & _ & _ & _ & _ & _ & B1 & B2 & B3 & B4).
  rewrite E in *. cbn in B1, B2, B3, B4. destruct pp as [nl nr nm]. cbn [left rigt] in *.
  apply on_segment_splits; [eapply point_eq; [apply B4; reflexivity|exact A]|exact Lp|eapply point_neq; [apply B4; reflexivity|]|eapply point_neq; [apply B4; reflexivity|]];
    intros X; [apply B1 in X|apply B2 in X]; discriminate.
Qed.
Lemma value_int : forall v, dif_n v = 0 -> (value v == inject_Z (dif_i v))%Q.
Proof. intros v H. unfold value. rewrite H. unfold Qdiv. rewrite Qmult_0_l, Qplus_0_r. reflexivity. Qed.
Lemma pair1 : forall vx vy, ii = 1 -> it = Some (vx, vy) -> dif_n vx = 0 -> dif_n vy = 0 ->
  splits (dif_i vx, dif_i vy) pp /\ splits (dif_i vx, dif_i vy) nn /\ vec_int (dif_i vx, dif_i vy).
Proof.
  intros vx vy E ET N1 N2. 
  assert (DV : (splits (dif_i vx, dif_i vy) pp /\ splits (dif_i vx, dif_i vy) nn /\ vec_int (dif_i vx, dif_i vy))
    \/ ~ (splits (dif_i vx, dif_i vy) pp /\ splits (dif_i vx, dif_i vy) nn /\ vec_int (dif_i vx, dif_i vy))).
  { destruct (splits_dec (dif_i vx, dif_i vy) pp), (splits_dec (dif_i vx, dif_i vy) nn); try tauto.
    unfold vec_int, is_int. cbn [fst snd]. assert (forall a b c : Z, (a <= b <= c) \/ ~ (a <= b <= c)) by (intros; lia).
    destruct (H (-2147483648) (dif_i vx) 2147483647), (H (-2147483648) (dif_i vy) 2147483647); tauto. }
  apply stable; [exact DV|]. intros x y A B. destruct (common x y A B) as (vx' & vy' & Q & V1 & V2 & W1 & W2 & B1 & B2 & B3 & B4).
  rewrite ET in Q. inversion Q; subst vx' vy'. rewrite E in *. cbn in B1, B2, B3, B4.
  rewrite value_int in W1 by exact N1. rewrite value_int in W2 by exact N2.
  assert (P : point_is (dif_i vx, dif_i vy) x y) by (split; cbn [fst snd]; symmetry; assumption).
  split; [|split].
  - destruct pp as [nl nr nm]. cbn [left rigt] in *. apply on_segment_splits; [eapply point_eq; eassumption|exact Lp|eapply point_neq; [exact P|]|eapply point_neq; [exact P|]];
      intros X; [apply B1 in X|apply B2 in X]; discriminate.
  - destruct nn as [nl nr nm]. cbn [left rigt] in *. apply on_segment_splits; [eapply point_eq; eassumption|exact Ln|eapply point_neq; [exact P|]|eapply point_neq; [exact P|]];
      intros X; [apply B3 in X|apply B4 in X]; discriminate.
  - unfold vec_int. cbn [fst snd]. split; [apply V1|apply V2].
Qed.
End Pair.

Lemma same_tot_refl : forall d, same_tot d d. Proof. intros d g G. reflexivity. Qed.
Lemma same_tot_trans : forall a b c, same_tot a b -> same_tot b c -> same_tot a c.
Proof. intros a b c H1 H2 g G. rewrite (H2 g G). apply H1, G. Qed.

Lemma pair_ok : forall d beyond a b, coherent None d -> on_line d a = true -> on_line d b = true -> a <> b ->
  forall d', ev_pair beyond a b d = Some d' -> coherent None d' /\ same_tot d d'.
Proof.
  intros d beyond a b HC La Lb NAB d'. unfold ev_pair, with_edge.
  destruct (edges d a) as [pp|] eqn:Ea; [|discriminate]. destruct (edges d b) as [nn|] eqn:Eb; [|discriminate].
  destruct (active_facts d a pp HC Ea La) as (Ca & Lp & (Ia1 & Ia2) & _ & _). destruct (active_facts d b nn HC Eb Lb) as (Cb & Ln & (Ib1 & Ib2) & _ & _).
  pose proof (C05_intersect _ _ _ _ Ia1 Ia2 Ib1 Ib2) as HI. destruct (vec2if_intersect (left pp) (rigt pp) (left nn) (rigt nn)) as [[ii it]| |]; try discriminate.
  destruct (Z.eqb_spec ii 3) as [I|_].
  { pose proof (pair3 pp nn ii it HI Ln ltac:(lia) I) as S. destruct (split_ok d b nn (left pp) HC Eb Lb S Ia1) as (d1 & R & K1 & K2 & _). rewrite R. intros Q; inversion Q; subst. auto. }
  destruct (Z.eqb_spec ii 5) as [I|_].
  { pose proof (pair5 pp nn ii it HI Ln ltac:(lia) I) as S. destruct (split_ok d b nn (rigt pp) HC Eb Lb S Ia2) as (d1 & R & K1 & K2 & _). rewrite R. intros Q; inversion Q; subst. auto. }
  destruct (Z.eqb_spec ii 9) as [I|_].
  { pose proof (pair9 pp nn ii it HI Lp ltac:(lia) I) as S. destruct (split_ok d a pp (left nn) HC Ea La S Ib1) as (d1 & R & K1 & K2 & _). rewrite R. intros Q; inversion Q; subst. auto. }
  destruct (Z.eqb_spec ii 17) as [I|_].
  { pose proof (pair17 pp nn ii it HI Lp ltac:(lia) I) as S. destruct (split_ok d a pp (rigt nn) HC Ea La S Ib2) as (d1 & R & K1 & K2 & _). rewrite R. intros Q; inversion Q; subst. auto. }
  destruct (Z.eqb_spec ii 1) as [I|_]; [|intros Q; inversion Q; subst; split; [exact HC|apply same_tot_refl]].
  destruct beyond; [|intros Q; inversion Q; subst; split; [exact HC|apply same_tot_refl]].
  destruct it as [[vx vy]|]; [|discriminate].
  unfold seq_op at 1, check_op at 1. rewrite La. unfold seq_op at 1, check_op at 1. rewrite Lb.
  destruct ((dif_n vx =? 0) && (dif_n vy =? 0)) eqn:NN; [|intros Q; inversion Q; subst; split; [exact HC|apply same_tot_refl]].
  apply andb_true_iff in NN. rewrite !Z.eqb_eq in NN. destruct NN as (N1 & N2).
  destruct (pair1 pp nn ii (Some (vx, vy)) HI Lp Ln ltac:(lia) vx vy I eq_refl N1 N2) as (S1 & S2 & VI).
  destruct (split_ok d a pp _ HC Ea La S1 VI) as (d1 & R1 & K1 & K2 & K3 & K4). unfold seq_op. rewrite R1.
  assert (Eb' : edges d1 b = Some nn) by (rewrite K3; auto). assert (Lb' : on_line d1 b = true) by (rewrite K4; auto).
  destruct (split_ok d1 b nn _ K1 Eb' Lb' S2 VI) as (d2 & R2 & J1 & J2 & _). rewrite R2. intros Q; inversion Q; subst. split; [exact J1|eapply same_tot_trans; eauto].
Qed.

(** ** Steps *)
Lemma take_left : forall d e k, coherent None d -> agenda d e LEFT = Some k ->
  exists ee, edges d e = Some ee /\ k = left ee /\ agenda d e RIGT = Some (rigt ee) /\ on_line d e = false /\ coherent (Some e) (take e LEFT d).
Proof.
  intros d e k HC A. pose proof (HC e) as H. destruct (edges d e) as [ee|] eqn:Ee; [|destruct H; congruence].
  exists ee. split; [reflexivity|]. destruct H as (H1 & H2 & H3 & H4). cbv beta iota in H4. unfold edge_state in H4. rewrite A in H4.
  destruct H4 as [(X & Y & W)|[(X & _)|(X & _)]]; try discriminate. inversion X; subst k. split; [reflexivity|]. split; [exact Y|]. split; [exact W|].
  intros i. unfold take. cbn [count edges agenda on_line]. destruct (Nat.eq_dec i e) as [->|N].
  - rewrite Ee, Nat.eqb_refl. unfold LEFT, RIGT in *. lk. intuition.
  - rewrite (proj2 (Nat.eqb_neq e i)) by auto. pose proof (HC i) as H. cbv beta iota in H. unfold edge_state, LEFT, RIGT in *. cbn [agenda on_line]. lk. exact H.
Qed.
Lemma step_ok : forall d d', coherent None d -> sstep d (Some d') -> coherent None d' /\ same_tot d d'.
Proof.
  intros d d' HC S. remember (Some d') as x eqn:X. destruct S as [d e k A MIN|d e k o ee oo A MIN Lo Ee Eo EQ|d e k A MIN|d beyond a b La Lb N].
  - destruct (take_left d e k HC A) as (ee & Ee & -> & AR & OL & HT).
    unfold ev_left, seq_op, check_op in X. cbn [on_line take] in X. rewrite OL in X. cbn [negb] in X. inversion X; subst d'. clear X.
    split; [|intros g G; reflexivity].
    intros i. pose proof (HT i) as H. cbv beta iota in H. unfold take in *. cbn [count edges agenda on_line] in *.
    destruct (Nat.eq_dec i e) as [->|N].
    + rewrite Ee, Nat.eqb_refl in *. unfold edge_state. cbn [agenda on_line]. lk. intuition.
    + rewrite (proj2 (Nat.eqb_neq e i)) in H by auto. revert H. destruct (edges d i); unfold edge_state; cbn [agenda on_line]; lk; auto.
  - destruct (take_left d e k HC A) as (ee' & Ee' & -> & AR & OL & HT). rewrite Ee in Ee'. inversion Ee'; subst ee'. clear Ee'.
    unfold ev_left, seq_op at 1, check_op at 1 in X. cbn [on_line take] in X. rewrite OL in X. cbn [negb] in X.
    unfold with_edge in X. cbn [edges take] in X. rewrite Ee, Eo in X. unfold seq_op at 1, check_op at 1 in X.
    destruct (vec2_cmp (left ee) (rigt oo) =? 0) eqn:NE; [discriminate|]. cbn [negb] in X.
    assert (EQ' : cross3_z (left ee) (rigt oo) (left oo) = 0 /\ cross3_z (rigt oo) (left ee) (rigt ee) = 0).
    { unfold equal_edge, tree_vertex_edge_cmp, vec2_edge_cmp_exact, sign, cp_cmp in EQ. clear - EQ.
      destruct (Z.ltb_spec (cross3_z (left ee) (rigt oo) (left oo)) 0), (Z.ltb_spec 0 (cross3_z (left ee) (rigt oo) (left oo))); cbn in EQ; try discriminate;
      destruct (Z.ltb_spec (cross3_z (rigt oo) (left ee) (rigt ee)) 0), (Z.ltb_spec 0 (cross3_z (rigt oo) (left ee) (rigt ee))); cbn in EQ; try discriminate; lia. }
    destruct (active_facts d o oo HC Eo Lo) as (_ & _ & _ & _ & AO).
    assert (L2 : lex_lt (left ee) (rigt oo)).
    { specialize (MIN o RIGT (rigt oo) AO). apply vec2_cmp_lt. lia. }
    pose proof (overlap_ok (take e LEFT d) e o ee oo HT Ee Eo Lo (proj1 EQ') (proj2 EQ') L2) as OK. rewrite X in OK. exact OK.
  - unfold state_remove, seq_op, check_op in X. cbn [on_line take] in X. destruct (on_line d e) eqn:OL; [|discriminate]. inversion X; subst d'. clear X.
    split; [|intros g G; reflexivity]. intros i. pose proof (HC i) as H. cbv beta iota in H. unfold take. cbn [count edges agenda on_line].
    destruct (Nat.eq_dec i e) as [->|N].
    + destruct (edges d e) as [ee|] eqn:Ee; [|destruct H as (_ & H & _); congruence].
      unfold edge_state in *. cbn [agenda on_line]. unfold LEFT, RIGT in *. lk. rewrite OL in H. intuition (first [congruence|auto]).
    + unfold edge_state, LEFT, RIGT in *. cbn [agenda on_line]. lk. exact H.
  - exact (pair_ok d beyond a b HC La Lb N d' X).
Qed.
Lemma steps_ok : forall d d', ssteps d d' -> coherent None d -> coherent None d' /\ same_tot d d'.
Proof.
  intros d d' H. induction H as [d|d d1 d2 S _ IH]; intros HC; [split; [exact HC|apply same_tot_refl]|].
  destruct (step_ok d d1 HC S) as (K1 & K2). destruct (IH K1) as (J1 & J2). split; [exact J1|eapply same_tot_trans; eauto].
Qed.
